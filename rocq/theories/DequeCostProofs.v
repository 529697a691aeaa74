(** The counting deque is the deque with a counter; what each step costs. *)
From Verif Require Import Base Wp DequeModel SegmentProofs DequeLists DequeProofs DequeOps DequeCostModel.
Open Scope Z_scope.
Open Scope go_scope.

Section proofs.
  Context {T : Type} (zero : T) (newcap : Z → Z).
  Implicit Types (d : deque T) (w : cdeque T).
  (** the run without the counter *)
  Definition erases {A} (cm : M (cdeque T) A) (m : M (deque T) A) : Prop := ∀ w,
    match cm w with Ok (a, w') => m (cd_dq w) = Ok (a, cd_dq w') | Panic => m (cd_dq w) = Panic | Fuel => m (cd_dq w) = Fuel end.
  Lemma er_ret {A} (a : A) : erases (mret_ a) (mret_ a).
  Proof using. by intros w. Qed.
  Lemma er_bind {A B} cm m (cf : A → M (cdeque T) B) f : erases cm m → (∀ a, erases (cf a) (f a)) → erases (let! a := cm in cf a) (let! a := m in f a).
  Proof using.
    intros H1 H2 w. specialize (H1 w). unfold mbind_. destruct (cm w) as [[a w']| |]; rewrite H1; [|done|done]. apply H2.
  Qed.
  Lemma er_free {A} (m : M (deque T) A) : erases (free m) m.
  Proof using. intros w. unfold free. by destruct (m (cd_dq w)) as [[a d]| |]. Qed.
  Lemma er_pay {A} n cm (m : M (deque T) A) : erases cm m → erases (pay n ;; cm) m.
  Proof using. intros H w. apply (H (MkCD (cd_dq w) (cd_cap w) (cd_cost w + n))). Qed.
  Lemma er_cap {A} (cf : Z → M (cdeque T) A) m : (∀ c, erases (cf c) m) → erases (let! c := get_cap in cf c) m.
  Proof using. intros H w. apply (H (cd_cap w) w). Qed.
  (** a first part that only counts *)
  Definition silent (cm : M (cdeque T) unit) : Prop := ∀ w, ∃ w', cm w = Ok (tt, w') ∧ cd_dq w' = cd_dq w.
  Lemma er_silent {A} c cm (m : M (deque T) A) : silent c → erases cm m → erases (c ;; cm) m.
  Proof using. intros Hc H w. destruct (Hc w) as (w' & E & Ed). unfold mbind_. rewrite E. specialize (H w'). by rewrite Ed in H. Qed.
  Lemma er_if {A} (b : bool) cm1 cm2 (m1 m2 : M (deque T) A) : erases cm1 m1 → erases cm2 m2 → erases (if b then cm1 else cm2) (if b then m1 else m2).
  Proof using. by destruct b. Qed.
  Lemma er_ext {A} cm (m m' : M (deque T) A) : erases cm m → (∀ d, m d = m' d) → erases cm m'.
  Proof using. intros H E w. rewrite <-E. apply H. Qed.

  Ltac er := repeat lazymatch goal with
    | |- erases (free _) _ => apply er_free | |- erases (mret_ _) (mret_ _) => apply er_ret | |- erases (mbind_ (pay _) _) _ => apply er_pay
    | |- erases (mbind_ _ _) (mbind_ _ _) => apply er_bind; [|intros ?] | |- erases (if _ then _ else _) (if _ then _ else _) => apply er_if end.
  Lemma er_skip {A B} (cm : M (cdeque T) B) (cf : B → M (cdeque T) A) m : (∀ w, ∃ b w', cm w = Ok (b, w') ∧ cd_dq w' = cd_dq w) → (∀ b, erases (cf b) m) → erases (let! b := cm in cf b) m.
  Proof using. intros Hc H w. destruct (Hc w) as (b & w' & E & Ed). unfold mbind_. rewrite E. specialize (H b w'). by rewrite Ed in H. Qed.
  Lemma sk_get w : ∃ b w', free dget w = Ok (b, w') ∧ cd_dq w' = cd_dq w.
  Proof using. by eexists _, _. Qed.
  Lemma er_pool_get : erases (cd_pool_get zero) (pool_get zero).
  Proof using. apply er_skip; [apply sk_get|]. intros d. destruct (last (dq_pool d)); [apply er_free|apply er_pay, er_free]. Qed.
  Lemma er_pool_put p : erases (cd_pool_put newcap p) (pool_put p).
  Proof using.
    apply er_skip; [apply sk_get|]. intros d. apply er_cap. intros c. apply er_silent; [|apply er_pay, er_free]. intros w. destruct (c <=? _); by eexists.
  Qed.
  Lemma er_pool_shrink n : erases (cd_pool_shrink n) (pool_shrink n).
  Proof using. apply er_skip; [apply sk_get|]. intros d. apply er_silent; [|apply er_free]. intros w. destruct (n <? _); by eexists. Qed.
  Lemma er_put_to_pool p : erases (cd_put_to_pool newcap p) (put_to_pool p).
  Proof using. unfold cd_put_to_pool, put_to_pool. er; [apply er_pool_put|apply er_pool_shrink]. Qed.
  Lemma er_copy n i m fresh : erases (cd_copy_segs n i m fresh) (copy_segs n i m fresh).
  Proof using.
    revert i fresh. induction n as [|n IH]; intros i fresh; cbn [cd_copy_segs copy_segs]; er. destruct (upd fresh i _); [apply IH|by intros w|by intros w].
  Qed.
  Lemma er_expand : erases cd_expand expand.
  Proof using. unfold cd_expand, expand. er. apply er_copy. Qed.
  Lemma er_shrink : erases cd_shrink_if_needed shrink_if_needed.
  Proof using. unfold cd_shrink_if_needed, shrink_if_needed. er. apply er_copy. Qed.
  Lemma er_expand_if_full : erases cd_expand_if_full expand_if_full.
  Proof using. unfold cd_expand_if_full, expand_if_full. er. apply er_expand. Qed.
  Lemma er_grow_front : erases (cd_grow_front zero) (grow_front zero).
  Proof using. unfold cd_grow_front, grow_front. er. apply er_pool_get. Qed.
  Lemma er_grow_back : erases (cd_grow_back zero) (grow_back zero).
  Proof using. unfold cd_grow_back, grow_back. er. apply er_pool_get. Qed.
  Lemma er_first_available : erases (cd_first_available zero) (first_available zero).
  Proof using. unfold cd_first_available, first_available. er; [apply er_expand_if_full|apply er_grow_front]. Qed.
  Lemma er_last_available : erases (cd_last_available zero) (last_available zero).
  Proof using. unfold cd_last_available, last_available. er; [apply er_expand_if_full|apply er_grow_back]. Qed.
  Lemma er_push_front x : erases (cd_push_front zero x) (dq_push_front zero x).
  Proof using. unfold cd_push_front, dq_push_front. er; [apply er_first_available|apply er_expand_if_full]. Qed.
  Lemma er_push_back x : erases (cd_push_back zero x) (dq_push_back zero x).
  Proof using. unfold cd_push_back, dq_push_back. er; [apply er_last_available|apply er_expand_if_full]. Qed.
  Lemma er_panic {A} : erases (@mpanic (cdeque T) A) mpanic.
  Proof using. by intros w. Qed.
  Lemma er_pop_front : erases (cd_pop_front newcap) dq_pop_front.
  Proof using. unfold cd_pop_front, dq_pop_front. er; [apply er_panic|apply er_put_to_pool|apply er_shrink]. Qed.
  Lemma er_pop_back : erases (cd_pop_back newcap) dq_pop_back.
  Proof using. unfold cd_pop_back, dq_pop_back. er; [apply er_panic|apply er_put_to_pool|apply er_shrink]. Qed.
  Lemma er_step o : is_Some (cd_call zero newcap o) → erases (cd_step zero newcap o) (dq_step zero o).
  Proof using.
    intros [m Hm]. unfold cd_step. apply er_pay. rewrite Hm. destruct o; cbn [cd_call] in Hm; try discriminate Hm; injection Hm as <-; try apply er_free; cbn [dq_step]; er.
    - apply er_push_front. - apply er_push_back. - apply er_pop_front. - apply er_pop_back.
  Qed.

  (** code that changes nothing *)
  Definition reads {A} (m : M (deque T) A) : Prop := ∀ d a d', m d = Ok (a, d') → d' = d.
  Lemma rd_ret {A} (a : A) : reads (mret_ a).
  Proof using. intros d b d' E. by injection E. Qed.
  Lemma rd_bind {A B} (m : M (deque T) A) (f : A → M (deque T) B) : reads m → (∀ a, reads (f a)) → reads (let! a := m in f a).
  Proof using. intros H1 H2 d b d' E. unfold mbind_ in E. destruct (m d) as [[a d1]| |] eqn:E1; try done. apply H1 in E1 as ->. by apply H2 in E. Qed.
  Lemma rd_get : reads dget. Proof using. intros d b d' E. by injection E. Qed.
  Lemma rd_gomod a b : reads (gomod a b).
  Proof using. unfold gomod. destruct (b =? 0); [by intros d x d' E|apply rd_ret]. Qed.
  Lemma rd_seg_get i : reads (seg_get i).
  Proof using. intros d b d' E. unfold seg_get in E. destruct (idx _ _); try done. by injection E. Qed.
  Lemma rd_ask {A} p (f : segment T → A) : reads (ask p f).
  Proof using. intros d b d' E. unfold ask in E. destruct p as [a|]; [|done]. destruct (dq_heap d !! a); [|done]. by injection E. Qed.
  Lemma rd_if {A} (b : bool) (m1 m2 : M (deque T) A) : reads m1 → reads m2 → reads (if b then m1 else m2).
  Proof using. by destruct b. Qed.
  Ltac rd := repeat lazymatch goal with
    | |- reads (mret_ _) => apply rd_ret | |- reads (mbind_ _ _) => apply rd_bind; [|intros ?] | |- reads dget => apply rd_get | |- reads (gomod _ _) => apply rd_gomod
    | |- reads (seg_get _) => apply rd_seg_get | |- reads (ask _ _) => apply rd_ask | |- reads (if _ then _ else _) => apply rd_if end.
  Lemma rd_len : reads d_len. Proof using. unfold d_len. rd. Qed.
  Lemma rd_used : reads seg_used. Proof using. unfold seg_used. rd. Qed.
  Lemma rd_next i : reads (d_next i). Proof using. unfold d_next, d_len. rd. Qed.
  Lemma rd_pre i : reads (d_pre i). Proof using. unfold d_pre, d_len. rd. Qed.
  Lemma rd_first : reads first_segment. Proof using. unfold first_segment, d_len. rd. Qed.
  Lemma rd_last : reads last_segment. Proof using. unfold last_segment, d_pre, d_len. rd. Qed.

  (** what holds if the run ends *)
  Definition post {A} (cm : M (cdeque T) A) w (Q : A → cdeque T → Prop) : Prop := ∀ a w', cm w = Ok (a, w') → Q a w'.
  Lemma post_ret {A} (a : A) w (Q : A → cdeque T → Prop) : Q a w → post (mret_ a) w Q.
  Proof using. intros H b w' E. by injection E as <- <-. Qed.
  Lemma post_bind {A B} (cm : M (cdeque T) A) (cf : A → M (cdeque T) B) w (Q : B → cdeque T → Prop) : post cm w (λ a w1, post (cf a) w1 Q) → post (let! a := cm in cf a) w Q.
  Proof using. intros H b w' E. unfold mbind_ in E. destruct (cm w) as [[a w1]| |] eqn:E1; try done. by eapply H. Qed.
  Lemma post_mono {A} cm w (Q Q' : A → cdeque T → Prop) : post cm w Q → (∀ a w', Q a w' → Q' a w') → post cm w Q'.
  Proof using. intros H HQ a w' E. by apply HQ, H. Qed.
  Lemma post_free {A} (m : M (deque T) A) w (Q : A → cdeque T → Prop) : (∀ a d', m (cd_dq w) = Ok (a, d') → Q a (MkCD d' (cd_cap w) (cd_cost w))) → post (free m) w Q.
  Proof using. intros H a w' E. unfold free in E. destruct (m (cd_dq w)) as [[b d']| |] eqn:E1; try done. injection E as <- <-. by apply H. Qed.
  Lemma post_read {A} (m : M (deque T) A) w (Q : A → cdeque T → Prop) : reads m → (∀ a, m (cd_dq w) = Ok (a, cd_dq w) → Q a w) → post (free m) w Q.
  Proof using. intros Hm H. apply post_free. intros a d' E. pose proof (Hm _ _ _ E) as ->. destruct w. by apply H. Qed.
  Lemma post_pay n w (Q : unit → cdeque T → Prop) : Q tt (MkCD (cd_dq w) (cd_cap w) (cd_cost w + n)) → post (pay n) w Q.
  Proof using. intros H a w' E. by injection E as <- <-. Qed.
  Lemma post_panic {A} w (Q : A → cdeque T → Prop) : post mpanic w Q.
  Proof using. by intros a w' E. Qed.

  (** numbers: used slots (segUsed), slots, pooled segments *)
  Definition us d : Z := if dq_size d =? 0 then 0 else if dq_begin d <? dq_end d then dq_end d - dq_begin d else Z.of_nat (length (dq_segs d)) - dq_begin d + dq_end d.
  Definition cs d : Z := Z.of_nat (length (dq_segs d)).
  Definition pl d : Z := Z.of_nat (length (dq_pool d)).
  Lemma used_is d : seg_used d = Ok (us d, d). Proof using. done. Qed.
  Lemma len_is d : d_len d = Ok (cs d, d). Proof using. done. Qed.
  (** the same shape; only contents and slots may differ *)
  Definition same d d' : Prop := dq_pool d' = dq_pool d ∧ length (dq_segs d') = length (dq_segs d) ∧ dq_begin d' = dq_begin d ∧ dq_end d' = dq_end d ∧ dq_size d' = dq_size d.
  Lemma same_call {A} p (m : M (segment T) A) d a d' : call p m d = Ok (a, d') → same d d'.
  Proof using.
    unfold call. destruct p as [b|]; [|done]. destruct (dq_heap d !! b); [|done]. destruct (m s) as [[x s']| |]; try done. intros E. injection E as <- <-. done.
  Qed.
  Lemma same_seg_put i p d a d' : seg_put i p d = Ok (a, d') → same d d'.
  Proof using.
    unfold seg_put. destruct (upd (dq_segs d) i p) as [s| |] eqn:E; try done. intros E'. injection E' as <- <-. unfold same. cbn. split_and!; try done.
    unfold upd in E. destruct (_ : bool); [|done]. injection E as <-. by rewrite insert_length.
  Qed.
  Lemma same_us d d' : same d d' → us d' = us d ∧ cs d' = cs d ∧ pl d' = pl d.
  Proof using. intros (E1 & E2 & E3 & E4 & E5). unfold us, cs, pl. by rewrite E1, E2, E3, E4, E5. Qed.

  Lemma post_copy n i m fresh w : post (cd_copy_segs n i m fresh) w (λ r w', length r = length fresh ∧ w' = MkCD (cd_dq w) (cd_cap w) (cd_cost w + Z.of_nat n)).
  Proof using.
    clear zero newcap.
    revert i fresh w. induction n as [|n IH]; intros i fresh w; cbn [cd_copy_segs].
    - apply post_ret. split; [done|]. destruct w. cbn. by rewrite Z.add_0_r.
    - apply post_bind, post_pay, post_bind, post_read; [apply rd_get|]. intros d _. apply post_bind, post_read; [apply rd_gomod|]. intros k _. apply post_bind, post_read; [apply rd_seg_get|]. intros p _.
      destruct (upd fresh i p) as [fresh'| |] eqn:E; [|apply post_panic|by intros ? ? ?].
      eapply post_mono; [apply IH|]. cbn [cd_dq cd_cap cd_cost]. intros r w' [Hl ->]. split; [|f_equal; lia]. rewrite Hl.
      unfold upd in E. destruct (_ : bool); [|done]. injection E as <-. by rewrite insert_length.
  Qed.
  Definition room u : Z := if u * 2 =? 0 then 1 else u * 2.
  Lemma post_expand_if_full w : post cd_expand_if_full w (λ _ w', let d := cd_dq w in let d' := cd_dq w' in
    us d < cs d ∧ w' = w ∨
    cs d <= us d ∧ cd_cap w' = cd_cap w ∧ cd_cost w' = cd_cost w + room (us d) + us d ∧ dq_pool d' = dq_pool d ∧ cs d' = room (us d) ∧ dq_begin d' = 0 ∧ dq_end d' = us d ∧ dq_size d' = dq_size d).
  Proof using.
    clear zero newcap.
    unfold cd_expand_if_full. apply post_bind, post_read; [apply rd_used|]. intros u Hu. rewrite used_is in Hu. injection Hu as <-. apply post_bind, post_read; [apply rd_len|]. intros n Hn. rewrite len_is in Hn. injection Hn as <-.
    destruct (Z.leb_spec (cs (cd_dq w)) (us (cd_dq w))) as [H|H]; [|apply post_ret; by left].
    unfold cd_expand. apply post_bind, post_read; [apply rd_used|]. intros u Hu. rewrite used_is in Hu. injection Hu as <-. fold (room (us (cd_dq w))). apply post_bind, post_pay, post_bind.
    eapply post_mono; [apply post_copy|]. cbn [cd_dq cd_cap cd_cost]. intros r w1 [Hl ->]. rewrite replicate_length in Hl.
    apply post_bind, post_free. intros [] d1 E1. injection E1 as <-. apply post_bind, post_free. intros [] d2 E2. injection E2 as <-. apply post_free. intros [] d3 E3. injection E3 as <-. cbn [cd_dq cd_cap cd_cost]. right. cbn.
    assert (0 <= us (cd_dq w)) by (unfold cs in H; lia). unfold cs at 2. cbn. rewrite Hl. unfold room in *. destruct (_ =? 0); split_and!; try done; lia.
  Qed.
  Lemma post_shrink w : post cd_shrink_if_needed w (λ _ w', let d := cd_dq w in let d' := cd_dq w' in
    cs d <= shrink_bound (us d) ∧ w' = w ∨
    shrink_bound (us d) < cs d ∧ cd_cap w' = cd_cap w ∧ cd_cost w' = cd_cost w + cs d / 2 + Z.max 0 (us d) ∧ dq_pool d' = dq_pool d ∧ cs d' = cs d / 2 ∧ dq_begin d' = 0 ∧ dq_end d' = us d ∧ dq_size d' = dq_size d).
  Proof using.
    clear zero newcap.
    unfold cd_shrink_if_needed. apply post_bind, post_read; [apply rd_used|]. intros u Hu. rewrite used_is in Hu. injection Hu as <-. apply post_bind, post_read; [apply rd_len|]. intros n Hn. rewrite len_is in Hn. injection Hn as <-.
    destruct (Z.ltb_spec (shrink_bound (us (cd_dq w))) (cs (cd_dq w))) as [H|H]; [|apply post_ret; by left].
    apply post_bind, post_pay, post_bind.
    eapply post_mono; [apply post_copy|]. cbn [cd_dq cd_cap cd_cost]. intros r w1 [Hl ->]. rewrite replicate_length in Hl.
    apply post_bind, post_free. intros [] d1 E1. injection E1 as <-. apply post_bind, post_free. intros [] d2 E2. injection E2 as <-. apply post_free. intros [] d3 E3. injection E3 as <-. cbn [cd_dq cd_cap cd_cost]. right. cbn.
    assert (0 <= cs (cd_dq w) / 2) by (apply Z.div_pos; unfold cs; lia). split_and!; try done; try lia. unfold cs at 1. cbn. rewrite Hl. lia.
  Qed.
  Lemma post_pool_get w : post (cd_pool_get zero) w (λ _ w', cd_cost w <= cd_cost w' <= cd_cost w + 128 ∧ cd_cap w' = cd_cap w ∧
    pl (cd_dq w') <= pl (cd_dq w) ∧ dq_segs (cd_dq w') = dq_segs (cd_dq w) ∧ dq_begin (cd_dq w') = dq_begin (cd_dq w) ∧ dq_end (cd_dq w') = dq_end (cd_dq w) ∧ dq_size (cd_dq w') = dq_size (cd_dq w)).
  Proof using.
    clear newcap.
    unfold cd_pool_get. apply post_bind, post_read; [apply rd_get|]. intros d Ed. injection Ed as <-.
    assert (Hp : ∀ d r d', pool_get zero d = Ok (r, d') → pl d' <= pl d ∧ dq_segs d' = dq_segs d ∧ dq_begin d' = dq_begin d ∧ dq_end d' = dq_end d ∧ dq_size d' = dq_size d).
    { intros d r d'. unfold pool_get, mbind_, dget. destruct (last (dq_pool d)); intros E; injection E as <- <-; unfold pl; cbn; rewrite ?take_length; split_and!; try done; lia. }
    destruct (last _).
    - apply post_free. intros r d' E. cbn [cd_dq cd_cap cd_cost]. split; [lia|]. split; [done|]. by eapply Hp.
    - apply post_bind, post_pay, post_free. cbn [cd_dq cd_cap cd_cost]. intros r d' E. change (Z.of_nat SegmentCapacity) with 128. split; [lia|]. split; [done|]. by eapply Hp.
  Qed.

  (** the slot a push writes to *)
  Definition avail w w' : Prop := cd_cap w' = cd_cap w ∧ pl (cd_dq w') <= pl (cd_dq w) ∧ dq_size (cd_dq w') = dq_size (cd_dq w) ∧
    (cs (cd_dq w') = cs (cd_dq w) ∨ cs (cd_dq w) = 0 ∧ cs (cd_dq w') = 1) ∧ cd_cost w' <= cd_cost w + 129.
  Definition roomy d : Prop := us d < cs d ∨ cs d = 0 ∧ us d = 0.
  Definition slim w w' : Prop := cd_cap w' = cd_cap w ∧ pl (cd_dq w') <= pl (cd_dq w) ∧ dq_size (cd_dq w') = dq_size (cd_dq w) ∧
    cs (cd_dq w') = cs (cd_dq w) ∧ cd_cost w' <= cd_cost w + 128.
  Lemma post_grow_front w : post (cd_grow_front zero) w (λ _ w', slim w w').
  Proof using.
    clear newcap. unfold cd_grow_front. apply post_bind, post_read; [apply rd_get|]. intros d _. apply post_bind, post_read; [apply rd_pre|]. intros b _.
    apply post_bind, post_free. intros [] d1 E1. injection E1 as <-. apply post_bind. eapply post_mono; [apply post_pool_get|]. cbn. intros s w1 (H1 & H2 & H3 & H4 & _ & _ & H5).
    apply post_bind, post_free. intros [] d2 E2. apply post_ret. apply same_seg_put in E2 as (P1 & P2 & _ & _ & P5). unfold slim, pl, cs in *. cbn in *. rewrite P1, P2, P5, H4, H2. split_and!; try done; lia.
  Qed.
  Lemma post_grow_back w : post (cd_grow_back zero) w (λ _ w', slim w w').
  Proof using.
    clear newcap. unfold cd_grow_back. apply post_bind. eapply post_mono; [apply post_pool_get|]. cbn. intros s w1 (H1 & H2 & H3 & H4 & _ & _ & H5).
    apply post_bind, post_read; [apply rd_get|]. intros d _.
    apply post_bind, post_free. intros [] d2 E2. apply same_seg_put in E2 as (P1 & P2 & _ & _ & P5).
    apply post_bind, post_read; [apply rd_next|]. intros e _. apply post_bind, post_free. intros [] d3 E3. injection E3 as <-. apply post_ret.
    unfold slim, pl, cs in *. cbn in *. rewrite P1, P2, P5, H4, H2. split_and!; try done; lia.
  Qed.
  Lemma post_avail (get : M (deque T) (option nat)) (grow : M (cdeque T) (option nat)) w : reads get → (∀ w, post grow w (λ _ w', slim w w')) → roomy (cd_dq w) →
    post (let! f := free get in
      let! ok := free (match f with None => mret_ false | Some _ => let! b := ask f s_full in mret_ (negb b) end) in
      if ok : bool then free get
      else cd_expand_if_full ;;
        let! f := free get in
        let! need := free (match f with None => mret_ true | Some _ => ask f s_full end) in
        if need : bool then grow else free get) w (λ _ w', avail w w').
  Proof using.
    clear zero newcap. intros Hg Hgr Hr. apply post_bind, post_read; [done|]. intros f _. apply post_bind, post_read.
    { destruct f; [|apply rd_ret]. rd. }
    intros [|] _.
    - apply post_read; [done|]. intros _ _. unfold avail. split_and!; [done|lia|done|by left|lia].
    - apply post_bind. eapply post_mono; [apply post_expand_if_full|]. cbn zeta. intros [] w1 H1.
      apply post_bind, post_read; [done|]. intros f2 _. apply post_bind, post_read. { destruct f2; [|apply rd_ret]. rd. }
      assert (avail w w1 ∧ cd_cost w1 <= cd_cost w + 1) as [Ha Hc].
      { destruct H1 as [[_ ->]|(H & E1 & E2 & E3 & E4 & _ & _ & E5)]; [unfold avail; split_and!; try done; try lia; by left|].
        destruct Hr as [?|[Hz Hu]]; [lia|]. rewrite Hu in *. change (room 0) with 1 in *. unfold avail, pl. rewrite E3. split_and!; try done; try lia; by right. }
      intros [|] _.
      + eapply post_mono; [apply Hgr|]. intros _ w2 (S1 & S2 & S3 & S4 & S5). destruct Ha as (A1 & A2 & A3 & A4 & A5). unfold avail. rewrite S1, S3, S4. split_and!; try done; lia.
      + apply post_read; [done|]. done.
  Qed.
  Lemma post_first_available w : roomy (cd_dq w) → post (cd_first_available zero) w (λ _ w', avail w w').
  Proof using. clear newcap. apply post_avail; [apply rd_first|apply post_grow_front]. Qed.
  Lemma post_last_available w : roomy (cd_dq w) → post (cd_last_available zero) w (λ _ w', avail w w').
  Proof using. clear newcap. apply post_avail; [apply rd_last|apply post_grow_back]. Qed.
  (** a push *)
  Definition pushed w w' : Prop := cd_cap w' = cd_cap w ∧ pl (cd_dq w') <= pl (cd_dq w) ∧ dq_size (cd_dq w') = dq_size (cd_dq w) + 1 ∧ ∃ c u,
    (c = cs (cd_dq w) ∨ cs (cd_dq w) = 0 ∧ c = 1) ∧
    (cs (cd_dq w') = c ∧ cd_cost w' <= cd_cost w + 129 ∨
     c <= u ∧ cs (cd_dq w') = room u ∧ dq_begin (cd_dq w') = 0 ∧ dq_end (cd_dq w') = u ∧ cd_cost w' <= cd_cost w + 129 + room u + u).
  Lemma post_push (av : M (cdeque T) (option nat)) (m : M (segment T) unit) w : post av w (λ _ w', avail w w') →
    post (let! s := av in free (call s m) ;; free (size_add 1) ;; cd_expand_if_full) w (λ _ w', pushed w w').
  Proof using.
    clear zero newcap. intros Hav. apply post_bind. eapply post_mono; [exact Hav|]. clear Hav. intros s w1 (A1 & A2 & A3 & A4 & A5).
    apply post_bind, post_free. intros [] d2 E2. apply same_call in E2 as (P1 & P2 & P3 & P4 & P5). apply post_bind, post_free. intros [] d3 E3. injection E3 as <-.
    eapply post_mono; [apply post_expand_if_full|]. cbn [cd_dq cd_cap cd_cost]. cbn zeta.
    match goal with |- context [us ?d] => set (d3 := d) end. assert (dq_pool d3 = dq_pool (cd_dq w1) ∧ cs d3 = cs (cd_dq w1) ∧ dq_size d3 = dq_size (cd_dq w) + 1) as (Q1 & Q2 & Q3).
    { unfold cs, d3. cbn. rewrite P1, P2, P5, A3. split_and!; try done. }
    clearbody d3. clear P1 P2 P3 P4 P5. intros [] w3 [[H ->]|(H & E1 & E2 & E3 & E4 & E5 & E6 & E7)]; unfold pushed; cbn [cd_dq cd_cap cd_cost].
    - unfold pl in *. rewrite Q1, Q3. split_and!; try done. exists (cs d3), 0. rewrite Q2. split; [done|]. left. done.
    - unfold pl in *. rewrite E1, E3, Q1, E7, Q3. split_and!; try done. exists (cs d3), (us d3). rewrite Q2. rewrite Q2 in H. split; [done|]. right. split_and!; try done. lia.
  Qed.
  Lemma post_push_front x w : roomy (cd_dq w) → post (cd_push_front zero x) w (λ _ w', pushed w w').
  Proof using. clear newcap. intros H. apply post_push. by apply post_first_available. Qed.
  Lemma post_push_back x w : roomy (cd_dq w) → post (cd_push_back zero x) w (λ _ w', pushed w w').
  Proof using. clear newcap. intros H. apply post_push. by apply post_last_available. Qed.

  (** the pool *)
  Definition psi (p c : Z) : Z := 2 * p + 4 * Z.max 0 (5 * p - 4 * c).
  Definition pooled w w' : Prop := pl (cd_dq w') <= cd_cap w' ∧ 0 <= cd_cap w' ∧
    cd_cost w' + psi (pl (cd_dq w')) (cd_cap w') <= cd_cost w + psi (pl (cd_dq w)) (cd_cap w) + 31 ∧
    cs (cd_dq w') = cs (cd_dq w) ∧ dq_size (cd_dq w') = dq_size (cd_dq w).
  Hypothesis newcap_ok : ∀ c, 0 <= c → c < newcap c ∧ 5 * c <= 4 * newcap c ∧ newcap c <= 3 * c + 8.
  Lemma post_put_to_pool p w : 0 <= us (cd_dq w) → pl (cd_dq w) <= cd_cap w → post (cd_put_to_pool newcap p) w (λ _ w', pooled w w').
  Proof using newcap_ok.
    clear zero. intros Hu Hp. unfold cd_put_to_pool. apply post_bind, post_free. intros [] d1 E1. apply same_call in E1. pose proof (same_us _ _ E1) as (S1 & S2 & S3). destruct E1 as (_ & _ & _ & _ & S5).
    assert (0 <= pl (cd_dq w)) as Hp0 by (unfold pl; lia). pose proof (newcap_ok (cd_cap w) ltac:(lia)) as Hnc. clear newcap_ok.
    apply post_bind. unfold cd_pool_put. apply post_bind, post_read; [apply rd_get|]. intros d Ed. injection Ed as <-. cbn [cd_dq].
    apply post_bind. intros c w1 Ec. injection Ec as <- <-. cbn [cd_cap].
    apply post_bind. eapply (post_mono _ _ (λ _ w2, cd_dq w2 = d1 ∧ pl (cd_dq w) < cd_cap w2 ∧
      cd_cost w2 + psi (pl (cd_dq w) + 1) (cd_cap w2) <= cd_cost w + psi (pl (cd_dq w)) (cd_cap w) + 30)).
    { fold (pl d1). rewrite S3. destruct (Z.leb_spec (cd_cap w) (pl (cd_dq w))) as [H|H].
      - apply post_bind, post_pay. intros [] w' E. injection E as <-. cbn [cd_dq cd_cap cd_cost]. split; [done|]. unfold psi. lia.
      - apply post_ret. cbn [cd_dq cd_cap cd_cost]. split; [done|]. unfold psi. lia. }
    intros [] [d2 c2 k2]. cbn [cd_dq cd_cap cd_cost]. intros (-> & Hc2 & Hpsi). apply post_bind, post_pay. apply post_free. intros [] d3 E3. cbn [cd_dq cd_cap cd_cost] in *. unfold pool_put in E3. destruct p as [a|]; [|done]. injection E3 as <-.
    apply post_bind, post_read; [apply rd_get|]. intros d Ed. injection Ed as <-. apply post_bind, post_read; [apply rd_used|]. intros u Hu'. rewrite used_is in Hu'. injection Hu' as <-. cbn [cd_dq].
    match goal with |- context [us ?d] => set (d3 := d) end. assert (pl d3 = pl (cd_dq w) + 1) as Hp3. { rewrite <-S3. unfold pl, d3. cbn. rewrite app_length. cbn. lia. }
    assert (us d3 = us (cd_dq w)) as Hu3. { rewrite <-S1. done. }
    assert (cs d3 = cs (cd_dq w)) as Hc3. { rewrite <-S2. done. }
    assert (dq_size d3 = dq_size (cd_dq w)) as Hs3. { rewrite <-S5. done. }
    clearbody d3. fold (pl d3). destruct (Z.ltb_spec (us d3) (pl d3 * 6 / 5)) as [H|H].
    2:{ apply post_ret. unfold pooled. cbn [cd_dq cd_cap cd_cost]. rewrite Hp3. split_and!; try done; lia. }
    unfold cd_pool_shrink. apply post_bind, post_read; [apply rd_get|]. intros d Ed. injection Ed as <-. cbn [cd_dq]. fold (pl d3).
    destruct (Z.ltb_spec (us d3 / 5) (pl d3)) as [H2|H2].
    - apply post_bind, post_bind, post_pay. intros [] w' E. injection E as <-. apply post_free. cbn [cd_dq cd_cap cd_cost]. intros [] d4 E4.
      unfold pool_shrink, dget, mbind_ in E4. fold (pl d3) in E4. destruct (Z.ltb_spec (us d3 / 5) (pl d3)); [|lia]. injection E4 as <-. unfold pooled. cbn [cd_dq cd_cap cd_cost].
      assert (0 <= us d3 / 5) as Hge by (apply Z.div_pos; lia).
      match goal with |- context [pl ?d] => set (d4 := d) end. assert (pl d4 = us d3 / 5) as Hp4. { unfold pl, d4. cbn. rewrite take_length. unfold pl in H2. lia. }
      assert (cs d4 = cs d3) as Hc4 by done. assert (dq_size d4 = dq_size d3) as Hs4 by done. clearbody d4. rewrite Hp4, Hc4, Hs4. split_and!; try done; [].
      assert (5 * (us d3 / 5) <= us d3) by (apply Z.mul_div_le; lia). assert (5 * (pl d3 * 6 / 5) <= pl d3 * 6) by (apply Z.mul_div_le; lia). unfold psi in *. lia.
    - apply post_bind, post_ret. apply post_free. cbn [cd_dq cd_cap cd_cost]. intros [] d4 E4.
      unfold pool_shrink, dget, mbind_ in E4. fold (pl d3) in E4. destruct (Z.ltb_spec (us d3 / 5) (pl d3)); [lia|]. injection E4 as <-. unfold pooled. cbn [cd_dq cd_cap cd_cost]. rewrite Hp3. split_and!; try done; lia.
  Qed.
  (** a pop *)
  Definition popped w w' : Prop := pl (cd_dq w') <= cd_cap w' ∧ 0 <= cd_cap w' ∧ dq_size (cd_dq w') = dq_size (cd_dq w) - 1 ∧ ∃ u k,
    cd_cost w' + psi (pl (cd_dq w')) (cd_cap w') <= cd_cost w + psi (pl (cd_dq w)) (cd_cap w) + 31 + k ∧ (dq_size (cd_dq w') = 0 → u = 0) ∧
    (cs (cd_dq w') = cs (cd_dq w) ∧ k = 0 ∨
     shrink_bound u < cs (cd_dq w) ∧ cs (cd_dq w') = cs (cd_dq w) / 2 ∧ dq_begin (cd_dq w') = 0 ∧ dq_end (cd_dq w') = u ∧ k = cs (cd_dq w) / 2 + Z.max 0 u).
  Lemma post_popped {A} (v : A) w w1 : pooled w w1 → post (free (size_add (-1)) ;; cd_shrink_if_needed ;; mret_ v) w1 (λ _ w', popped w w').
  Proof using.
    clear zero newcap_ok newcap. intros (P1 & P2 & P3 & P4 & P5). apply post_bind, post_free. intros [] d3 E3. injection E3 as <-. apply post_bind.
    eapply post_mono; [apply post_shrink|]. cbn [cd_dq cd_cap cd_cost]. cbn zeta.
    match goal with |- context [us ?d] => set (d3 := d) end. assert (pl d3 = pl (cd_dq w1) ∧ cs d3 = cs (cd_dq w1) ∧ dq_size d3 = dq_size (cd_dq w1) - 1) as (Q1 & Q2 & Q3) by (unfold d3; done).
    assert (dq_size d3 = 0 → us d3 = 0) as Q4. { unfold us. by intros ->. }
    clearbody d3. intros [] w3 [[H ->]|(H & E1 & E2 & E3 & E4 & E5 & E6 & E7)]; apply post_ret; unfold popped; cbn [cd_dq cd_cap cd_cost].
    - rewrite Q1, Q3, Q2, P5, P4. split_and!; try done. rewrite Q3, P5 in Q4. exists (us d3), 0. split_and!; [lia|done|by left].
    - assert (pl (cd_dq w3) = pl d3) as -> by (unfold pl; by rewrite E3). rewrite E7, E1, Q1, Q3, P5. split_and!; try done. exists (us d3), (cs (cd_dq w) / 2 + Z.max 0 (us d3)).
      rewrite E2, Q2, P4. rewrite Q3, P5 in Q4. split_and!; [lia|done|]. right. rewrite E4, Q2, P4. rewrite Q2, P4 in H. split_and!; try done.
  Qed.
  Lemma pooled_same w w' : cd_cap w' = cd_cap w → cd_cost w' = cd_cost w → same (cd_dq w) (cd_dq w') → pl (cd_dq w) <= cd_cap w → pooled w w'.
  Proof using.
    clear zero newcap_ok newcap. intros E1 E2 E3 E4. pose proof (same_us _ _ E3) as (_ & S2 & S3). destruct E3 as (_ & _ & _ & _ & S5). unfold pooled. rewrite E1, E2, S2, S3, S5.
    assert (0 <= pl (cd_dq w)) by (unfold pl; lia). split_and!; try done; lia.
  Qed.
  Lemma pooled_pre w w1 w' : cd_cap w1 = cd_cap w → cd_cost w1 = cd_cost w → same (cd_dq w) (cd_dq w1) → pooled w1 w' → pooled w w'.
  Proof using. intros E1 E2 E3. pose proof (same_us _ _ E3) as (_ & S2 & S3). destruct E3 as (_ & _ & _ & _ & S5). unfold pooled. by rewrite E1, E2, S2, S3, S5. Qed.
  Lemma pooled_post w w1 w' : cd_cap w' = cd_cap w1 → cd_cost w' = cd_cost w1 → pl (cd_dq w') = pl (cd_dq w1) → cs (cd_dq w') = cs (cd_dq w1) → dq_size (cd_dq w') = dq_size (cd_dq w1) → pooled w w1 → pooled w w'.
  Proof using. intros E1 E2 E3 E4 E5. unfold pooled. by rewrite E1, E2, E3, E4, E5. Qed.
  Lemma post_pop_front w : 0 <= us (cd_dq w) → pl (cd_dq w) <= cd_cap w → post (cd_pop_front newcap) w (λ _ w', popped w w').
  Proof using newcap_ok.
    intros Hu Hp. unfold cd_pop_front. apply post_bind, post_read; [apply rd_get|]. intros d _. destruct (dq_size d =? 0); [apply post_panic|].
    apply post_bind, post_read; [apply rd_seg_get|]. intros s _. apply post_bind, post_free. intros v d1 E1. apply same_call in E1. apply post_bind, post_read; [apply rd_ask|]. intros n _.
    apply post_bind. eapply (post_mono _ _ (λ _ w', pooled w w')); [|intros []; intros; by apply post_popped].
    destruct (n =? 0); [|by apply post_ret, pooled_same].
    apply post_bind. eapply post_mono; [apply post_put_to_pool; cbn [cd_dq cd_cap]|].
    { by rewrite (proj1 (same_us _ _ E1)). } { by rewrite (proj2 (proj2 (same_us _ _ E1))). }
    intros [] w2 H2. apply (pooled_pre w) in H2; try done. apply post_bind, post_free. intros [] d3 E3. apply same_seg_put in E3. pose proof (same_us _ _ E3) as (_ & T2 & T3). destruct E3 as (_ & _ & _ & _ & T5).
    apply post_bind, post_read; [apply rd_next|]. intros b _. apply post_free. intros [] d4 E4. injection E4 as <-. by apply (pooled_post w w2).
  Qed.
  Lemma post_pop_back w : 0 <= us (cd_dq w) → pl (cd_dq w) <= cd_cap w → post (cd_pop_back newcap) w (λ _ w', popped w w').
  Proof using newcap_ok.
    intros Hu Hp. unfold cd_pop_back. apply post_bind, post_read; [apply rd_get|]. intros d _. destruct (dq_size d =? 0); [apply post_panic|].
    apply post_bind, post_read; [apply rd_pre|]. intros k _.
    apply post_bind, post_read; [apply rd_seg_get|]. intros s _. apply post_bind, post_free. intros v d1 E1. apply same_call in E1. apply post_bind, post_read; [apply rd_ask|]. intros n _.
    apply post_bind. eapply (post_mono _ _ (λ _ w', pooled w w')); [|intros []; intros; by apply post_popped].
    destruct (n =? 0); [|by apply post_ret, pooled_same].
    apply post_bind. eapply post_mono; [apply post_put_to_pool; cbn [cd_dq cd_cap]|].
    { by rewrite (proj1 (same_us _ _ E1)). } { by rewrite (proj2 (proj2 (same_us _ _ E1))). }
    intros [] w2 H2. apply (pooled_pre w) in H2; try done. apply post_bind, post_free. intros [] d3 E3. apply same_seg_put in E3. pose proof (same_us _ _ E3) as (_ & T2 & T3). destruct E3 as (_ & _ & _ & _ & T5).
    apply post_free. intros [] d4 E4. injection E4 as <-. by apply (pooled_post w w2).
  Qed.
End proofs.
