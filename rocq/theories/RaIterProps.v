(** C94: random access iterators denote positions, whatever happens to the container. *)
From Verif Require Import Base History GoSliceModel VectorModel VectorSpec VectorProofs ArrayModel ArraySpec ArrayProofs DequeModel DequeSpec DequeOps DequeHist SliceModel IterModel IterSpec IterProofs RaIterModel RaIterSpec.
Open Scope Z_scope.

Section generic.
  Context {W A T O R : Type} (step : O → M W R) (csize : nat → M W Z) (cat : nat → Z → M W T) (cset : nat → Z → T → M W unit).
  Context (eq : iter → iter → bool) (lst : nat → M W iter).
  Context (spec : O → A → option (R * A)) (holds : A → nat → option (list T)) (store : nat → Z → T → A → A).
  Context (same : nat * Z → nat * Z → bool) (lastp : list T → Z) (rel : W → A → Prop) (good : O → Prop).
  Record seq_like : Prop := {
    sq_step : ∀ o w a, good o → rel w a → agrees rel (step o w) (spec o a);
    sq_size : ∀ c w a, rel w a → csize c w = match holds a c with Some l => Ok (Z.of_nat (length l), w) | None => Panic end;
    sq_at : ∀ c p w a, rel w a → cat c p w = match holds a c with Some l => match elem_at l p with Some x => Ok (x, w) | None => Panic end | None => Panic end;
    sq_set : ∀ c p x w a, rel w a → match holds a c with Some l => ∃ w', cset c p x w = Ok (tt, w') ∧ rel w' (store c p x a) | None => cset c p x w = Panic end;
    sq_eq : ∀ i j, eq i j = same (it_obj i, it_pos i) (it_obj j, it_pos j);
    sq_last : ∀ c w a, rel w a → lst c w = match holds a c with Some l => Ok (MkIter c (lastp l), w) | None => Panic end;
  }.
  Definition irel (w : iworld W) (s : A * list (nat * Z)) : Prop := rel (iw_w w) s.1 ∧ (λ i, (it_obj i, it_pos i)) <$> iw_its w = s.2.
  Lemma ri_agrees o w s : seq_like → (match o with RCall o => good o | _ => True end) → irel w s → agrees irel (ri_step step csize cat cset eq lst o w) (ri_spec spec holds store same lastp o s).
  Proof.
    intros L Hg [Hr Hi]. destruct w as [w its], s as [a ps]; cbn [iw_w iw_its fst snd] in *. subst ps.
    assert (Hn : ∀ i, irel (MkIW w (its ++ [i])) (a, ((λ i, (it_obj i, it_pos i)) <$> its) ++ [(it_obj i, it_pos i)])).
    { intros i. split; [done|]. cbn. by rewrite fmap_app. }
    assert (Hp : ∀ k i, irel (MkIW w (<[k := i]> its)) (a, <[k := (it_obj i, it_pos i)]> ((λ i, (it_obj i, it_pos i)) <$> its))).
    { intros k i. split; [done|]. cbn. by rewrite list_fmap_insert. }
    assert (Hs : irel (MkIW w its) (a, (λ i, (it_obj i, it_pos i)) <$> its)) by done.
    destruct o as [o|c|c|c|c p|i|i|i x|i|i|i|i p|i|i j]; cbn [ri_step ri_spec fst snd]; unfold agrees, mbind_, ri_lift, ri_get, ri_put, ri_new, fresh_it, moved, mret_; cbn [iw_w iw_its fst snd].
    - pose proof (sq_step L o w a Hg Hr) as H. unfold agrees in H. destruct (spec o a) as [[r a']|]; [destruct H as (w' & -> & H); cbn; eexists; split; [done|]; by split|by rewrite H].
    - rewrite fmap_length. eexists. split; [done|]. apply (Hn (MkIter c 0)).
    - unfold c_end, mbind_. rewrite (sq_size L _ _ _ Hr). destruct (holds a c) as [l|]; cbn; [|done]. rewrite fmap_length. eexists. split; [done|]. apply (Hn (MkIter c _)).
    - rewrite (sq_last L _ _ _ Hr). destruct (holds a c) as [l|]; cbn; [|done]. rewrite fmap_length. eexists. split; [done|]. apply (Hn (MkIter c _)).
    - rewrite fmap_length. eexists. split; [done|]. apply (Hn (MkIter c p)).
    - rewrite list_lookup_fmap. destruct (its !! i) as [[c p]|]; cbn; [|done]. unfold it_valid, mbind_; cbn. rewrite (sq_size L _ _ _ Hr). destruct (holds a c) as [l|]; cbn; [|done].
      eexists. split; [|exact Hs]. unfold mret_. do 3 f_equal. repeat case_bool_decide; destruct (Z.leb_spec 0 p), (Z.ltb_spec p (Z.of_nat (length l))); cbn; try done; lia.
    - rewrite list_lookup_fmap. destruct (its !! i) as [[c p]|]; cbn; [|done]. unfold it_value; cbn. rewrite (sq_at L _ _ _ _ Hr). destruct (holds a c) as [l|]; cbn; [|done]. destruct (elem_at l p); cbn; [|done]. by eexists.
    - rewrite list_lookup_fmap. destruct (its !! i) as [[c p]|]; cbn; [|done]. unfold it_set; cbn. pose proof (sq_set L c p x _ _ Hr) as H. destruct (holds a c) as [l|]; cbn; [|by rewrite H]. destruct H as (w' & -> & H). eexists. split; [done|]. by split.
    - rewrite list_lookup_fmap. destruct (its !! i) as [[c p]|]; cbn; [|done]. unfold it_next, mbind_; cbn. rewrite (sq_size L _ _ _ Hr). destruct (holds a c) as [l|]; cbn; [|done]. eexists. split; [done|].
      case_bool_decide; destruct (Z.ltb_spec p (Z.of_nat (length l))); try lia; apply (Hp i (MkIter c _)).
    - rewrite list_lookup_fmap. destruct (its !! i) as [[c p]|]; cbn; [|done]. eexists. split; [done|]. case_bool_decide; destruct (Z.leb_spec 0 p); try lia; apply (Hp i (MkIter c _)).
    - rewrite list_lookup_fmap. destruct (its !! i) as [[c p]|]; cbn; [|done]. rewrite fmap_length. eexists. split; [done|]. apply (Hn (MkIter c p)).
    - rewrite list_lookup_fmap. destruct (its !! i) as [[c q]|]; cbn; [|done]. rewrite fmap_length. eexists. split; [done|]. apply (Hn (MkIter c p)).
    - rewrite list_lookup_fmap. destruct (its !! i) as [[c p]|]; cbn; [|done]. by eexists.
    - rewrite !list_lookup_fmap. destruct (its !! i) as [[c p]|]; cbn; [|done]. destruct (its !! j) as [[c' p']|]; cbn; [|done]. rewrite (sq_eq L). by eexists.
  Qed.
  Lemma ri_history ops w a : seq_like → (∀ o, good o) → rel w a → agrees irel (run (ri_step step csize cat cset eq lst) ops (MkIW w [])) (srun (ri_spec spec holds store same lastp) ops (a, [])).
  Proof. intros L Hg Hr. apply (run_agrees _ _ _ (λ _, True)); [|by apply Forall_forall|by split]. intros o w' s _ H. apply ri_agrees; [done|by destruct o|done]. Qed.
End generic.
Lemma agrees_results {R S A} (rel : S → A → Prop) (m : res (list R * S)) sp : agrees rel m sp → results_are m sp.
Proof. unfold agrees, results_are. destruct sp as [[rs a]|]; [|done]. intros (w & E & _). by exists w. Qed.

Section instances.
  Context {T : Type} (zero : T).
  Lemma eq_same i j : it_equal i j = same_place (it_obj i, it_pos i) (it_obj j, it_pos j).
  Proof using. unfold it_equal, same_place. destruct i as [a p], j as [b q]; cbn. destruct (Nat.eqb_spec b a), (Z.eqb_spec q p); cbn; case_bool_decide; naive_solver. Qed.
  Lemma seq_store_eq c p x (ls : list (list T)) l : ls !! c = Some l → seq_store c p x ls = <[c := with_elem l p x]> ls.
  Proof using. intros H. unfold seq_store. apply list_eq. intros k. destruct (decide (k = c)) as [->|Hk].
    - rewrite list_lookup_alter, H. cbn. rewrite list_lookup_insert; [done|by eapply lookup_lt_Some].
    - rewrite list_lookup_alter_ne, list_lookup_insert_ne by done. done. Qed.
  Lemma set_same (l : list T) p x : (if VectorSpec.in_range l p then <[Z.to_nat p := x]> l else l) = with_elem l p x.
  Proof using. unfold VectorSpec.in_range, with_elem. case_bool_decide as H1; case_bool_decide as H2; try done; try lia. symmetry. apply list_insert_ge. lia. Qed.
  Lemma vec_like {O R} (step : O → M (world T) R) (spec : O → list (list T) → option (R * list (list T))) (good : O → Prop) :
    (∀ o w a, good o → v_rel w a → agrees v_rel (step o w) (spec o a)) →
    seq_like step v_size v_at v_set_at it_equal (c_last v_size) spec seq_holds seq_store same_place last_elem v_rel good.
  Proof.
    intros Hst.
    assert (HN : ∀ (w : world T) ls c, v_rel w ls → ls !! c = None → data c w = Panic). { intros w ls c Hr Hc. unfold data. by rewrite (rel_lookup_None zero (λ _ _, 0%nat) _ _ _ Hr Hc). }
    assert (Hsz : ∀ c (w : world T) a, v_rel w a → v_size c w = match seq_holds a c with Some l => Ok (Z.of_nat (length l), w) | None => Panic end).
    { intros c w a Hr. unfold seq_holds. destruct (a !! c) as [l|] eqn:Hc; [by destruct (v_obs zero (λ _ _, 0%nat) _ _ _ _ Hr Hc)|]. unfold v_size, mbind_. by rewrite (HN _ _ _ Hr Hc). }
    split.
    - done.
    - done.
    - intros c p w a Hr. unfold seq_holds. destruct (a !! c) as [l|] eqn:Hc; [|unfold v_at, mbind_; by rewrite (HN _ _ _ Hr Hc)].
      destruct (v_obs zero (λ _ _, 0%nat) _ _ _ _ Hr Hc) as [_ ->]. rewrite (nth_a_nth zero). done.
    - intros c p x w a Hr. unfold seq_holds. destruct (a !! c) as [l|] eqn:Hc; [|unfold v_set_at, mbind_; by rewrite (HN _ _ _ Hr Hc)].
      destruct (v_set_at_ok zero (λ _ _, 0%nat) _ _ _ _ p x Hr Hc) as (w' & E & Hr'). exists w'. split; [done|]. rewrite (seq_store_eq _ _ _ _ l) by done. rewrite set_same in Hr'. exact Hr'.
    - apply eq_same.
    - intros c w a Hr. unfold c_last, mbind_. rewrite (Hsz c w a Hr). by destruct (seq_holds a c).
  Qed.
  (** C94: vectors *)
  Theorem vector_iterators grow (ops : list (ri_op T (v_op T))) :
    results_are (run (ri_step (v_step zero grow) v_size v_at v_set_at it_equal (c_last v_size)) ops (MkIW world0 []))
                (srun (ri_spec v_spec seq_holds seq_store same_place last_elem) ops ([], [])).
  Proof.
    eapply agrees_results, (ri_history _ _ _ _ _ _ _ _ _ _ _ v_rel (λ _, True)); [|done|apply (world0_rel zero grow)].
    apply vec_like. intros o w a _. by apply v_step_agrees.
  Qed.
  (** arrays *)
  Theorem array_iterators (ops : list (ri_op T (a_op T))) :
    results_are (run (ri_step (a_step zero) a_size a_at a_set it_equal (c_last a_size)) ops (MkIW world0 []))
                (srun (ri_spec (a_spec zero) seq_holds seq_store same_place last_elem) ops ([], [])).
  Proof.
    eapply agrees_results, (ri_history _ _ _ _ _ _ _ _ _ _ _ v_rel (λ _, True)); [|done|apply (world0_rel zero (λ _ _, 0%nat))].
    apply (vec_like (a_step zero) (a_spec zero)). intros o w a _. by apply a_step_agrees.
  Qed.
  (** one deque *)
  Theorem deque_iterators_denote (ops : list (ri_op T (dq_op T))) :
    results_are (run (ri_step (dq_step zero) (λ _, dq_Size) (λ _, dq_at) (λ _ i x, dq_set i x ;; mret_ tt)%go it_equal (c_last (λ _, dq_Size))) ops (MkIW dq_new []))
                (srun (ri_spec dq_spec one_holds one_store same_place last_elem) ops ([], [])).
  Proof.
    eapply agrees_results, (ri_history _ _ _ _ _ _ _ _ _ _ _ dinv (λ _, True)); [|done|apply dinv_new].
    split.
    - intros o w a _. by apply dq_step_agrees.
    - intros c w l Hr. unfold one_holds. exact (ra_size _ _ _ _ _ (deque_ra_law 0%nat) w l Hr).
    - intros c p w l Hr. unfold one_holds. exact (ra_at _ _ _ _ _ (deque_ra_law 0%nat) w l p Hr).
    - intros c p x w l Hr. unfold one_holds. exact (ra_set _ _ _ _ _ (deque_ra_law 0%nat) w l p x Hr).
    - apply eq_same.
    - intros c w l Hr. unfold c_last, mbind_. rewrite (ra_size _ _ _ _ _ (deque_ra_law 0%nat) w l Hr). done.
  Qed.

  (** slice wrappers *)
  Definition same_window (s : slice) (n : window) : Prop := s_arr s = n_arr n ∧ s_off s = n_from n ∧ s_len s = n_len n ∧ s_cap s = n_cap n.
  Definition fits (arrs : list (list T)) (n : window) : Prop := ∃ l, arrs !! n_arr n = Some l ∧ (n_from n + n_cap n <= length l ∧ n_len n <= n_cap n)%nat.
  Record wrel (w : lworld T) (s : windows T) : Prop := {
    wr_arr : ∀ a, m_arr (w_mem (lw_w w)) !! a = ws_arrs s !! a;
    wr_next : m_next (w_mem (lw_w w)) = length (ws_arrs s);
    wr_sl : Forall2 (λ x n, same_window x n ∧ fits (ws_arrs s) n) (lw_ds w) (ws_slices s);
    wr_wr : Forall2 (λ x n, same_window x n ∧ fits (ws_arrs s) n) (w_vecs (lw_w w)) (ws_wraps s);
  }.
  Lemma through_length s n : fits (ws_arrs s) n → length (through s n) = n_len n.
  Proof using. intros (l & Hl & ? & ?). unfold through. rewrite Hl. cbn. rewrite take_length, drop_length. lia. Qed.
  Lemma get_win w s x n i : wrel w s → same_window x n → fits (ws_arrs s) n → s_get x i (w_mem (lw_w w)) = match elem_at (through s n) i with Some v => Ok (v, w_mem (lw_w w)) | None => Panic end.
  Proof using.
    intros H (Ha & Ho & Hl & Hc) Hf. pose proof (through_length _ _ Hf) as Ht. destruct Hf as (l & El & Hf1 & Hf2). unfold s_get, elem_at, array_of. rewrite (wr_arr _ _ H), Ha, El. cbn. rewrite Hl, Ho.
    destruct (Z.leb_spec 0 i); cbn; [|by rewrite bool_decide_eq_false_2 by lia]. rewrite bool_decide_eq_true_2 by lia. destruct (Z.ltb_spec i (Z.of_nat (n_len n))).
    - unfold through. rewrite El. cbn. rewrite lookup_take by lia. by rewrite lookup_drop.
    - by rewrite lookup_ge_None_2 by lia.
  Qed.
  Lemma set_win w s x n i v : wrel w s → same_window x n → fits (ws_arrs s) n → 0 <= i < Z.of_nat (n_len n) →
    ∃ m', GoSliceModel.s_set x i v (w_mem (lw_w w)) = Ok (tt, m') ∧ wrel (MkLW (MkWorld m' (w_vecs (lw_w w))) (lw_ds w)) (written n i v s).
  Proof using.
    intros H (Ha & Ho & Hl & Hc) Hf Hi. destruct Hf as (l & El & Hf1 & Hf2). unfold GoSliceModel.s_set, array_of. rewrite (wr_arr _ _ H), Ha, El, Hl, Ho. cbn.
    destruct (Z.leb_spec 0 i), (Z.ltb_spec i (Z.of_nat (n_len n))); cbn; try lia. eexists. split; [done|]. unfold written. rewrite bool_decide_eq_true_2 by lia.
    assert (Hfit : ∀ n', fits (ws_arrs s) n' → fits (alter (λ l, <[(n_from n + Z.to_nat i)%nat:=v]> l) (n_arr n) (ws_arrs s)) n').
    { intros n' (l' & El' & Hb). destruct (decide (n_arr n' = n_arr n)) as [E|E].
      - exists (<[(n_from n + Z.to_nat i)%nat:=v]> l'). rewrite E, list_lookup_alter, <- E, El'. cbn. rewrite insert_length. done.
      - exists l'. by rewrite list_lookup_alter_ne by done. }
    split; cbn.
    - intros a. destruct (decide (a = n_arr n)) as [->|Hne]; [rewrite lookup_insert, list_lookup_alter, El; done|]. rewrite lookup_insert_ne, list_lookup_alter_ne by done. apply (wr_arr _ _ H).
    - rewrite alter_length. apply (wr_next _ _ H).
    - eapply Forall2_impl; [exact (wr_sl _ _ H)|]. cbn. naive_solver.
    - eapply Forall2_impl; [exact (wr_wr _ _ H)|]. cbn. naive_solver.
  Qed.
  Lemma wr_lookup w s o : wrel w s → match ws_wraps s !! o with Some n => ∃ x, w_vecs (lw_w w) !! o = Some x ∧ same_window x n ∧ fits (ws_arrs s) n | None => w_vecs (lw_w w) !! o = None end.
  Proof using. intros H. destruct (ws_wraps s !! o) as [n|] eqn:E; [by destruct (Forall2_lookup_r _ _ _ _ _ (wr_wr _ _ H) E) as (x & ? & ? & ?); eauto|]. apply lookup_ge_None in E. apply lookup_ge_None. by rewrite (Forall2_length _ _ _ (wr_wr _ _ H)). Qed.
  Lemma sl_lookup w s o : wrel w s → match ws_slices s !! o with Some n => ∃ x, lw_ds w !! o = Some x ∧ same_window x n ∧ fits (ws_arrs s) n | None => lw_ds w !! o = None end.
  Proof using. intros H. destruct (ws_slices s !! o) as [n|] eqn:E; [by destruct (Forall2_lookup_r _ _ _ _ _ (wr_sl _ _ H) E) as (x & ? & ? & ?); eauto|]. apply lookup_ge_None in E. apply lookup_ge_None. by rewrite (Forall2_length _ _ _ (wr_sl _ _ H)). Qed.
  Lemma len_win w s c : wrel w s → lw_len c w = match wraps s c with Some l => Ok (Z.of_nat (length l), w) | None => Panic end.
  Proof using.
    intros H. unfold lw_len, on_world, sw_len, mbind_, data, wraps. pose proof (wr_lookup w s c H) as Hx. destruct (ws_wraps s !! c) as [n|]; cbn; [|by rewrite Hx].
    destruct Hx as (x & -> & Hw & Hf). rewrite (through_length _ _ Hf). cbn. unfold mret_, len_. destruct Hw as (_ & _ & -> & _). by destruct w.
  Qed.
  Lemma at_win w s c p : wrel w s → lw_at c p w = match wraps s c with Some l => match elem_at l p with Some x => Ok (x, w) | None => Panic end | None => Panic end.
  Proof using.
    intros H. unfold lw_at, on_world, sw_at, mbind_, data, wraps. pose proof (wr_lookup w s c H) as Hx. destruct (ws_wraps s !! c) as [n|]; cbn; [|by rewrite Hx].
    destruct Hx as (x & -> & Hw & Hf). pose proof (through_length _ _ Hf) as Hl. pose proof (get_win w s x n p H Hw Hf) as Hg. unfold len_. destruct Hw as (_ & _ & Hlen & _). rewrite Hlen.
    destruct (Z.ltb_spec p 0); cbn; [unfold elem_at; by rewrite bool_decide_eq_false_2 by lia|]. destruct (Z.leb_spec (Z.of_nat (n_len n)) p); cbn.
    - unfold elem_at. rewrite bool_decide_eq_true_2 by lia. by rewrite lookup_ge_None_2 by lia.
    - unfold lift. rewrite Hg. destruct (elem_at (through s n) p); [|done]. by destruct w as [[] ?].
  Qed.
  Lemma set_wrap w s c p x : wrel w s → match wraps s c with Some l => ∃ w', lw_set c p x w = Ok (tt, w') ∧ wrel w' (wrap_store c p x s) | None => lw_set c p x w = Panic end.
  Proof using.
    intros H. unfold lw_set, on_world, sw_set, mbind_, data, wraps, wrap_store. pose proof (wr_lookup w s c H) as Hx. destruct (ws_wraps s !! c) as [n|]; cbn; [|by rewrite Hx].
    destruct Hx as (y & -> & Hw & Hf). pose proof (set_win w s y n p x H Hw Hf) as Hg. unfold len_. destruct Hw as (_ & _ & Hlen & _). rewrite Hlen.
    destruct (decide (0 <= p < Z.of_nat (n_len n))) as [Hp|Hp].
    - destruct (Z.ltb_spec p 0), (Z.leb_spec (Z.of_nat (n_len n)) p); cbn; try lia. destruct (Hg Hp) as (m' & Em & Hr). unfold lift. rewrite Em. eexists. split; [done|exact Hr].
    - assert ((p <? 0) || (Z.of_nat (n_len n) <=? p) = true) as ->. { destruct (Z.ltb_spec p 0), (Z.leb_spec (Z.of_nat (n_len n)) p); cbn; try done; lia. }
      unfold mret_. eexists. split; [done|]. unfold written. rewrite bool_decide_eq_false_2 by done. by destruct w.
  Qed.
  Lemma lw_agrees o w s : wrel w s → agrees wrel (lw_step o w) (lw_spec o s).
  Proof using.
    intros H. destruct o as [l|d lo hi|d|d i|d i x|d|c d|c|c i|c i x]; cbn [lw_step lw_spec]; unfold agrees, mbind_, own_slice, keep_slice, mret_.
    - cbn. rewrite (wr_next _ _ H). rewrite (Forall2_length _ _ _ (wr_sl _ _ H)). eexists. split; [done|].
      assert (Hfit : ∀ n, fits (ws_arrs s) n → fits (ws_arrs s ++ [l]) n). { intros n (k & Ek & Hk). exists k. split; [|done]. by apply lookup_app_l_Some. }
      split; cbn.
      + intros a. destruct (decide (a = length (ws_arrs s))) as [->|Hne]; [rewrite lookup_insert; symmetry; by apply list_lookup_middle|]. rewrite lookup_insert_ne by done. rewrite (wr_arr _ _ H).
        destruct (decide (a < length (ws_arrs s))%nat); [by rewrite lookup_app_l|]. rewrite !lookup_ge_None_2; [done|rewrite app_length; cbn; lia|lia].
      + rewrite app_length. cbn. lia.
      + apply Forall2_app; [eapply Forall2_impl; [exact (wr_sl _ _ H)|]; cbn; naive_solver|]. constructor; [|constructor]. split; [done|]. exists l. cbn. split; [by apply list_lookup_middle|lia].
      + eapply Forall2_impl; [exact (wr_wr _ _ H)|]. cbn. naive_solver.
    - pose proof (sl_lookup w s d H) as Hx. destruct (ws_slices s !! d) as [n|]; cbn; [|by rewrite Hx]. destruct Hx as (x & -> & (Ha & Ho & Hl & Hc) & Hf). unfold on_world, lift, s_to, s_from. rewrite Hc.
      destruct (decide (0 <= lo <= hi ∧ hi <= Z.of_nat (n_cap n))) as [[Hlo Hhi]|Hb].
      + destruct (Z.leb_spec 0 hi), (Z.leb_spec hi (Z.of_nat (n_cap n))); try lia. cbn. unfold mret_. cbn. destruct (Z.leb_spec 0 lo), (Z.leb_spec lo (Z.of_nat (Z.to_nat hi))); try lia. cbn.
        rewrite (Forall2_length _ _ _ (wr_sl _ _ H)). eexists. split; [done|]. split; cbn; [apply (wr_arr _ _ H)|apply (wr_next _ _ H)| |apply (wr_wr _ _ H)].
        apply Forall2_app; [apply (wr_sl _ _ H)|]. constructor; [|constructor]. split; [split_and!; cbn; lia|]. destruct Hf as (k & Ek & Hk). exists k. cbn. split; [done|lia].
      + destruct (Z.leb_spec 0 hi), (Z.leb_spec hi (Z.of_nat (n_cap n))); cbn; try done. unfold mret_. cbn. destruct (Z.leb_spec 0 lo), (Z.leb_spec lo (Z.of_nat (Z.to_nat hi))); cbn; try done. exfalso. apply Hb. lia.
    - pose proof (sl_lookup w s d H) as Hx. destruct (ws_slices s !! d) as [n|]; cbn; [|by rewrite Hx]. destruct Hx as (x & -> & (Ha & Ho & Hl & Hc) & Hf). rewrite Hl. by eexists.
    - pose proof (sl_lookup w s d H) as Hx. destruct (ws_slices s !! d) as [n|]; cbn; [|by rewrite Hx]. destruct Hx as (x & -> & Hw & Hf). unfold on_world, lift. rewrite (get_win w s x n i H Hw Hf).
      destruct (elem_at (through s n) i); cbn; [|done]. eexists. split; [done|]. by destruct w as [[] ?].
    - pose proof (sl_lookup w s d H) as Hx. destruct (ws_slices s !! d) as [n|]; cbn; [|by rewrite Hx]. destruct Hx as (y & -> & Hw & Hf). unfold on_world, lift.
      destruct (decide (0 <= i < Z.of_nat (n_len n))) as [Hi|Hi].
      + destruct (set_win w s y n i x H Hw Hf Hi) as (m' & -> & Hr). eexists. split; [done|exact Hr].
      + unfold GoSliceModel.s_set. destruct Hw as (_ & _ & -> & _). destruct (Z.leb_spec 0 i), (Z.ltb_spec i (Z.of_nat (n_len n))); cbn; try done. exfalso. apply Hi. lia.
    - pose proof (sl_lookup w s d H) as Hx. destruct (ws_slices s !! d) as [n|]; cbn; [|by rewrite Hx]. destruct Hx as (x & -> & Hw & Hf). cbn. rewrite (Forall2_length _ _ _ (wr_wr _ _ H)). eexists. split; [done|].
      split; cbn; [apply (wr_arr _ _ H)|apply (wr_next _ _ H)|apply (wr_sl _ _ H)|]. apply Forall2_app; [apply (wr_wr _ _ H)|]. by constructor.
    - pose proof (sl_lookup w s d H) as Hx. destruct (ws_slices s !! d) as [n|]; cbn; [|by rewrite Hx]. destruct Hx as (x & -> & Hw & Hf). unfold on_world, sw_attach, mbind_, data, set_data. cbn.
      pose proof (wr_lookup w s c H) as Hy. destruct (ws_wraps s !! c) as [n'|]; cbn; [|by rewrite Hy]. destruct Hy as (y & -> & _). eexists. split; [done|].
      split; cbn; [apply (wr_arr _ _ H)|apply (wr_next _ _ H)|apply (wr_sl _ _ H)|]. by apply Forall2_insert; [apply (wr_wr _ _ H)|].
    - pose proof (len_win w s c H) as Hx. unfold lw_len in Hx. rewrite Hx. unfold wraps. destruct (ws_wraps s !! c) as [n|] eqn:En; cbn; [|done].
      pose proof (wr_lookup w s c H) as Hy. rewrite En in Hy. destruct Hy as (y & _ & _ & Hf). rewrite (through_length _ _ Hf). by eexists.
    - pose proof (at_win w s c i H) as Hx. unfold lw_at in Hx. rewrite Hx. unfold wraps. destruct (ws_wraps s !! c) as [n|]; cbn; [|done]. destruct (elem_at (through s n) i); cbn; [|done]. by eexists.
    - pose proof (set_wrap w s c i x H) as Hx. unfold wraps, wrap_store, lw_set in Hx. destruct (ws_wraps s !! c) as [n|]; cbn in *; [|by rewrite Hx]. destruct Hx as (w' & -> & Hr). by eexists.
  Qed.
  Theorem slice_iterators (ops : list (ri_op T (lw_op T))) :
    results_are (run (ri_step lw_step lw_len lw_at lw_set it_equal_slice (c_last_slice lw_len)) ops (MkIW lworld0 []))
                (srun (ri_spec lw_spec wraps wrap_store same_position past_end) ops (no_windows, [])).
  Proof using.
    eapply agrees_results, (ri_history _ _ _ _ _ _ _ _ _ _ _ wrel (λ _, True)); [|done|].
    - split.
      + intros o w a _. apply lw_agrees.
      + intros c w a. apply len_win.
      + intros c p w a. apply at_win.
      + intros c p x w a. apply set_wrap.
      + intros [a p] [b q]. unfold it_equal_slice, same_position. cbn. destruct (Z.eqb_spec q p); case_bool_decide; done || lia.
      + intros c w a H. unfold c_last_slice, mbind_. rewrite (len_win _ _ _ H). by destruct (wraps a c).
    - split; cbn; [done|done|constructor|constructor].
  Qed.
End instances.
(** the specified results of some calls: an iterator at position 1 of a vector sees what insertions and erasures put
    there, survives the vector becoming shorter, and is valid again when it grows *)
Example vector_iterators_example :
  fst <$> srun (ri_spec (T := Z) v_spec seq_holds seq_store same_place last_elem)
    [RCall (VNew 0); RCall (VPushBack 0 10); RCall (VPushBack 0 20); RIterAt 0 1; RValue 0; RCall (VInsertAt 0 0 5); RValue 0; RSetValue 0 7; RCall (VAt 0 1);
     RCall (VEraseIndexRange 0 0 3); RValid 0; RPosition 0; RSetValue 0 9; RCall (VPushBack 0 1); RCall (VPushBack 0 2); RValid 0; RValue 0; REnd 0; RNext 0; REqual 0 1; RNext 0; REqual 0 1] ([], [])
  = Some [ROut (VVec 0); ROut VUnit; ROut VUnit; RIter 0; RVal 20; ROut VUnit; RVal 10; RUnit; ROut (VVal 7); ROut VUnit; RBool false; RInt 1; RUnit; ROut VUnit; ROut VUnit;
          RBool true; RVal 2; RIter 1; RUnit; RBool true; RUnit; RBool true].
Proof. vm_compute. reflexivity. Qed.
(** two wrappers of overlapping slices see each other's writes; Attach moves iterators to the new slice *)
Example slice_iterators_example :
  fst <$> srun (ri_spec (T := Z) lw_spec wraps wrap_store same_position past_end)
    [RCall (LMake [1; 2; 3; 4]); RCall (LSub 0 1 3); RCall (LWrap 0); RCall (LWrap 1); RIterAt 0 2; RBegin 1; RNext 1; RSetValue 0 9; RValue 1; RCall (LGet 0 2); REqual 0 1;
     RCall (LMake [7]); RCall (LAttach 1 2); RValid 1; RPrev 1; RValue 1; RLast 1; RValid 2] (no_windows, [])
  = Some [ROut (LSlice 0); ROut (LSlice 1); ROut (LWrapper 0); ROut (LWrapper 1); RIter 0; RIter 1; RUnit; RUnit; RVal 9; ROut (LVal 9); RBool false;
          ROut (LSlice 2); ROut LUnit; RBool false; RUnit; RVal 7; RIter 2; RBool false].
Proof. vm_compute. reflexivity. Qed.
Print Assumptions vector_iterators. Print Assumptions array_iterators. Print Assumptions deque_iterators_denote. Print Assumptions slice_iterators.
