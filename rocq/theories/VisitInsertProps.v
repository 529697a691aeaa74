(** C112: a visitor may insert into the container it is visiting. *)
From Coq Require Import Sorting.Sorted.
From Verif Require Import Base Wp History RbModel RbTree RbRot RbIns RbIns2 RbDel RbNav RbDel2 RbSpec RbFind RbProps RbApi MapModel SetModel MapSpec MapProofs SetSpec SetProofs TreeIterSpec TreeIterProofs VisitInsertModel VisitInsertSpec VisitInsertProofs.
Open Scope Z_scope.
Local Open Scope go_scope.

Section lemmas.
  Context {K V : Type} (cmp : K → K → Z) (CO : CmpOK cmp).
  Implicit Types (l : list (nat * (K * V))).
  Lemma first_of_some P l a : first_of P l = Some a → ∃ L k v R, l = L ++ (a, (k, v)) :: R ∧ P k = true ∧ Forall (λ x : nat * (K * V), P x.2.1 = false) L.
  Proof using.
    clear. unfold first_of. induction l as [|[b [k v]] l IH]; cbn; [done|]. destruct (P k) eqn:E; cbn.
    - intros [= ->]. exists [], k, v, l. done.
    - intros H. destruct (IH H) as (L & k' & v' & R & -> & H1 & H2). exists ((b, (k, v)) :: L), k', v', R. split_and!; [done|done|by constructor].
  Qed.
  Lemma first_of_none P l : first_of P l = None → Forall (λ x : nat * (K * V), P x.2.1 = false) l.
  Proof using. clear. unfold first_of. induction l as [|[b [k v]] l IH]; cbn; [done|]. destruct (P k) eqn:E; cbn; [done|]. intros H. constructor; [done|by apply IH]. Qed.
  Lemma two_splits {A} (L0 : list A) x R0 L R : L0 ++ x :: R0 = L ++ R → (∃ M, L = L0 ++ x :: M ∧ R0 = M ++ R) ∨ (∃ M, L0 = L ++ M ∧ R = M ++ x :: R0).
  Proof using.
    clear. revert L. induction L0 as [|y L0 IH]; intros [|z L] E; cbn in *.
    - right. by exists [].
    - injection E as -> ->. left. by exists L.
    - right. exists (y :: L0). done.
    - injection E as -> E. destruct (IH L E) as [(M & -> & ->)|(M & -> & ->)]; [left; by exists M|right; by exists M].
  Qed.
  Context {D : Type} (kd : D → K) (seen : K → V → D) (kd_seen : ∀ k v, kd (seen k v) = k).
  Notation cont l := ((λ x : nat * (K * V), seen x.2.1 x.2.2) <$> l).
  (** a new entry, as the walk that tracks positions sees it *)
  Lemma placed_shift l n k v l' : placed cmp l n k v l' →
    ∀ L a kv R, l = L ++ (a, kv) :: R → ∃ L' R', l' = L' ++ (a, kv) :: R' ∧ length L' = (length L + shift cmp kd (seen kv.1 kv.2) [seen k v])%nat.
  Proof using CO kd_seen.
    intros (L1 & R1 & -> & -> & H1 & H2) L a kv R E. symmetry in E. unfold shift. rewrite filter_cons, filter_nil, !kd_seen. destruct (two_splits _ _ _ _ _ E) as [(M & -> & ->)|(M & -> & ->)].
    - exists L, (M ++ (n, (k, v)) :: R1). split; [by rewrite <-app_assoc|]. rewrite decide_False; [clear; cbn; lia|]. intros Hlt. assert (cmp kv.1 k <= 0) as Hle. { apply (H1 (a, kv)). apply elem_of_app. right. by left. } apply (cmp_flip_le _ CO) in Hle. lia.
    - exists (L1 ++ (n, (k, v)) :: M), R. split; [by rewrite <-app_assoc|]. rewrite decide_True; [rewrite !app_length; cbn [length]; clear; lia|]. apply (H2 (a, kv)). apply elem_of_app. right. by left.
  Qed.
  Lemma placed_in l n k v l' : placed cmp l n k v l' → ∀ a k' v', (a, (k', v')) ∈ l → ∃ v'', (a, (k', v'')) ∈ l'.
  Proof using. clear. intros (L & R & -> & -> & _) a k' v' H. exists v'. set_solver. Qed.
  Lemma placed_cont l n k v l' : placed cmp l n k v l' → ∃ L R, cont l = L ++ R ∧ cont l' = L ++ seen k v :: R ∧ (∀ x, x ∈ L → cmp (kd x) k <= 0) ∧ (∀ x, x ∈ R → cmp k (kd x) < 0).
  Proof using kd_seen.
    intros (L & R & -> & -> & H1 & H2). exists (cont L), (cont R). rewrite !fmap_app, fmap_cons. split_and!; [done|done| |]; intros x (y & -> & Hy)%elem_of_list_fmap; rewrite kd_seen; auto.
  Qed.
End lemmas.

(** * Pairs *)
Section pairs.
  Context {K V : Type} (cmp : K → K → Z) (CO : CmpOK cmp).
  Notation cont l := ((λ x : nat * (K * V), (x.2.1, x.2.2)) <$> l).
  Lemma cont_pairs (l : list (nat * (K * V))) : cont l = l.*2.
  Proof using. clear. apply list_fmap_ext. intros i [a [k v]] _. done. Qed.
  Lemma read_pair_ok a (s : rb K V) k v : key (Some a) s = Ok (k, s) → value (Some a) s = Ok (v, s) → read_pair (Some a) s = Ok ((k, v), s).
  Proof using. intros E1 E2. unfold read_pair, mbind_. by rewrite E1, E2. Qed.
  Lemma add_at d (l : list (K * V)) : StronglySorted (λ x y, cmp x.1 y.1 <= 0) l → ∃ L R, l = L ++ R ∧ add_after cmp d.1 d.2 l = L ++ d :: R ∧ (∀ x, x ∈ L → cmp x.1 d.1 <= 0) ∧ (∀ x, x ∈ R → cmp d.1 x.1 < 0).
  Proof using CO.
    destruct d as [k v]. cbn [fst snd]. induction l as [|[k' v'] l IH]; intros H.
    - exists [], []. split_and!; [done|done|set_solver|set_solver].
    - cbn [add_after]. apply SS_cons in H as [H Hx]. destruct (Z.ltb_spec (cmp k k') 0) as [Hlt|Hge].
      + exists [], ((k', v') :: l). split_and!; [done|done|set_solver|]. intros x [->|Hin]%elem_of_cons; [done|]. eapply cmp_lt_le_trans; [done|exact Hlt|]. exact (Hx x Hin).
      + destruct (IH H) as (L & R & -> & -> & H1 & H2). exists ((k', v') :: L), R. split_and!; [done|done| |done]. intros x [->|Hin]%elem_of_cons; [|by apply H1]. cbn. by apply (cmp_flip_le _ CO).
  Qed.
  Lemma add_ok s l n d : inv cmp s l n → ∃ s' l' n', rb_Insert cmp d.1 d.2 s = Ok (tt, s') ∧ inv cmp s' l' n' ∧ cont l' = add_after cmp d.1 d.2 (cont l) ∧
    ∀ L a kv R, l = L ++ (a, kv) :: R → ∃ L' R', l' = L' ++ (a, kv) :: R' ∧ length L' = (length L + shift cmp fst (kv.1, kv.2) [d])%nat.
  Proof using CO.
    destruct d as [k v]. cbn [fst snd]. intros Hi. destruct (insert_inv cmp CO s l n k v Hi) as (s' & l' & E & Hp & H'). exists s', l', (S n). split_and!; [done|done| |].
    - destruct (placed_cont cmp fst pair ltac:(done) _ _ _ _ _ Hp) as (L & R & E1 & E2 & H1 & H2). change (λ x : nat * (K * V), (x.2.1, x.2.2)) with (λ x : nat * (K * V), pair x.2.1 x.2.2) in *. rewrite E1, E2. symmetry. by apply add_after_app.
    - exact (placed_shift cmp CO fst pair ltac:(done) _ _ _ _ _ Hp).
  Qed.
  Lemma map_ok s l n d : inv cmp s l n → StronglySorted (λ x y, cmp x.1 y.1 < 0) (cont l) → ∃ s' l' n', map_Insert cmp d.1 d.2 s = Ok (tt, s') ∧ inv cmp s' l' n' ∧ cont l' = upsert cmp d.1 d.2 (cont l) ∧
    ∀ a k v, (a, (k, v)) ∈ l → ∃ v', (a, (k, v')) ∈ l'.
  Proof using CO.
    destruct d as [k v]. cbn [fst snd]. intros Hi Ha. rewrite cont_pairs in Ha |- *. unfold map_Insert, mbind_. rewrite (find_inv cmp CO s l n k Hi). destruct (first_of (equal_to cmp k) l) as [a|] eqn:Ef.
    - destruct (first_of_some _ _ _ Ef) as (L & k' & v' & R & El & Hk & _). unfold equal_to in Hk. apply Z.eqb_eq in Hk.
      destruct (set_inv cmp CO s l n a v Hi) as (s' & E & H'). { rewrite El, fmap_app. apply elem_of_app. right. by left. }
      pose proof (inv_nodup _ _ _ _ Hi) as N. exists s', (revalued l a v), n. rewrite E. rewrite El in N, Ha |- *. rewrite (revalued_mid L a k' v' R v N) in *. split_and!.
      + done.
      + rewrite <-(revalued_mid L a k' v' R v N), <-El. exact H'.
      + rewrite cont_pairs, !fmap_app, !fmap_cons. cbn [snd]. rewrite fmap_app, fmap_cons in Ha. cbn [snd] in Ha. symmetry. by apply (upsert_found cmp CO).
      + intros b k1 v1 [Hin|Hin]%elem_of_app; [exists v1; set_solver|]. apply elem_of_cons in Hin as [[= -> -> ->]|Hin]; [exists v; set_solver|exists v1; set_solver].
    - pose proof (first_of_none _ _ Ef) as Hn. destruct (insert_inv cmp CO s l n k v Hi) as (s' & l' & E & Hp & H'). exists s', l', (S n). split_and!; [done|done| |by eapply placed_in].
      rewrite (upsert_new cmp). 2: { apply Forall_fmap. eapply Forall_impl; [exact Hn|]. intros x Hx. cbn. unfold equal_to in Hx. apply Z.eqb_neq in Hx. done. }
      destruct (placed_cont cmp fst pair ltac:(done) _ _ _ _ _ Hp) as (L & R & E1 & E2 & H1 & H2). rewrite cont_pairs in E1, E2. rewrite cont_pairs, E1, E2. symmetry. by apply add_after_app.
  Qed.
  Lemma upsert_keys (d : K * V) l q : StronglySorted (λ x y, cmp x.1 y.1 < 0) l → has_key cmp fst q (upsert cmp d.1 d.2 l) ↔ cmp q d.1 = 0 ∨ has_key cmp fst q l.
  Proof using CO.
    destruct d as [k v]. cbn [fst snd]. intros _. unfold has_key. induction l as [|[k' v'] l IH]; cbn [upsert].
    - split; [intros (d & ->%elem_of_list_singleton & H); by left|]. intros [H|(d & Hd & _)]; [exists (k, v); split; [by left|done]|by apply not_elem_of_nil in Hd].
    - destruct (Z.eqb_spec (cmp k k') 0) as [E|E]; [|destruct (Z.ltb_spec (cmp k k') 0)].
      + assert (∀ q, cmp q k = 0 ↔ cmp q k' = 0) as Hs. { intros q'. pose proof (proj1 (cmp_flip_eq _ CO k k') E) as E'. split; intros Hq; apply Z.le_antisymm.
          - eapply (cmp_le_trans _ CO); [|apply Z.eq_le_incl, E]. lia. 
          - apply (cmp_flip_le _ CO). eapply (cmp_le_trans _ CO); [apply Z.eq_le_incl, E'|]. apply (cmp_flip_eq _ CO) in Hq. lia.
          - eapply (cmp_le_trans _ CO); [|apply Z.eq_le_incl, E']. lia.
          - apply (cmp_flip_le _ CO). eapply (cmp_le_trans _ CO); [apply Z.eq_le_incl, E|]. apply (cmp_flip_eq _ CO) in Hq. lia. }
        split; [intros (d & [->|Hd]%elem_of_cons & H); [left; by apply Hs|right; exists d; split; [by right|done]]|].
        intros [H|(d & [->|Hd]%elem_of_cons & H)]; [exists (k', v); split; [by left|by apply Hs]|exists (k', v); split; [by left|done]|exists d; split; [by right|done]].
      + split; [intros (d & [->|Hd]%elem_of_cons & H1); [by left|right; exists d; done]|]. intros [H1|(d & Hd & H1)]; [exists (k, v); split; [by left|done]|exists d; split; [by right|done]].
      + split.
        * intros (d & [->|Hd]%elem_of_cons & H1); [right; exists (k', v'); split; [by left|done]|]. destruct (proj1 IH) as [H2|(e & He & H2)]; [by exists d|by left|]. right. exists e. split; [by right|done].
        * intros [H1|(d & [->|Hd]%elem_of_cons & H1)]; [|exists (k', v'); split; [by left|done]|].
          -- destruct (proj2 IH (or_introl H1)) as (e & He & H2). exists e. split; [by right|done].
          -- destruct (proj2 IH) as (e & He & H2); [right; by exists d|]. exists e. split; [by right|done].
  Qed.
  Lemma upsert_len (d : K * V) l : StronglySorted (λ x y, cmp x.1 y.1 < 0) l → ∀ k, (length (filter (λ e, (cmp k e.1 < 0)%Z) (upsert cmp d.1 d.2 l)) <= S (length (filter (λ e, (cmp k e.1 < 0)%Z) l)))%nat.
  Proof using.
    clear CO. destruct d as [k v]. cbn [fst snd]. intros _ q. induction l as [|[k' v'] l IH]; cbn [upsert].
    - rewrite filter_cons, filter_nil. destruct (decide _); cbn; lia.
    - destruct (cmp k k' =? 0); [|destruct (cmp k k' <? 0)].
      + rewrite !filter_cons. cbn [fst]. destruct (decide _); cbn; lia.
      + rewrite (filter_cons _ (k, v)). destruct (decide _); cbn [length]; lia.
      + rewrite !(filter_cons _ (k', v')). destruct (decide _); cbn [length]; lia.
  Qed.
End pairs.

(** * Elements *)
Section elements.
  Context {T : Type} (cmp : T → T → Z) (CO : CmpOK cmp).
  Notation cont l := ((λ x : nat * (T * bool), (λ (y : T) (_ : bool), y) x.2.1 x.2.2) <$> l).
  Lemma cont_els (l : list (nat * (T * bool))) : cont l = l.*2.*1.
  Proof using. clear. rewrite <-list_fmap_compose. done. Qed.
  (** Set.Insert on the list *)
  Definition put_new (x : T) (l : list T) : list T := if existsb (same cmp x) l then l else place cmp x l.
  Lemma place_at d (l : list T) : StronglySorted (λ x y, cmp x y <= 0) l → ∃ L R, l = L ++ R ∧ place cmp d l = L ++ d :: R ∧ (∀ x, x ∈ L → cmp x d <= 0) ∧ (∀ x, x ∈ R → cmp d x < 0).
  Proof using CO.
    induction l as [|k' l IH]; intros H.
    - exists [], []. split_and!; [done|done|set_solver|set_solver].
    - cbn [place]. apply SS_cons in H as [H Hx]. destruct (Z.ltb_spec (cmp d k') 0) as [Hlt|Hge].
      + exists [], (k' :: l). split_and!; [done|done|set_solver|]. intros x [->|Hin]%elem_of_cons; [done|]. eapply cmp_lt_le_trans; [done|exact Hlt|]. exact (Hx x Hin).
      + destruct (IH H) as (L & R & -> & -> & H1 & H2). exists (k' :: L), R. split_and!; [done|done| |done]. intros x [->|Hin]%elem_of_cons; [|by apply H1]. by apply (cmp_flip_le _ CO).
  Qed.
  Lemma place_app k (L R : list T) : (∀ x, x ∈ L → cmp x k <= 0) → (∀ x, x ∈ R → cmp k x < 0) → place cmp k (L ++ R) = L ++ k :: R.
  Proof using CO.
    intros HL HR. induction L as [|x L IH]; cbn [app place].
    - destruct R as [|y R]; [done|]. cbn [place]. destruct (Z.ltb_spec (cmp k y) 0) as [|H]; [done|]. specialize (HR y ltac:(by left)). lia.
    - destruct (Z.ltb_spec (cmp k x) 0) as [H|H]; [specialize (HL x ltac:(by left)); apply (cmp_flip_le _ CO) in HL; lia|]. rewrite IH; [done|]. intros y Hy. apply HL. by right.
  Qed.
  Lemma ms_ok s l n d : inv cmp s l n → ∃ s' l' n', ms_Insert cmp d s = Ok (tt, s') ∧ inv cmp s' l' n' ∧ cont l' = place cmp d (cont l) ∧
    ∀ L a kv R, l = L ++ (a, kv) :: R → ∃ L' R', l' = L' ++ (a, kv) :: R' ∧ length L' = (length L + shift cmp (λ x, x) ((λ (y : T) (_ : bool), y) kv.1 kv.2) [d])%nat.
  Proof using CO.
    intros Hi. destruct (insert_inv cmp CO s l n d set_Empty_const Hi) as (s' & l' & E & Hp & H'). exists s', l', (S n). split_and!; [done|done| |].
    - destruct (placed_cont cmp (λ x, x) (λ (y : T) (_ : bool), y) ltac:(done) _ _ _ _ _ Hp) as (L & R & E1 & E2 & H1 & H2). rewrite E1, E2. symmetry. by apply place_app.
    - exact (placed_shift cmp CO (λ x, x) (λ (y : T) (_ : bool), y) ltac:(done) _ _ _ _ _ Hp).
  Qed.
  Lemma set_ok s l n d : inv cmp s l n → StronglySorted (λ x y, cmp x y < 0) (cont l) → ∃ s' l' n', set_Insert cmp d s = Ok (tt, s') ∧ inv cmp s' l' n' ∧ cont l' = put_new d (cont l) ∧
    ∀ a k v, (a, (k, v)) ∈ l → ∃ v', (a, (k, v')) ∈ l'.
  Proof using CO.
    intros Hi Ha. unfold set_Insert, mbind_, put_new. rewrite (find_inv cmp CO s l n d Hi). destruct (first_of (equal_to cmp d) l) as [a|] eqn:Ef.
    - destruct (first_of_some _ _ _ Ef) as (L & k' & v' & R & El & Hk & _). exists s, l, n. split_and!; [done|done| |eauto].
      replace (existsb _ _) with true; [done|]. symmetry. apply existsb_exists. exists k'. split; [|exact Hk]. apply elem_of_list_In, elem_of_list_fmap. exists (a, (k', v')). split; [done|]. rewrite El. set_solver.
    - pose proof (first_of_none _ _ Ef) as Hn. destruct (insert_inv cmp CO s l n d set_Empty_const Hi) as (s' & l' & E & Hp & H'). exists s', l', (S n). split_and!; [done|done| |by eapply placed_in].
      replace (existsb _ _) with false.
      + destruct (placed_cont cmp (λ x, x) (λ (y : T) (_ : bool), y) ltac:(done) _ _ _ _ _ Hp) as (L & R & E1 & E2 & H1 & H2). rewrite E1, E2. symmetry. by apply place_app.
      + symmetry. apply existsb_none. rewrite Forall_forall in Hn. apply Forall_forall. intros y (x & -> & Hx)%elem_of_list_fmap Hc. specialize (Hn x Hx). cbv beta in Hn. unfold equal_to in Hn. apply Z.eqb_neq in Hn. done.
  Qed.
  Lemma put_new_asc d l : StronglySorted (λ x y, cmp x y < 0) l → StronglySorted (λ x y, cmp x y < 0) (put_new d l).
  Proof using CO.
    intros H. unfold put_new. destruct (existsb (same cmp d) l) eqn:Ex; [done|]. apply (place_asc cmp CO); [done|]. apply Forall_forall. intros y Hy Hxy. assert (existsb (same cmp d) l = true) as Hc; [|congruence]. apply existsb_exists. exists y. split; [by apply elem_of_list_In|]. unfold same. lia.
  Qed.
  Lemma put_new_keys d l q : StronglySorted (λ x y, cmp x y < 0) l → has_key cmp (λ x, x) q (put_new d l) ↔ cmp q d = 0 ∨ has_key cmp (λ x, x) q l.
  Proof using CO.
    intros _. unfold put_new, has_key. destruct (existsb (same cmp d) l) eqn:Ex.
    - apply existsb_exists in Ex as (e & He & Hs). apply elem_of_list_In in He. unfold same in Hs. apply Z.eqb_eq in Hs. split; [by right|]. intros [H|H]; [|done]. exists e. split; [done|]. apply Z.le_antisymm; [eapply (cmp_le_trans _ CO); [apply Z.eq_le_incl, H|lia]|].
      apply (cmp_flip_le _ CO). apply (cmp_flip_eq _ CO) in Hs, H. eapply (cmp_le_trans _ CO); [apply Z.eq_le_incl, Hs|lia].
    - split; [intros (e & He & H); apply (place_elem cmp) in He as [->|He]; [by left|right; eauto]|]. intros [H|(e & He & H)]; [exists d|exists e]; (split; [apply (place_elem cmp); auto|done]).
  Qed.
  Lemma put_new_len d l : StronglySorted (λ x y, cmp x y < 0) l → ∀ k, (length (filter (λ e, (cmp k e < 0)%Z) (put_new d l)) <= S (length (filter (λ e, (cmp k e < 0)%Z) l)))%nat.
  Proof using.
    clear CO. intros _ q. unfold put_new. destruct (existsb _ _); [lia|]. induction l as [|k' l IH]; cbn [place].
    - rewrite filter_cons, filter_nil. destruct (decide _); cbn; lia.
    - destruct (cmp d k' <? 0).
      + rewrite (filter_cons _ d). destruct (decide _); cbn [length]; lia.
      + rewrite !(filter_cons _ k'). destruct (decide _); cbn [length]; lia.
  Qed.
End elements.

Lemma goes_on {S A O R} (step : O → M S R) (spec : O → A → option (R * A)) (rel : S → A → Prop) s l :
  (∀ o s l, rel s l → agrees rel (step o s) (spec o l)) → rel s l → goes_on_as step spec s l.
Proof.
  intros H Hr later. pose proof (run_agrees step spec rel (λ _, True) (λ o s l _, H o s l) later s l (proj2 (Forall_forall _ _) (λ _ _, I)) Hr) as Ha. unfold agrees in Ha.
  destruct (srun spec later l) as [[rs l']|]; [|done]. destruct Ha as (s' & E & _). eauto.
Qed.
Lemma reached {S A O R} (step : O → M S R) (spec : O → A → option (R * A)) (rel : S → A → Prop) s0 l0 ops rs l s :
  (∀ o s l, rel s l → agrees rel (step o s) (spec o l)) → rel s0 l0 → srun spec ops l0 = Some (rs, l) → run step ops s0 = Ok (rs, s) → rel s l.
Proof.
  intros H Hr E1 E2. pose proof (run_agrees step spec rel (λ _, True) (λ o s l _, H o s l) ops s0 l0 (proj2 (Forall_forall _ _) (λ _ _, I)) Hr) as Ha. unfold agrees in Ha. rewrite E1 in Ha. destruct Ha as (s' & E & Hs). rewrite E in E2. by injection E2 as <-.
Qed.

(** C112.  l is what the container holds, tr the visits.  Out of fuel: no end within f visits; then the entries and
    the visitor's insertions are more than f. *)
Section theorems.
  Context {K V T W W' : Type}.
  Theorem map_traversal_inserting (cmp : K → K → Z) (ops : list (map_op K V W')) rs s l (vis : K * V → W → list (K * V) * (bool * W)) f w : CmpOK cmp →
    srun (map_spec cmp) ops [] = Some (rs, l) → run (map_step cmp) ops map_new = Ok (rs, s) →
    match map_visit cmp vis f w s with
    | Ok (tr, s') => ∃ l', visits_unique cmp fst (λ kv, upsert cmp kv.1 kv.2) vis l w tr l' ∧ goes_on_as (map_step (W := W') cmp) (map_spec cmp) s' l'
    | Panic => False
    | Fuel => ∀ b, budget vis b → (f < length l + b w)%nat
    end.
  Proof.
    intros CO E1 E2. assert (mholds cmp s l) as [(t & Ht & <-) Ha]. { refine (reached _ _ (mholds cmp) _ _ _ _ _ _ (map_agrees cmp CO) _ E1 E2). split; [by apply holds_new|constructor]. }
    assert (inv cmp s (io t) (rb_next s)) as Hi by by exists t. unfold map_visit. rewrite <-cont_pairs in Ha |- *.
    pose proof (visit_unique cmp CO fst pair ltac:(done) (λ kv, upsert cmp kv.1 kv.2) vis read_pair (λ kv, map_Insert cmp kv.1 kv.2) read_pair_ok (λ d l, upsert_asc cmp CO d.1 d.2 l) (map_ok cmp CO) (upsert_keys cmp CO) (upsert_len cmp) f s (io t) _ w Hi Ha) as H.
    destruct (visit_all _ _ _ _ _ _) as [[tr s']| |]; [|done|done]. destruct H as (l' & n' & H1 & (t' & Ht' & E & _) & H3). eexists. split; [exact H1|]. apply (goes_on _ _ (mholds cmp) _ _ (map_agrees cmp CO)).
    split; [|exact H3]. exists t'. split; [done|]. by rewrite E, cont_pairs.
  Qed.
  Theorem set_traversal_inserting (cmp : T → T → Z) (ops : list (set_op T W')) rs s l (vis : T → W → list T * (bool * W)) f w : CmpOK cmp →
    srun (set_spec cmp) ops [] = Some (rs, l) → run (set_step cmp) ops set_new = Ok (rs, s) →
    match set_visit_ins cmp vis f w s with
    | Ok (tr, s') => ∃ l', visits_unique cmp (λ x, x) (put_new cmp) vis l w tr l' ∧ goes_on_as (set_step (W := W') cmp) (set_spec cmp) s' l'
    | Panic => False
    | Fuel => ∀ b, budget vis b → (f < length l + b w)%nat
    end.
  Proof.
    intros CO E1 E2. assert (asholds cmp s l) as [(t & Ht & <-) Ha]. { refine (reached _ _ (asholds cmp) _ _ _ _ _ _ (set_agrees cmp CO) _ E1 E2). split; [by apply sholds_new|constructor]. }
    assert (inv cmp s (io t) (rb_next s)) as Hi by by exists t. unfold set_visit_ins. rewrite <-cont_els in Ha |- *.
    pose proof (visit_unique cmp CO (λ x, x) (λ (y : T) (_ : bool), y) ltac:(done) (put_new cmp) vis key (set_Insert cmp) ltac:(done) (put_new_asc cmp CO) (set_ok cmp CO) (put_new_keys cmp CO) (put_new_len cmp) f s (io t) _ w Hi Ha) as H.
    destruct (visit_all _ _ _ _ _ _) as [[tr s']| |]; [|done|done]. destruct H as (l' & n' & H1 & (t' & Ht' & E & _) & H3). eexists. split; [exact H1|]. apply (goes_on _ _ (asholds cmp) _ _ (set_agrees cmp CO)).
    split; [|exact H3]. exists t'. split; [done|]. by rewrite E, <-cont_els.
  Qed.
  Theorem multimap_traversal_inserting (cmp : K → K → Z) (ops : list (map_op K V W')) rs s l (vis : K * V → W → list (K * V) * (bool * W)) f w : CmpOK cmp →
    srun (mm_spec cmp) ops [] = Some (rs, l) → run (mm_step cmp) ops map_new = Ok (rs, s) →
    match mm_visit cmp vis f w s with
    | Ok (tr, s') => ∃ l', visits_multi cmp fst (λ kv, add_after cmp kv.1 kv.2) vis l w tr l' ∧ goes_on_as (mm_step (W := W') cmp) (mm_spec cmp) s' l'
    | Panic => False
    | Fuel => ∀ b, budget vis b → (f < length l + b w)%nat
    end.
  Proof.
    intros CO E1 E2. assert (holds cmp s l) as (t & Ht & <-). { refine (reached _ _ (holds cmp) _ _ _ _ _ _ (mm_agrees cmp CO) _ E1 E2). by apply holds_new. }
    assert (inv cmp s (io t) (rb_next s)) as Hi by by exists t. unfold mm_visit. rewrite <-cont_pairs.
    pose proof (visit_multi cmp CO fst pair ltac:(done) (λ kv, add_after cmp kv.1 kv.2) vis read_pair (λ kv, mm_Insert cmp kv.1 kv.2) read_pair_ok (add_ok cmp CO) (add_at cmp CO) f s (io t) _ w Hi) as H.
    destruct (visit_all _ _ _ _ _ _) as [[tr s']| |]; [|done|done]. destruct H as (l' & n' & H1 & (t' & Ht' & E & _)). eexists. split; [exact H1|]. apply (goes_on _ _ (holds cmp) _ _ (mm_agrees cmp CO)).
    exists t'. split; [done|]. by rewrite E, cont_pairs.
  Qed.
  Theorem multiset_traversal_inserting (cmp : T → T → Z) (ops : list (set_op T W')) rs s l (vis : T → W → list T * (bool * W)) f w : CmpOK cmp →
    srun (ms_spec cmp) ops [] = Some (rs, l) → run (ms_step cmp) ops set_new = Ok (rs, s) →
    match ms_visit_ins cmp vis f w s with
    | Ok (tr, s') => ∃ l', visits_multi cmp (λ x, x) (place cmp) vis l w tr l' ∧ goes_on_as (ms_step (W := W') cmp) (ms_spec cmp) s' l'
    | Panic => False
    | Fuel => ∀ b, budget vis b → (f < length l + b w)%nat
    end.
  Proof.
    intros CO E1 E2. assert (sholds cmp s l) as (t & Ht & <-). { refine (reached _ _ (sholds cmp) _ _ _ _ _ _ (ms_agrees cmp CO) _ E1 E2). by apply sholds_new. }
    assert (inv cmp s (io t) (rb_next s)) as Hi by by exists t. unfold ms_visit_ins. rewrite <-cont_els.
    pose proof (visit_multi cmp CO (λ x, x) (λ (y : T) (_ : bool), y) ltac:(done) (place cmp) vis key (ms_Insert cmp) ltac:(done) (ms_ok cmp CO) (place_at cmp CO) f s (io t) _ w Hi) as H.
    destruct (visit_all _ _ _ _ _ _) as [[tr s']| |]; [|done|done]. destruct H as (l' & n' & H1 & (t' & Ht' & E & _)). eexists. split; [exact H1|]. apply (goes_on _ _ (sholds cmp) _ _ (ms_agrees cmp CO)).
    exists t'. split; [done|]. by rewrite E, <-cont_els.
  Qed.
  (** an RbTree: contents are read off by walking over it (C27) *)
  Theorem rbtree_traversal_inserting (cmp : K → K → Z) s l (vis : K * V → W → list (K * V) * (bool * W)) f w : CmpOK cmp →
    reach cmp s → contents s l →
    match rb_visit cmp vis f w s with
    | Ok (tr, s') => ∃ l', visits_multi cmp fst (λ kv, add_after cmp kv.1 kv.2) vis l.*2 w tr l'.*2 ∧ contents s' l' ∧ sorted cmp l'.*2
    | Panic => False
    | Fuel => ∀ b, budget vis b → (f < length l + b w)%nat
    end.
  Proof.
    intros CO Hr Hc. destruct (open cmp CO s l Hr Hc) as (t & Ht & -> & _). assert (inv cmp s (io t) (rb_next s)) as Hi by by exists t. unfold rb_visit. rewrite <-cont_pairs.
    pose proof (visit_multi cmp CO fst pair ltac:(done) (λ kv, add_after cmp kv.1 kv.2) vis read_pair (λ kv, rb_Insert cmp kv.1 kv.2) read_pair_ok (add_ok cmp CO) (add_at cmp CO) f s (io t) _ w Hi) as H.
    destruct (visit_all _ _ _ _ _ _) as [[tr s']| |]; [|done|by rewrite fmap_length in H]. destruct H as (l' & n' & H1 & (t' & Ht' & <- & _)). exists (io t'). rewrite <-cont_pairs at 1. split_and!; [exact H1|by apply (mk_contents cmp)|]. apply kle_sorted. by destruct Ht'.
  Qed.
End theorems.
Print Assumptions map_traversal_inserting.
Print Assumptions set_traversal_inserting.
Print Assumptions multimap_traversal_inserting.
Print Assumptions multiset_traversal_inserting.
Print Assumptions rbtree_traversal_inserting.

(** * Non-vacuity: at each of its first w visits the visitor inserts a key above and a key below the one it sees *)
Definition grow_vis (kv : Z * Z) (w : nat) : list (Z * Z) * (bool * nat) :=
  match w with O => ([], (true, O)) | S w => ([(kv.1 + 5, kv.2 + 1); (kv.1 - 100, 0)], (true, w)) end.
Example grow_budget : budget grow_vis (λ w, 2 * w)%nat.
Proof. intros d [|w]; cbn; lia. Qed.
Definition map_ops : list (map_op Z Z unit) := [MInsert 3 30; MInsert 1 10; MInsert 8 80].
Definition visited_keys {D S} (r : res (list (Z * D * list (Z * D)) * S)) : option (list (Z * D)) := match r with Ok (tr, _) => Some tr.*1 | _ => None end.
Definition with_map {A} (f : rb Z Z → A) : option A := match run (map_step Z.sub) map_ops map_new with Ok (_, s) => Some (f s) | _ => None end.
Definition with_mm {A} (f : rb Z Z → A) : option A := match run (mm_step Z.sub) map_ops map_new with Ok (_, s) => Some (f s) | _ => None end.
(** 6 is new and visited, 8 is visited with its new value, -99, -97, -95 are never visited *)
Example map_grows : with_map (λ s, visited_keys (map_visit Z.sub grow_vis 9 3%nat s)) = Some (Some [(1, 10); (3, 30); (6, 11); (8, 31); (11, 12)]).
Proof. by vm_compute. Qed.
(** a multimap: both entries with key 8 *)
Example multimap_grows : with_mm (λ s, visited_keys (mm_visit Z.sub grow_vis 9 3%nat s)) = Some (Some [(1, 10); (3, 30); (6, 11); (8, 80); (8, 31); (11, 12)]).
Proof. by vm_compute. Qed.
Example too_few_visits : with_map (λ s, match map_visit Z.sub grow_vis 4 3%nat s with Fuel => true | _ => false end) = Some true.
Proof. by vm_compute. Qed.
Example map_hypotheses : ∃ rs l s, srun (map_spec Z.sub) map_ops [] = Some (rs, l) ∧ run (map_step Z.sub) map_ops map_new = Ok (rs, s).
Proof. do 3 eexists. split; vm_compute; reflexivity. Qed.
