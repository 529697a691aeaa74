(** Map, MultiMap, Set, MultiSet with any comparison function: step lemmas. *)
From Verif Require Import Base Wp History RbModel RbTree RbRot RbIns RbIns2 RbDel RbNav RbDel2 RbSpec RbFind RbProps RbApi MapModel MapSpec MapProofs SetModel SetSpec SetProofs AnyCmpRb AnyCmpSpec.
Open Scope Z_scope.
Open Scope go_scope.

Lemma loosely_run {S O A R} (step : O → M S R) (allows : O → A → R → A → Prop) (panics : O → A → Prop) (rel : S → A → Prop) :
  (∀ o s a, rel s a → (∃ r s' a', step o s = Ok (r, s') ∧ allows o a r a' ∧ rel s' a') ∨ (step o s = Panic ∧ panics o a)) →
  ∀ ops s a, rel s a → loosely step allows panics rel ops s a.
Proof.
  intros Hstep. unfold loosely. induction ops as [|o ops IH]; intros s a Hr; cbn [run]. { exists a. split; [constructor|done]. }
  destruct (Hstep o s a Hr) as [(r & s' & a' & -> & Ha & Hr')|[-> Hp]].
  - specialize (IH s' a' Hr'). destruct (run step ops s') as [[rs s'']| |].
    + destruct IH as (a'' & H1 & H2). exists a''. split; [by econstructor|done].
    + destruct IH as (pre & p' & post & rs & a'' & -> & H1 & H2). exists (o :: pre), p', post, (r :: rs), a''. split_and!; [done|by econstructor|done].
    + done.
  - exists [], o, ops, [], a. split_and!; [done|constructor|done].
Qed.

Section proofs.
  Context {K V W : Type} (cmp : K → K → Z).
  Implicit Types (s : rb K V) (t : tree K V) (l : list (K * V)).
  (** every tree is sorted for the comparison that calls everything equal *)
  Definition triv : K → K → Z := λ _ _, 0.
  Lemma triv_ok : CmpOK triv. Proof using. by split. Qed.
  Lemma triv_sorted (l : list (nat * (K * V))) : StronglySorted (kle triv) l.
  Proof using. induction l; constructor; [done|]. apply Forall_forall. intros. unfold kle, triv. lia. Qed.
  Lemma triv_tinv s t : rbinv s t → tinv triv s t. Proof using. intros H. split; [done|apply triv_sorted]. Qed.
  (** the tree holds the pairs l *)
  Definition aholds s l : Prop := ∃ t, rbinv s t ∧ (io t).*2 = l.
  Lemma aholds_triv s l : aholds s l ↔ holds triv s l.
  Proof using. split; [intros (t & H & E1); exists t; split; [by apply triv_tinv|done]|intros (t & [H _] & E1); by exists t]. Qed.
  Lemma locate_hd (P : K * V → Prop) s t p : rbrep s t → some_match P (io t) p → ∃ L R, io t = L ++ R ∧ p = hd R ∧ found P (io t).*2 L.*2 R.*2.
  Proof using. clear cmp.
    intros H. destruct p as [a|]; cbn.
    - intros (kv & (L & R & E1)%elem_of_list_split & HP). exists L, ((a, kv) :: R). split_and!; [done|done|]. split; [by rewrite E1, fmap_app|]. cbn. by intros x [= <-].
    - intros _. exists (io t), []. rewrite app_nil_r. split_and!; [done|done|]. split; [by rewrite app_nil_r|done].
  Qed.
  Lemma ahd_eq s t k : rbinv s t → ∃ L R, rb_FindNode cmp k s = Ok (hd R, s) ∧ io t = L ++ R ∧ found (eq_key cmp k) (io t).*2 L.*2 R.*2.
  Proof using. intros [H _ _]. destruct (findnode_any cmp k t s H) as (p & E1 & Hm). destruct (locate_hd _ s t p H Hm) as (L & R & E2 & -> & Hf). by exists L, R. Qed.
  Lemma ahd_lower s t k : rbinv s t → ∃ L R, rb_FindLowerBoundNode cmp k s = Ok (hd R, s) ∧ io t = L ++ R ∧ found (λ kv, cmp k kv.1 <= 0) (io t).*2 L.*2 R.*2.
  Proof using. intros [H _ _]. destruct (lower_any cmp k t s H) as (p & E1 & Hm). destruct (locate_hd _ s t p H Hm) as (L & R & E2 & -> & Hf). by exists L, R. Qed.
  Lemma ahd_upper s t k : rbinv s t → ∃ L R, rb_FindUpperBoundNode cmp k s = Ok (hd R, s) ∧ io t = L ++ R ∧ found (λ kv, cmp k kv.1 < 0) (io t).*2 L.*2 R.*2.
  Proof using. intros [H _ _]. destruct (upper_any cmp k t s H) as (p & E1 & Hm). destruct (locate_hd _ s t p H Hm) as (L & R & E2 & -> & Hf). by exists L, R. Qed.
  Lemma ahd_find s t k : rbinv s t → ∃ L R, rb_Find cmp k s = Ok (snd <$> head R, s) ∧ found (eq_key cmp k) (io t).*2 L R.
  Proof using.
    intros Ht. destruct (ahd_eq s t k Ht) as (L & R & E1 & E2 & E3). exists L.*2, R.*2. split; [|done]. unfold rb_Find, mbind_. rewrite E1. destruct R as [|[a [k' v']] R]; [done|].
    cbn [hd head fmap option_fmap option_map fst]. destruct Ht as [H _ _]. rewrite (value_ok _ _ _ _ _ _ _ H E2). done.
  Qed.
  Lemma ahd_insert s t k v : rbinv s t → ∃ s' t' L R, rb_Insert cmp k v s = Ok (tt, s') ∧ rbinv s' t' ∧ (io t).*2 = L ++ R ∧ (io t').*2 = L ++ (k, v) :: R ∧ between cmp k L.*1 R.*1.
  Proof using.
    intros H. pose proof (insert_any cmp s t k v H) as Hw. apply wp_Ok in Hw as (p & s' & E1 & t' & L & R & -> & H' & Hn & E2 & E3 & HL & HR).
    exists s', t', L.*2, R.*2. split_and!; [unfold rb_Insert, mbind_; by rewrite E1|done|by rewrite E2, fmap_app|by rewrite E3, fmap_app|split].
    - intros x Hx. rewrite !fmap_last in Hx. destruct (last L) as [y|] eqn:Ey; [|done]. cbn in Hx. injection Hx as <-. by apply HL.
    - intros x Hx. destruct R as [|y R]; [done|]. cbn in Hx. injection Hx as <-. by apply HR.
  Qed.
  Definition same_steps (o : map_op K V W) : Prop := match o with MInsert _ _ | MErase _ | MEraseFound _ => False | _ => negb (searching o) end.
  Lemma steps_triv o s : same_steps o → map_step cmp o s = map_step triv o s. Proof using. by destruct o. Qed.
End proofs.
#[local] Opaque rb_First rb_Last rb_FindNode rb_FindLowerBoundNode rb_FindUpperBoundNode rb_Find rb_Insert rb_Delete rb_Clear rb_Traversal set_value key value next prev rb_Size.

Section maps.
  Context {K V W : Type} (cmp : K → K → Z).
  Implicit Types (s : rb K V) (t : tree K V) (l : list (K * V)).
  Lemma search_step (o : map_op K V W) s l : searching o = true → aholds s l → ∃ r, map_step cmp o s = Ok (r, s) ∧ map_searches cmp o l r.
  Proof using.
    intros Ho (t & H & <-). pose proof (triv_tinv s t H) as Ht. pose proof (ri_rep _ _ H) as Hp. destruct o; try done; cbn [map_step map_searches]; clear Ho.
    - unfold map_Get. unfold mbind_ at 1. unfold mbind_ at 1. destruct (ahd_eq cmp s t k H) as (L & R & -> & E2 & E3). exists (ROpt (snd <$> head R.*2)). split; [|by exists L.*2, R.*2].
      destruct R as [|[a [k' v']] R]; [done|]. cbn [hd head fmap option_fmap option_map fst list_fmap]. unfold mbind_. by rewrite (value_ok _ _ _ _ _ _ _ Hp E2).
    - unfold map_Find. unfold mbind_ at 1. destruct (ahd_eq cmp s t k H) as (L & R & -> & E2 & E3). eexists. rewrite (walk_entry _ _ _ _ _ _ Ht E2). split; [done|]. by exists L.*2, R.*2.
    - unfold map_LowerBound. unfold mbind_ at 1. destruct (ahd_lower cmp s t k H) as (L & R & -> & E2 & E3). eexists. rewrite (walk_entry _ _ _ _ _ _ Ht E2). split; [done|]. by exists L.*2, R.*2.
    - unfold map_UpperBound. unfold mbind_ at 1. destruct (ahd_upper cmp s t k H) as (L & R & -> & E2 & E3). eexists. rewrite (walk_entry _ _ _ _ _ _ Ht E2). split; [done|]. by exists L.*2, R.*2.
    - unfold map_Contains, mbind_. destruct (ahd_find cmp s t k H) as (L & R & -> & E3). eexists. split; [done|]. exists L, R. split; [done|]. by destruct R.
  Qed.
  (** an operation that does not search behaves as under every other comparison function *)
  Lemma exact_step (o : map_op K V W) s l : same_steps o → (match o with MEraseAt _ => False | _ => True end) → aholds s l →
    (∃ r s' l', map_step cmp o s = Ok (r, s') ∧ obs cmp l o = Some (r, l') ∧ aholds s' l') ∨ (map_step cmp o s = Panic ∧ map_panics o l).
  Proof using.
    intros Ho He H. rewrite (steps_triv cmp o s Ho). apply aholds_triv in H. pose proof (obs_agrees triv triv_ok o s l) as Hag.
    assert (obs cmp l o = obs triv l o) as -> by by destruct o. assert (is_obs o) as Hi by by destruct o. specialize (Hag Hi H). unfold agrees in Hag.
    destruct (obs triv l o) as [[r l']|] eqn:Eo.
    - destruct Hag as (s' & E1 & H'). left. exists r, s', l'. split_and!; [done|done|by apply aholds_triv].
    - right. split; [done|]. destruct o; try done; cbn in Eo |- *; apply lookup_ge_None; by destruct (l !! i).
  Qed.
  Lemma delete_step s t L R : rbinv s t → io t = L ++ R → ∃ s', rb_Delete (hd R) s = Ok (tt, s') ∧ aholds s' (L.*2 ++ tail R.*2).
  Proof using.
    intros H E1. destruct (hd_delete triv triv_ok s t L R (triv_tinv s t H) E1) as (s' & t' & E2 & [H' _] & _ & E3). exists s'. split; [done|]. by exists t'.
  Qed.
  Lemma map_any (o : map_op K V W) s l : aholds s l →
    (∃ r s' l', map_step cmp o s = Ok (r, s') ∧ map_allows cmp o l r l' ∧ aholds s' l') ∨ (map_step cmp o s = Panic ∧ map_panics o l).
  Proof using.
    intros H. destruct (searching o) eqn:Es.
    { left. destruct (search_step o s l Es H) as (r & E1 & Hr). exists r, s, l. split_and!; [done| |done]. by destruct o. }
    assert ((same_steps o ∧ match o with MEraseAt _ => False | _ => True end) ∨ match o with MInsert _ _ | MErase _ | MEraseFound _ | MEraseAt _ => True | _ => False end) as [[Ho1 Ho2]|Ho] by (destruct o; cbn in Es |- *; by auto).
    { destruct (exact_step o s l Ho1 Ho2 H) as [(r & s' & l' & E1 & E2 & H')|Hp]; [left|by right]. exists r, s', l'. split_and!; [done| |done]. by destruct o. }
    left. pose proof H as (t & Ht & <-). destruct o; try done; cbn [map_step map_allows].
    - unfold map_Insert. unfold mbind_ at 1. unfold mbind_ at 1. destruct (ahd_eq cmp s t k Ht) as (L & R & -> & E2 & E3). destruct R as [|[a kv] R]; cbn [hd head fmap option_fmap option_map fst].
      + destruct (ahd_insert cmp s t k v Ht) as (s' & t' & L1 & R1 & -> & H' & E4 & E5 & Hb). exists RUnit, s', (io t').*2. split_and!; [done|done| |by exists t']. right. by exists L1, R1.
      + destruct (hd_setval triv triv_ok s t L a kv R v (triv_tinv s t Ht) E2) as (s' & t' & E4 & [H' _] & E5). cbn [hd head fmap option_fmap option_map fst] in E4. rewrite E4. exists RUnit, s', (io t').*2. split_and!; [done|done| |by exists t'].
        left. exists L.*2, kv, R.*2. split_and!; [by rewrite E2, fmap_app|by apply (proj2 E3)|]. by rewrite E5, fmap_app.
    - unfold map_Erase. unfold mbind_ at 1. unfold mbind_ at 1. destruct (ahd_eq cmp s t k Ht) as (L & R & -> & E2 & E3). destruct (delete_step s t L R Ht E2) as (s' & E4 & H').
      destruct R as [|[a kv] R]; cbn [hd head fmap option_fmap option_map fst] in *.
      + exists RUnit, s, (io t).*2. split_and!; [done|done| |done]. exists L.*2, []. split; [done|]. by rewrite (proj1 E3).
      + rewrite E4. eexists RUnit, s', _. split_and!; [done|done| |exact H']. by exists L.*2, (kv :: R.*2).
    - unfold map_Begin. unfold mbind_ at 1. rewrite (hd_first _ _ (ri_rep _ _ Ht)). unfold mbind_ at 1. rewrite (walk_ok triv s t [] (io t) i (triv_tinv s t Ht) eq_refl).
      destruct (delete_step s t (take i (io t)) (drop i (io t)) Ht ltac:(by rewrite take_drop)) as (s' & E4 & H'). unfold map_EraseIter, mbind_. rewrite E4. eexists RUnit, s', _. split_and!; [done|done| |exact H']. by rewrite delete_split, fmap_take, fmap_drop.
    - unfold map_Find. unfold mbind_ at 1. destruct (ahd_eq cmp s t k Ht) as (L & R & -> & E2 & E3). destruct (delete_step s t L R Ht E2) as (s' & E4 & H'). unfold map_EraseIter, mbind_. rewrite E4. eexists RUnit, s', _. split_and!; [done|done| |exact H']. by exists L.*2, R.*2.
  Qed.
  Lemma thin_mid {A} (P : A → Prop) (L : list A) x R (l' : list A) : P x → thinned P (L ++ R) l' → thinned P (L ++ x :: R) l'.
  Proof using. clear. intros Hx. revert l'. induction L as [|y L IH]; intros l' H; cbn in *; [by constructor|]. inversion H; subst; [apply thin_keep|apply thin_drop]; auto. Qed.
  Lemma thin_refl {A} (P : A → Prop) (l : list A) : thinned P l l.
  Proof using. clear. induction l; by constructor. Qed.
  Lemma erase_loop_any f k s l : aholds s l → (length l < f)%nat → ∃ s' l', mm_erase_loop cmp f k s = Ok (tt, s') ∧ aholds s' l' ∧ thinned (eq_key cmp k) l l'.
  Proof using.
    revert s l. induction f as [|f IH]; intros s l (t & H & <-) Hf; [lia|]. cbn [mm_erase_loop]. unfold mbind_ at 1. destruct (ahd_eq cmp s t k H) as (L & R & -> & E2 & E3).
    destruct (delete_step s t L R H E2) as (s1 & E4 & H1). destruct R as [|[a kv] R]; cbn [hd head fmap option_fmap option_map fst] in E4 |- *.
    - exists s, (io t).*2. split_and!; [done|by exists t|apply thin_refl].
    - unfold mbind_ at 1. rewrite E4. destruct (IH s1 _ H1) as (s' & l' & E5 & H' & Ht). { apply (f_equal length) in E2. rewrite app_length in E2. rewrite fmap_length in Hf. rewrite app_length, fmap_cons. cbn [length tail] in E2 |- *. rewrite !fmap_length. lia. }
      exists s', l'. split_and!; [done|done|]. rewrite E2, fmap_app. apply thin_mid; [by apply (proj2 E3)|done].
  Qed.
  Lemma mm_any (o : map_op K V W) s l : aholds s l →
    (∃ r s' l', mm_step cmp o s = Ok (r, s') ∧ mm_allows cmp o l r l' ∧ aholds s' l') ∨ (mm_step cmp o s = Panic ∧ map_panics o l).
  Proof using.
    intros H. destruct (searching o) eqn:Es.
    { left. destruct (search_step o s l Es H) as (r & E1 & Hr). exists r, s, l. split_and!; [by destruct o| |done]. by destruct o. }
    assert ((same_steps o ∧ match o with MEraseAt _ => False | _ => True end) ∨ match o with MInsert _ _ | MErase _ | MEraseFound _ | MEraseAt _ => True | _ => False end) as [[Ho1 Ho2]|Ho] by (destruct o; cbn in Es |- *; by auto).
    { assert (mm_step cmp o s = map_step cmp o s) as -> by by destruct o. destruct (exact_step o s l Ho1 Ho2 H) as [(r & s' & l' & E1 & E2 & H')|Hp]; [left|by right]. exists r, s', l'. split_and!; [done| |done]. by destruct o. }
    left. pose proof H as (t & Ht & <-). destruct o; try done; cbn [mm_step mm_allows].
    - unfold mm_Insert, mbind_. destruct (ahd_insert cmp s t k v Ht) as (s' & t' & L1 & R1 & -> & H' & E4 & E5 & Hb). exists RUnit, s', (io t').*2. split_and!; [done|done| |by exists t']. by exists L1, R1.
    - unfold mm_Erase. unfold mbind_ at 1. unfold mbind_ at 1. unfold fuel. destruct (erase_loop_any (S (rb_next s)) k s _ H) as (s' & l' & -> & H' & Hth). { pose proof (count_ok _ _ (ri_rep _ _ Ht)). rewrite fmap_length. lia. }
      by exists RUnit, s', l'.
    - by exists RUnit, s, (io t).*2.
    - by exists RUnit, s, (io t).*2.
  Qed.
  Lemma aholds_new : aholds (rb_new : rb K V) []. Proof using. exists E. split; [apply rbinv_new|done]. Qed.
End maps.
