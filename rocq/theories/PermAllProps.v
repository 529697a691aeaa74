(** Property C72: calling NextPermutation again and again, beginning with the sorted arrangement,
    goes through all arrangements of the range, each exactly once, and then returns false. *)
From Verif Require Import Base Wp ListLib GoSliceModel VectorModel IterModel IterSpec SliceModel SortModel SortSpec SortProofs StableProofs PermProofs SortProps IterProofs IterProps.
From Coq Require Import Sorted.
Open Scope nat_scope.

Section visits.
  Context {W T : Type} (csize : nat → M W Z) (cat : nat → Z → M W T) (cset : nat → Z → T → M W unit) (cmp : T → T → Z) (o : nat).
  (** the client's loop  "use the range; while NextPermutation(first, last) { use the range }":
      what the range holds each time it is used.  [holds w l] says that the container holds l. *)
  Inductive visits (holds : W → list T → Prop) (a b : nat) (l : list T) : W → list (list T) → W → Prop :=
  | visits_last w s : holds w (take a l ++ s ++ drop b l) → next_permutation csize cat cset cmp (pos o a) (pos o b) w = Ok (false, w) → visits holds a b l w [s] w
  | visits_next w s w1 vs w' : holds w (take a l ++ s ++ drop b l) → next_permutation csize cat cset cmp (pos o a) (pos o b) w = Ok (true, w1) →
      visits holds a b l w1 vs w' → visits holds a b l w (s :: vs) w'.
End visits.

Section lex.
  Context {T : Type} (cmp : T → T → Z) (OK : CmpOK cmp).
  Lemma lex_lt_eq s t u : lex_lt cmp s t → lex_eq cmp t u → lex_lt cmp s u.
  Proof using OK.
    intros H. revert u. induction H as [x y s t H Hl|x y s t H H1 IH]; intros u Hu; inversion Hu as [|? z ? u' E1 E2]; subst.
    - apply lex_here; [|by rewrite Hl; eapply Forall2_length]. eapply (cmp_lt_le_trans _ OK _ y); [done|lia].
    - apply lex_there; [|by apply IH]. eapply (cmp_eq_trans _ OK _ y); done.
  Qed.
  Lemma lex_eq_sym s t : lex_eq cmp s t → lex_eq cmp t s.
  Proof using OK. unfold lex_eq. intros H. apply Forall2_flip. eapply Forall2_impl; [exact H|]. intros x y. apply (cmp_flip_eq _ OK). Qed.
  Lemma lex_lt_trans s t u : lex_lt cmp s t → lex_lt cmp t u → lex_lt cmp s u.
  Proof using OK.
    intros H. revert u. induction H as [x y s t H Hl|x y s t H H1 IH]; intros u Hu; inversion Hu as [? z ? u' E1 E2|? z ? u' E1 E2]; subst.
    - apply lex_here; [|lia]. eapply (cmp_lt_le_trans _ OK _ y); [done|lia].
    - apply lex_here; [|]. { eapply (cmp_lt_le_trans _ OK _ y); [done|lia]. } rewrite Hl. clear -E2. induction E2; cbn; congruence.
    - apply lex_here; [|]. { eapply (cmp_le_lt_trans _ OK _ y); [lia|done]. } rewrite <-E2. clear -H1. induction H1; cbn; congruence.
    - apply lex_there; [|by apply IH]. eapply (cmp_eq_trans _ OK _ y); done.
  Qed.
  Lemma lex_lt_irr s : ¬ lex_lt cmp s s.
  Proof using OK.
    intros H. remember s as t eqn:E in H at 2. revert E. induction H as [x y s t H Hl|x y s t H H1 IH]; intros [= -> ->]; [|by apply IH]. rewrite (cmp_refl _ OK) in H. lia.
  Qed.
  Fixpoint lex_ltb (s t : list T) : bool := match s, t with x :: s, y :: t => (Z.ltb (cmp x y) 0 && Nat.eqb (length s) (length t)) || (Z.eqb (cmp x y) 0 && lex_ltb s t) | _, _ => false end.
  Lemma lex_ltb_spec s t : lex_ltb s t = true ↔ lex_lt cmp s t.
  Proof using. clear OK.
    revert t. induction s as [|x s IH]; intros [|y t]; cbn; try (split; [done|by inversion 1]). rewrite orb_true_iff, !andb_true_iff, Z.ltb_lt, Z.eqb_eq, Nat.eqb_eq, IH. split.
    - intros [[??]|[??]]; [by apply lex_here|by apply lex_there].
    - inversion 1; subst; auto.
  Qed.
  (** how many of the arrangements in p are greater *)
  Definition aheadp (p : list (list T)) (s : list T) : nat := length (filter (λ t, lex_ltb s t = true) p).
  Lemma aheadp_lt p s s' : lex_lt cmp s s' → s' ∈ p → aheadp p s' < aheadp p s.
  Proof using OK.
    unfold aheadp. intros H. assert (∀ p, length (filter (λ t, lex_ltb s' t = true) p) <= length (filter (λ t, lex_ltb s t = true) p)) as Hle.
    { clear p. intros p. induction p as [|t p IH]; [done|]. rewrite !filter_cons. destruct (decide (lex_ltb s' t = true)) as [E|E].
      - rewrite decide_True; [cbn; lia|]. apply lex_ltb_spec. apply lex_ltb_spec in E. by eapply lex_lt_trans.
      - destruct (decide _); cbn; lia. }
    induction p as [|t p IH]; intros Hin; [by apply elem_of_nil in Hin|]. rewrite !filter_cons. apply elem_of_cons in Hin as [<-|Hin].
    - rewrite (decide_False (P := lex_ltb s' s' = true)) by (rewrite lex_ltb_spec; apply lex_lt_irr). rewrite decide_True by by apply lex_ltb_spec. cbn. specialize (Hle p). lia.
    - specialize (IH Hin). destruct (decide (lex_ltb s' t = true)) as [E|E]; [rewrite decide_True|destruct (decide (lex_ltb s t = true)); cbn; lia]; [cbn; lia|]. apply lex_ltb_spec. apply lex_ltb_spec in E. by eapply lex_lt_trans.
  Qed.
End lex.

Section props.
  Context {W T : Type} (csize : nat → M W Z) (cat : nat → Z → M W T) (cset : nat → Z → T → M W unit) (o : nat) (R : W → list T → Prop).
  Context (L : ra_law csize cat cset o R) (cmp : T → T → Z) (OK : CmpOK cmp).
  Notation visits := (visits csize cat cset cmp o R).
  Lemma seg_mid a b (l s : list T) : a <= b <= length l → length s = b - a → seg a b (take a l ++ s ++ drop b l) = s.
  Proof using. clear. intros Hab Hl. unfold seg. rewrite drop_app_alt by (rewrite take_length; lia). by rewrite take_app_alt by lia. Qed.
  Lemma all_from n w a b l s : aheadp cmp (permutations (seg a b l)) s < n → R w (take a l ++ s ++ drop b l) → a <= b <= length l → s ≡ₚ seg a b l →
    ∃ vs w', visits a b l w (s :: vs) w' ∧ StronglySorted (lex_lt cmp) (s :: vs) ∧ Forall (λ v, v ≡ₚ seg a b l) (s :: vs)
      ∧ ∀ t, t ≡ₚ seg a b l → lex_lt cmp s t ∨ lex_eq cmp s t → ∃ v, v ∈ s :: vs ∧ lex_eq cmp v t.
  Proof using L OK.
    revert w s. induction n as [|n IH]; intros w s Hn HR Hab Hs; [lia|].
    assert (length s = b - a) as Hl. { rewrite Hs. unfold seg. rewrite take_length, drop_length. lia. }
    set (l1 := take a l ++ s ++ drop b l) in *. assert (length l1 = length l) as Hl1. { unfold l1. rewrite !app_length, take_length, drop_length. lia. }
    assert (seg a b l1 = s) as Hseg by by apply seg_mid. assert (take a l1 = take a l) as Ht. { unfold l1. rewrite take_app_le by (rewrite take_length; lia). rewrite take_take. f_equal. lia. }
    assert (drop b l1 = drop b l) as Hd. { unfold l1. rewrite app_assoc. apply drop_app_alt. rewrite app_length, take_length. lia. }
    destruct (next_permutation_is_successor _ _ _ _ _ L cmp OK w l1 a b HR ltac:(lia)) as [[E1 H]|(w1 & s' & E1 & H1 & H2 & H3 & H4)]; rewrite Hseg in *.
    - exists [], w. split_and!; [by apply visits_last|by repeat constructor|by repeat constructor|]. intros t Hp [Hlt|He]; [|by exists s; split; [left|]]. destruct (H t); [by rewrite Hs|done].
    - rewrite Ht, Hd in H1. assert (s' ≡ₚ seg a b l) as Hs' by by rewrite H2. assert (s' ∈ permutations (seg a b l)) as Hin by by apply permutations_Permutation.
      pose proof (aheadp_lt cmp OK _ _ _ H3 Hin). destruct (IH w1 s' ltac:(lia) H1 Hab Hs') as (vs & w' & V1 & V2 & V3 & V4). exists (s' :: vs), w'. split_and!; [by eapply visits_next| |by constructor|].
      + constructor; [done|]. apply StronglySorted_inv in V2 as [_ V2]. constructor; [done|]. eapply Forall_impl; [exact V2|]. intros v Hv. cbn in Hv. by eapply lex_lt_trans.
      + intros t Hp [Hlt|He]; [|by exists s; split; [left|]]. destruct (V4 t Hp) as (v & Hv & Hvt); [|by exists v; split; [right|]]. apply H4; [by rewrite Hs|done].
  Qed.
  (** C72 *)
  Theorem next_permutation_enumerates w l a b : R w l → a <= b <= length l → ascending cmp (seg a b l) →
    ∃ vs w', visits a b l w vs w' ∧ head vs = Some (seg a b l) ∧ Forall (λ v, v ≡ₚ seg a b l) vs
      ∧ ∀ t, t ≡ₚ seg a b l → ∃ i v, vs !! i = Some v ∧ lex_eq cmp v t ∧ ∀ j u, vs !! j = Some u → lex_eq cmp u t → j = i.
  Proof using L OK.
    intros HR Hab Ha. assert (take a l ++ seg a b l ++ drop b l = l) as El. { unfold seg. rewrite <-(take_drop a l) at 4. f_equal. rewrite <-(take_drop (b - a) (drop a l)) at 2. f_equal. rewrite drop_drop. f_equal. lia. }
    destruct (all_from (S (aheadp cmp (permutations (seg a b l)) (seg a b l))) w a b l (seg a b l) ltac:(lia) ltac:(by rewrite El) Hab ltac:(done)) as (vs & w' & V1 & V2 & V3 & V4).
    exists (seg a b l :: vs), w'. split_and!; [done|done|done|]. intros t Hp. destruct (V4 t Hp) as (v & Hv & Hvt).
    { apply ascending_min; [done|done|by rewrite Hp|by apply perm_ceq]. }
    apply elem_of_list_lookup in Hv as [i Hi]. exists i, v. split_and!; [done|done|]. intros j u Hj Hu. revert V2 Hi Hj Hvt Hu. clear -OK. generalize (seg a b l :: vs). intros l0 V2.
    assert (∀ i j v u, l0 !! i = Some v → l0 !! j = Some u → i < j → lex_eq cmp v t → lex_eq cmp u t → False) as Hlt.
    { clear i j v u. induction V2 as [|x l0 H IH Hx]; intros i j v u Hi Hj Hij Hv Hu; [done|]. destruct i as [|i]; destruct j as [|j]; [lia| |lia|by eapply (IH i j); eauto; lia]. cbn in Hi, Hj. injection Hi as <-. rewrite Forall_lookup in Hx. specialize (Hx _ _ Hj).
      apply (lex_lt_irr cmp OK x). eapply lex_lt_eq; [done|exact Hx|]. apply (lex_eq_sym cmp OK) in Hv. unfold lex_eq in *. clear -Hu Hv OK. revert x Hv. induction Hu as [|p q u t Hpq Hu IH]; intros x Hv; inversion Hv as [|? z ? x' E1 E2]; subst; constructor; [by eapply (cmp_eq_trans _ OK)|by apply IH]. }
    intros. destruct (Nat.lt_total i j) as [Hij|[->|Hij]]; [|done|]; exfalso; [by eapply (Hlt i j)|by eapply (Hlt j i)].
  Qed.
  (** C72 when elements that compare equal are equal *)
  Corollary next_permutation_all w l a b : (∀ x y, cmp x y = 0%Z → x = y) → R w l → a <= b <= length l → ascending cmp (seg a b l) →
    ∃ vs w', visits a b l w vs w' ∧ NoDup vs ∧ ∀ t, t ∈ vs ↔ t ≡ₚ seg a b l.
  Proof using L OK.
    intros Hx HR Hab Ha. destruct (next_permutation_enumerates w l a b HR Hab Ha) as (vs & w' & V1 & _ & V2 & V3). exists vs, w'. split; [done|].
    assert (∀ s t, lex_eq cmp s t → s = t) as He. { intros s t. induction 1; [done|]. f_equal; auto. } assert (∀ s, lex_eq cmp s s) as Hr. { intros s. apply Forall_Forall2_diag, Forall_forall. intros x _. apply (cmp_refl _ OK). }
    split.
    - apply NoDup_alt. intros i j v Hi Hj. rewrite Forall_lookup in V2. destruct (V3 v (V2 _ _ Hi)) as (k & u & _ & _ & Hu). rewrite (Hu i v), (Hu j v); auto.
    - intros t. split; [rewrite Forall_forall in V2; apply V2|]. intros Ht. destruct (V3 t Ht) as (i & v & Hi & Hv & _). apply He in Hv as ->. by eapply elem_of_list_lookup_2.
  Qed.
End props.
Print Assumptions next_permutation_enumerates. Print Assumptions next_permutation_all.
(** the three arrangements of 1 2 2, in positions 1 to 3 of a slice *)
Definition pdemo (l : list Z) : world Z := MkWorld (MkMem {[0 := l]} 1) [MkSlice 0 0 5 5].
Example perm_demo : ∃ w', visits sw_len sw_at sw_set Z.sub 0 (sw_holds 0) 1 4 [9; 1; 2; 2; 7]%Z (pdemo [9; 1; 2; 2; 7]%Z) [[1; 2; 2]; [2; 1; 2]; [2; 2; 1]]%Z w'.
Proof.
  eexists. eapply visits_next; [eexists; split; [reflexivity|]; split; [eexists; split; [reflexivity|cbn; lia]|reflexivity]|vm_compute; reflexivity|].
  eapply visits_next; [eexists; split; [reflexivity|]; split; [eexists; split; [reflexivity|cbn; lia]|reflexivity]|vm_compute; reflexivity|]. eapply visits_last; [eexists; split; [reflexivity|]; split; [eexists; split; [reflexivity|cbn; lia]|reflexivity]|vm_compute; reflexivity].
Qed.
