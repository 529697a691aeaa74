(** Property C106: going through all arrangements of n distinct elements with NextPermutation takes a
    constant number of element accesses per arrangement on average. *)
From Verif Require Import Base Wp ListLib GoSliceModel VectorModel SliceModel IterModel IterSpec SortModel SortSpec SortProofs StableProofs PermProofs CountSpec SortCostProofs IterProofs IterProps SortProps PermAllProps PermCostProofs.
From Coq Require Import Sorted Factorial.
Open Scope nat_scope.
Open Scope go_scope.

Section spends.
  Context {W T : Type} (csize : nat → M W Z) (cat : nat → Z → M W T) (cset : nat → Z → T → M W unit) (cmp : T → T → Z) (o : nat).
  (** the client's loop  "while NextPermutation(first, last) { }"  in the container that counts its At and
      Set calls: it starts with the counter at n and ends with the counter at n'. *)
  Inductive spends (a b : nat) : W → nat → W → nat → Prop :=
  | spends_last w n w' n' : next_permutation (csize_c csize) (cat_c cat) (cset_c cset) cmp (pos o a) (pos o b) (w, n) = Ok (false, (w', n')) → spends a b w n w' n'
  | spends_next w n w1 n1 w' n' : next_permutation (csize_c csize) (cat_c cat) (cset_c cset) cmp (pos o a) (pos o b) (w, n) = Ok (true, (w1, n1)) → spends a b w1 n1 w' n' → spends a b w n w' n'.
End spends.

Section props.
  Context {W T : Type} (csize : nat → M W Z) (cat : nat → Z → M W T) (cset : nat → Z → T → M W unit) (o : nat) (R : W → list T → Prop).
  Context (L : ra_law csize cat cset o R) (cmp : T → T → Z) (OK : CmpOK cmp).
  Notation csz := (csize_c csize). Notation ct := (cat_c cat). Notation cs := (cset_c cset).
  Notation visits := (visits csize cat cset cmp o R).
  Notation spends := (spends csize cat cset cmp o).
  Lemma visits_spends a b l w vs w' : a <= b <= length l → visits a b l w vs w' → Forall (λ v, v ≡ₚ seg a b l) vs → ∀ n, ∃ n', spends a b w n w' n' ∧ n' <= n + 10 * ssum (dsuf cmp) vs.
  Proof using L OK.
    intros Hab.
    assert (∀ w s n r w1, R w (take a l ++ s ++ drop b l) → s ≡ₚ seg a b l → next_permutation csize cat cset cmp (pos o a) (pos o b) w = Ok (r, w1) →
      ∃ n1, next_permutation csz ct cs cmp (pos o a) (pos o b) (w, n) = Ok (r, (w1, n1)) ∧ n1 <= n + 10 * dsuf cmp s) as Hone.
    { clear w w' vs. intros w s n r w1 HR Hs E. assert (length s = b - a) as Hl by (rewrite Hs; apply seg_length; lia).
      assert (length (take a l ++ s ++ drop b l) = length l) as Hl1 by (rewrite !app_length, take_length, drop_length; lia).
      pose proof (sim_next_permutation csize cat cset o R L cmp OK w _ a b HR ltac:(rewrite Hl1; lia) n) as H. rewrite E in H. destruct H as (d & E2 & Hd). rewrite seg_mid in Hd by done. exists (n + d). split; [done|lia]. }
    intros HV. induction HV as [w s HR E|w s w1 vs w' HR E HV IH]; intros Hf n; apply Forall_cons in Hf as [Hs Hf]; destruct (Hone _ _ n _ _ HR Hs E) as (n1 & E1 & Hn1).
    - exists n1. split; [by apply spends_last|]. unfold ssum. cbn. lia.
    - destruct (IH Hf n1) as (n' & Hsp & Hn'). exists n'. split; [by eapply spends_next|]. unfold ssum in *. cbn. lia.
  Qed.
  Lemma once_eq (S s t : list T) : (∀ x y, x ∈ S → y ∈ S → cmp x y = 0%Z → x = y) → (∀ x, x ∈ s → x ∈ S) → (∀ x, x ∈ t → x ∈ S) → lex_eq cmp s t → s = t.
  Proof using.
    intros H Hs Ht He. unfold lex_eq in He. induction He as [|x y s t E He IH]; [done|]. f_equal; [apply H; [apply Hs; left|apply Ht; left|done]|]. apply IH; intros z Hz; [apply Hs|apply Ht]; by right.
  Qed.
  (** C106: if no two of the n elements of the range compare equal and the range is sorted, then the loop visits n!
      arrangements and makes at most 20 n! element accesses altogether, the last call included *)
  Theorem next_permutation_loop_cost w l a b : R w l → a <= b <= length l → ascending cmp (seg a b l) →
    (∀ i j x y, a <= i < b → a <= j < b → l !! i = Some x → l !! j = Some y → cmp x y = 0%Z → i = j) →
    ∃ vs w' n, visits a b l w vs w' ∧ spends a b w 0 w' n ∧ length vs = fact (b - a) ∧ n <= 20 * length vs.
  Proof using L OK.
    intros HR Hab Ha Hd. assert (length (seg a b l) = b - a) as Hl by (apply seg_length; lia).
    assert (once cmp (seg a b l)) as Ho.
    { apply (apart_once cmp OK). intros i j x y Hi Hj E. pose proof (lookup_lt_Some _ _ _ Hi). pose proof (lookup_lt_Some _ _ _ Hj). rewrite seg_lookup in Hi, Hj by lia. specialize (Hd (a + i) (a + j) x y ltac:(lia) ltac:(lia) Hi Hj E). lia. }
    destruct (next_permutation_enumerates _ _ _ _ _ L cmp OK w l a b HR Hab Ha) as (vs & w' & V1 & _ & V2 & V3). rewrite Forall_lookup in V2.
    assert (∀ s, lex_eq cmp s s) as Hr. { intros s. apply Forall_Forall2_diag, Forall_forall. intros x _. apply (cmp_refl _ OK). }
    assert (NoDup vs) as Hnd. { apply NoDup_alt. intros i j v Hi Hj. destruct (V3 v (V2 _ _ Hi)) as (k & u & _ & _ & Hu). rewrite (Hu i v), (Hu j v); auto. }
    assert (vs ≡ₚ perms (b - a) (seg a b l)) as Hp.
    { apply NoDup_Permutation; [done|by apply perms_nodup; [|apply Ho]|]. intros t. rewrite (perms_spec (b - a) _ Hl). split.
      - intros Ht. apply elem_of_list_lookup in Ht as [i Hi]. by eapply V2.
      - intros Ht. destruct (V3 t Ht) as (i & v & Hi & Hv & _). replace t with v; [by eapply elem_of_list_lookup_2|]. eapply (once_eq (seg a b l)); [apply Ho| | |exact Hv]; intros x Hx; [by rewrite (V2 _ _ Hi) in Hx|by rewrite Ht in Hx]. }
    assert (Forall (λ v, v ≡ₚ seg a b l) vs) as V2' by by apply Forall_lookup.
    destruct (visits_spends a b l w vs w' Hab V1 V2' 0) as (n & Hs & Hn). exists vs, w', n. split_and!; [done|done| |]; rewrite Hp, (perms_length _ _ Hl); [done|]. rewrite (ssum_perm _ _ _ Hp) in Hn. revert Hn. destruct (b - a) as [|k] eqn:E.
    - destruct (seg a b l); [|done]. cbn. lia.
    - pose proof (dsuf_total cmp OK k (seg a b l) Hl Ho) as Ht. generalize dependent (fact (S k)). intros. lia.
  Qed.
  Lemma dsuf_le (s : list T) : dsuf cmp s <= length s.
  Proof using. induction s as [|x t IH]; [done|]. cbn [dsuf]. destruct (descb cmp (x :: t)); cbn [length]; lia. Qed.
  (** one call, whatever the range holds, makes at most 10 n accesses *)
  Theorem next_permutation_call_cost w l a b : R w l → a <= b <= length l →
    ∃ r w' c, next_permutation csize cat cset cmp (pos o a) (pos o b) w = Ok (r, w') ∧ next_permutation csz ct cs cmp (pos o a) (pos o b) (w, 0) = Ok (r, (w', c)) ∧ c <= 10 * (b - a).
  Proof using L OK.
    intros HR Hab. pose proof (next_permutation_ok csize cat cset o R L cmp OK w l a b HR Hab) as H. apply wp_Ok in H as (r & w' & E & _). pose proof (sim_next_permutation csize cat cset o R L cmp OK w l a b HR Hab 0) as H. rewrite E in H. destruct H as (d & E2 & Hd).
    exists r, w', d. split_and!; [done|done|]. pose proof (dsuf_le (seg a b l)) as Hle. rewrite seg_length in Hle by lia. lia.
  Qed.
End props.
Print Assumptions next_permutation_loop_cost. Print Assumptions next_permutation_call_cost.
(** the six arrangements of 3 5 8 in positions 1 to 3 of a slice: between 50 and 60 accesses *)
Example perm_cost_demo : ∃ w' n, spends sw_len sw_at sw_set Z.sub 0 1 4 (pdemo [9; 3; 5; 8; 7]%Z) 0 w' n ∧ 50 <= n <= 60.
Proof. do 2 eexists. split; [do 5 (eapply spends_next; [vm_compute; reflexivity|]); eapply spends_last; vm_compute; reflexivity|lia]. Qed.
(** the theorem's conditions hold for it *)
Example perm_cost_conditions : sw_holds 0 (pdemo [9; 3; 5; 8; 7]%Z) [9; 3; 5; 8; 7]%Z ∧ ascending Z.sub (seg 1 4 [9; 3; 5; 8; 7]%Z) ∧
  ∀ i j x y, 1 <= i < 4 → 1 <= j < 4 → [9; 3; 5; 8; 7]%Z !! i = Some x → [9; 3; 5; 8; 7]%Z !! j = Some y → (x - y = 0)%Z → i = j.
Proof.
  split_and!.
  - eexists; split; [reflexivity|]; split; [eexists; split; [reflexivity|cbn; lia]|reflexivity].
  - repeat constructor; cbn; lia.
  - intros i j x y Hi Hj. assert (i = 1 ∨ i = 2 ∨ i = 3) as [-> | [-> | ->]] by lia; assert (j = 1 ∨ j = 2 ∨ j = 3) as [-> | [-> | ->]] by lia; cbn; intros [= <-] [= <-]; lia.
Qed.
