(** C40-C44: algorithm/sort, for every random access container (every ra_law instance: vector,
    array, slice wrapper, deque).  [R w l] says that in world w container o holds the sequence l;
    positions a, b delimit the range; [seg a b l] is the part of l in [a, b). *)
From Verif Require Import Base Wp ListLib IterModel IterSpec SortModel SortSpec SortProofs NthProofs StableProofs SearchProofs PermProofs.
From Verif Require Import GoSliceModel VectorModel SliceModel IterProofs IterProps.
From Coq Require Import Sorted.
Open Scope nat_scope.

Notation pos o p := (MkIter o (Z.of_nat p)).

Section props.
  Context {W T : Type} (csize : nat → M W Z) (cat : nat → Z → M W T) (cset : nat → Z → T → M W unit).
  Context (o : nat) (R : W → list T → Prop) (L : ra_law csize cat cset o R).
  Context (cmp : T → T → Z) (OK : CmpOK cmp).

  (** C40 *)
  Theorem sort_sorts w l a b : R w l → a <= b <= length l →
    ∃ w' s', sort_range csize cat cset cmp (pos o a) (pos o b) w = Ok (tt, w') ∧
      R w' (take a l ++ s' ++ drop b l) ∧ s' ≡ₚ seg a b l ∧ ascending cmp s'.
  Proof using L OK.
    intros HR Hab. pose proof (sort_ok _ _ _ o R L cmp OK w l a b HR Hab) as H. apply wp_Ok in H as ([] & w' & E & l' & HR' & Hp & Hs).
    destruct (perm_in_seg a b l l' ltac:(lia) Hp) as (H1 & H2 & H3). exists w', (seg a b l'). split_and!; [done| |done|].
    - rewrite <-H2, <-H3. by rewrite <-split3 by lia.
    - apply (sorted_in_seg csize cat cset o R L cmp OK); [|done]. rewrite (perm_in_length _ _ _ _ Hp). done.
  Qed.

  (** C41: for non-empty ranges Stable is a stable sort ... *)
  Theorem stable_sorts_partial zero w l a b fuel : R w l → a < b <= length l → b - a <= fuel →
    ∃ w' s', stable csize cat cset cmp fuel zero (pos o a) (pos o b) w = Ok (tt, w') ∧
      R w' (take a l ++ s' ++ drop b l) ∧ s' ≡ₚ seg a b l ∧ ascending cmp s' ∧
      same_order_of_equals cmp (seg a b l) s'.
  Proof using L OK.
    intros HR Hab Hf. assert (wp (stable csize cat cset cmp fuel zero (pos o a) (pos o b))
      (λ _ w', ∃ s', R w' (take a l ++ s' ++ drop b l) ∧ s' ≡ₚ seg a b l ∧ ascending cmp s' ∧ same_order_of_equals cmp (seg a b l) s') w) as H.
    { unfold stable, it_position. cbn [it_pos]. destruct (Z.ltb_spec (Z.of_nat b - Z.of_nat a) 0); [lia|]. apply wp_bind.
      eapply wp_mono; [apply (merge_sort_ok _ _ _ o R L cmp OK fuel w l a b); [done|done|done|rewrite replicate_length; lia]|].
      intros tmp' w' (_ & s & H'). apply wp_ret. by exists s. }
    apply wp_Ok in H as ([] & w' & E & s' & H'). exists w', s'. done.
  Qed.
  (** ... but on every empty range it never returns: it exhausts any amount of recursion (in Go:
      a fatal stack overflow) *)
  Theorem stable_empty_refuted zero w a fuel :
    stable csize cat cset cmp fuel zero (pos o a) (pos o a) w = Fuel.
  Proof using.
    unfold stable, it_position. cbn [it_pos]. destruct (Z.ltb_spec (Z.of_nat a - Z.of_nat a) 0); [lia|].
    unfold mbind_. by rewrite merge_sort_empty.
  Qed.

  (** C42: NthElement terminates, permutes the range, touches nothing else, and puts at position n
      an element whose rank is off by at most one: there are c <= n < d <= c + 2 such that nothing
      before c is greater than anything from c on, and nothing before d is greater than anything
      from d on.  (With d = c + 1 that is the nth element property.) *)
  Theorem nth_element_partial w l a b n : R w l → a <= b <= length l → a <= n < b →
    ∃ w' s', nth_element csize cat cset cmp (pos o a) (pos o b) (Z.of_nat n - Z.of_nat a) w = Ok (tt, w') ∧
      R w' (take a l ++ s' ++ drop b l) ∧ s' ≡ₚ seg a b l ∧
      ∃ c d, c <= n - a < d ∧ d <= c + 2 ∧
        (∀ i j x y, i < c <= j → s' !! i = Some x → s' !! j = Some y → (cmp x y <= 0)%Z) ∧
        (∀ i j x y, i < d <= j → s' !! i = Some x → s' !! j = Some y → (cmp x y <= 0)%Z).
  Proof using L OK.
    intros HR Hab Hn. assert (wp (nth_element csize cat cset cmp (pos o a) (pos o b) (Z.of_nat n - Z.of_nat a))
      (λ _ w', ∃ l', R w' l' ∧ perm_in a b l l' ∧ window cmp a b n l') w) as H.
    { unfold nth_element, it_position, it_at. cbn [it_pos it_obj].
      destruct (Z.ltb_spec (Z.of_nat a) 0); [lia|]. destruct (Z.ltb_spec (Z.of_nat b - Z.of_nat a) (Z.of_nat n - Z.of_nat a)); [lia|]. cbn [orb].
      replace (Z.of_nat a + (Z.of_nat b - Z.of_nat a) - 1)%Z with (Z.of_nat b - 1)%Z by lia.
      eapply wp_mono; [apply (nth_ok _ _ _ o R L cmp OK _ w l a b (Z.of_nat n)); [done|lia|lia]|].
      intros ? w' (l' & ? & ? & Hw). exists l'. split_and!; [done|done|]. by apply Hw. }
    apply wp_Ok in H as ([] & w' & E & l' & HR' & Hp & c & d & Hc & Hd & Hcd & Kc & Kd).
    destruct (perm_in_seg a b l l' ltac:(lia) Hp) as (H1 & H2 & H3). pose proof (perm_in_length _ _ _ _ Hp) as Hlen.
    assert (∀ c, cut_at cmp a b c l' → ∀ i j x y, i < c - a <= j → seg a b l' !! i = Some x → seg a b l' !! j = Some y → (cmp x y <= 0)%Z) as Hcut.
    { intros c' H' i j x y Hij Hx Hy. pose proof (lookup_lt_Some _ _ _ Hx) as Gx. pose proof (lookup_lt_Some _ _ _ Hy) as Gy.
      rewrite seg_length in Gx by lia. rewrite seg_length in Gy by lia. rewrite seg_lookup in Hx by lia. rewrite seg_lookup in Hy by lia.
      eapply (H' (a + i) (a + j)); [lia|lia|done|done]. }
    exists w', (seg a b l'). split_and!; [done| |done|].
    - rewrite <-H2, <-H3. by rewrite <-split3 by lia.
    - exists (c - a), (d - a). split_and!; [lia|lia|lia|by apply Hcut|by apply Hcut].
  Qed.

  (** C43 *)
  Theorem binary_search_finds w l a b v : R w l → a <= b <= length l → ascending cmp (seg a b l) →
    ∃ r, binary_search csize cat cmp (pos o a) (pos o b) v w = Ok (r, w) ∧
      (r = true ↔ ∃ y, y ∈ seg a b l ∧ cmp v y = 0%Z).
  Proof using L OK.
    intros HR Hab Hs. apply ascending_sorted_in in Hs; [|done].
    pose proof (binary_search_ok _ _ _ o R L cmp OK w l a b v HR Hab Hs) as H. apply wp_Ok in H as (r & w' & E & -> & Hr).
    exists r. split; [done|]. rewrite Hr. split.
    - intros (k & y & Hk & Hy & Hc). exists y. split; [|done]. apply (elem_of_list_lookup_2 _ (k - a)).
      rewrite seg_lookup by lia. by replace (a + (k - a)) with k by lia.
    - intros (y & Hy & Hc). apply elem_of_list_lookup in Hy as [k Hk]. pose proof (lookup_lt_Some _ _ _ Hk) as G.
      rewrite seg_length in G by lia. rewrite seg_lookup in Hk by lia. exists (a + k), y. split_and!; [lia|lia|done|done].
  Qed.
  Theorem lower_bound_finds w l a b v : R w l → a <= b <= length l → ascending cmp (seg a b l) →
    ∃ p, lower_bound csize cat cmp (pos o a) (pos o b) v w = Ok (pos o p, w) ∧ a <= p <= b ∧
      (∀ k y, a <= k < p → l !! k = Some y → (cmp y v < 0)%Z) ∧
      (∀ k y, p <= k < b → l !! k = Some y → (cmp v y <= 0)%Z).
  Proof using L OK.
    intros HR Hab Hs. apply ascending_sorted_in in Hs; [|done].
    pose proof (bound_wrap _ _ _ o R L cmp OK _ _ w l a b v (or_introl (conj eq_refl eq_refl)) HR Hab Hs) as H.
    apply wp_Ok in H as (r & w' & E & -> & p & -> & Hp & Hlo & Hhi). exists p. split_and!; [done|lia|lia| |].
    - intros k y Hk Hy. specialize (Hlo k y Hk Hy). cbv beta in Hlo. apply Z.leb_gt in Hlo. by apply (cmp_flip_gt _ OK).
    - intros k y Hk Hy. specialize (Hhi k y Hk Hy). cbv beta in Hhi. by apply Z.leb_le in Hhi.
  Qed.
  Theorem upper_bound_finds w l a b v : R w l → a <= b <= length l → ascending cmp (seg a b l) →
    ∃ p, upper_bound csize cat cmp (pos o a) (pos o b) v w = Ok (pos o p, w) ∧ a <= p <= b ∧
      (∀ k y, a <= k < p → l !! k = Some y → (cmp y v <= 0)%Z) ∧
      (∀ k y, p <= k < b → l !! k = Some y → (cmp v y < 0)%Z).
  Proof using L OK.
    intros HR Hab Hs. apply ascending_sorted_in in Hs; [|done].
    pose proof (bound_wrap _ _ _ o R L cmp OK _ _ w l a b v (or_intror (conj eq_refl eq_refl)) HR Hab Hs) as H.
    apply wp_Ok in H as (r & w' & E & -> & p & -> & Hp & Hlo & Hhi). exists p. split_and!; [done|lia|lia| |].
    - intros k y Hk Hy. specialize (Hlo k y Hk Hy). cbv beta in Hlo. apply Z.ltb_ge in Hlo. by apply (cmp_flip_le _ OK).
    - intros k y Hk Hy. specialize (Hhi k y Hk Hy). cbv beta in Hhi. by apply Z.ltb_lt in Hhi.
  Qed.

  (** C44 *)
  Theorem next_permutation_is_successor w l a b : R w l → a <= b <= length l →
    (next_permutation csize cat cset cmp (pos o a) (pos o b) w = Ok (false, w) ∧
       ∀ t, t ≡ₚ seg a b l → ¬ lex_lt cmp (seg a b l) t) ∨
    (∃ w' s', next_permutation csize cat cset cmp (pos o a) (pos o b) w = Ok (true, w') ∧
       R w' (take a l ++ s' ++ drop b l) ∧ s' ≡ₚ seg a b l ∧ lex_lt cmp (seg a b l) s' ∧
       ∀ t, t ≡ₚ seg a b l → lex_lt cmp (seg a b l) t → lex_lt cmp s' t ∨ lex_eq cmp s' t).
  Proof using L OK.
    intros HR Hab. pose proof (next_permutation_ok _ _ _ o R L cmp OK w l a b HR Hab) as H.
    apply wp_Ok in H as (r & w' & E & [(-> & -> & H)|(-> & s' & H)]); [by left|right; by exists w', s'].
  Qed.
End props.

(** C42 is false: on the two-element range [2, 1] NthElement(first, last, 0) changes nothing. *)
Definition two : world Z := MkWorld (MkMem {[0 := [2; 1]%Z]} 1) [MkSlice 0 0 2 2].
Theorem nth_element_refuted :
  sw_holds 0 two [2; 1]%Z ∧
  nth_element sw_len sw_at sw_set Z.sub (pos 0 0) (pos 0 2) 0 two = Ok (tt, two).
Proof. split; [eexists; split; [reflexivity|]; split; [eexists; split; [reflexivity|cbn; lia]|reflexivity]|reflexivity]. Qed.
(** longer ranges are affected too: four elements, n = 3 *)
Definition four : world Z := MkWorld (MkMem {[0 := [1; 9; 2; 5]%Z]} 1) [MkSlice 0 0 4 4].
Theorem nth_element_refuted_longer : ∃ w', 
  nth_element sw_len sw_at sw_set Z.sub (pos 0 0) (pos 0 4) 3 four = Ok (tt, w') ∧
  sw_holds 0 four [1; 9; 2; 5]%Z ∧ ∃ l, sw_holds 0 w' l ∧ l !! 3 ≠ Some 9%Z.
Proof.
  eexists. split; [vm_compute; reflexivity|]. split; [eexists; split; [reflexivity|]; split; [eexists; split; [reflexivity|cbn; lia]|reflexivity]|].
  eexists. split; [eexists; split; [reflexivity|]; split; [eexists; split; [reflexivity|cbn; lia]|reflexivity]|]. vm_compute. congruence.
Qed.

(** the hypotheses hold of a concrete slice, and the algorithms do something there *)
Definition demo : world Z := MkWorld (MkMem {[0 := [5; 3; 9; 1; 7; 3; 2]%Z]} 1) [MkSlice 0 0 7 7].
Example demo_holds : sw_holds 0 demo [5; 3; 9; 1; 7; 3; 2]%Z.
Proof. eexists; split; [reflexivity|]; split; [eexists; split; [reflexivity|cbn; lia]|reflexivity]. Qed.
Example demo_sort : ∃ w', sort_range sw_len sw_at sw_set Z.sub (pos 0 1) (pos 0 6) demo = Ok (tt, w') ∧
  array_of 0 (w_mem w') = [5; 1; 3; 3; 7; 9; 2]%Z.
Proof. eexists. split; vm_compute; reflexivity. Qed.
Example demo_next : ∃ w', next_permutation sw_len sw_at sw_set Z.sub (pos 0 0) (pos 0 7) demo = Ok (true, w') ∧
  array_of 0 (w_mem w') = [5; 3; 9; 2; 1; 3; 7]%Z.
Proof. eexists. split; vm_compute; reflexivity. Qed.

Print Assumptions sort_sorts.
Print Assumptions stable_sorts_partial.
Print Assumptions stable_empty_refuted.
Print Assumptions nth_element_partial.
Print Assumptions nth_element_refuted.
Print Assumptions nth_element_refuted_longer.
Print Assumptions binary_search_finds.
Print Assumptions lower_bound_finds.
Print Assumptions upper_bound_finds.
Print Assumptions next_permutation_is_successor.
