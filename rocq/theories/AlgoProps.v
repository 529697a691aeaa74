(** C45, C46: algorithm/op.go and algorithm/const_op.go. *)
From Verif Require Import Base Wp ListLib IterModel IterSpec SortModel AlgoModel AlgoSpec AlgoProofs SortProofs.
From Verif Require Import GoSliceModel VectorModel SliceModel IterProofs SortProps.
Open Scope nat_scope.

(** C45 for non-empty ranges of random access containers. *)
Theorem reverse_reverses_partial {W T} csize cat cset o (R : W → list T → Prop) (L : ra_law csize cat cset o R) eq
    (Heq : eq = it_equal ∨ eq = it_equal_slice) w l a b fuel :
  R w l → a < b <= length l → b - a <= fuel →
  ∃ w', alg_reverse csize cat cset eq fuel (pos o a) (pos o b) w = Ok (tt, w') ∧
    R w' (take a l ++ rev (seg a b l) ++ drop b l).
Proof.
  intros HR Hab Hf. assert (pos_equal o eq) as He by (destruct Heq as [-> | ->]; [apply it_equal_pos|apply it_equal_slice_pos]).
  pose proof (reverse_ok _ _ _ o R L eq He fuel w l a b HR Hab Hf) as H. apply wp_Ok in H as ([] & w' & ? & ?). by exists w'.
Qed.
(** C45 is false on every empty range: Reverse panics. *)
Theorem reverse_empty_refuted {W T} csize cat cset o (R : W → list T → Prop) (L : ra_law csize cat cset o R) eq
    (Heq : eq = it_equal ∨ eq = it_equal_slice) w l a :
  R w l → a <= length l → alg_reverse csize cat cset eq (S (length l)) (pos o a) (pos o a) w = Panic.
Proof.
  intros HR Ha. assert (pos_equal o eq) as He by (destruct Heq as [-> | ->]; [apply it_equal_pos|apply it_equal_slice_pos]).
  by apply (reverse_empty_panics _ _ _ o R L eq He).
Qed.
(** Swap exchanges two elements and nothing else *)
Theorem swap_exchanges {W T} csize cat cset o (R : W → list T → Prop) (L : ra_law csize cat cset o R) w l i j x y :
  R w l → l !! i = Some x → l !! j = Some y →
  ∃ w', alg_swap cat cset (pos o i) (pos o j) w = Ok (tt, w') ∧ R w' (<[j := x]> (<[i := y]> l)).
Proof.
  intros HR Hx Hy. destruct (swap_ok _ _ _ o R L w l i j HR) as (w' & E & HR'); [by eapply lookup_lt_Some..|].
  exists w'. split; [exact E|]. unfold swapl in HR'. by rewrite Hx, Hy in HR'.
Qed.

(** C46, for every iterator range (any implementation of ConstIterator); [vals] are the elements.
    The world is unchanged by each call. *)
Section const.
  Context {W T I : Type}.
  Context (next : I → M W I) (value : I → M W T) (equal : I → I → M W bool).
  Context (w : W) (first last : I) (s : list (I * T)) (fuel : nat).
  Context (Hr : irange next value equal w last first s) (Hf : length s <= fuel).
  Context (cmp : T → T → Z) (OK : CmpOK cmp).
  Context (p : I → M W bool) (P : T → Prop) `{∀ x, Decision (P x)}.
  (** the caller's function decides P on each element of the range *)
  Context (Hp : ∀ i x, (i, x) ∈ s → p i w = Ok (bool_decide (P x), w)).
  Notation vals := (s.*2).

  Theorem count_counts v :
    count next value equal cmp fuel first last v w = Ok (Z.of_nat (length (filter (λ x, cmp x v = 0%Z) vals)), w).
  Proof using Hr Hf.
    rewrite (count_ok _ _ _ _ _ _ _ _ _ _ Hr Hf). do 3 f_equal. clear. induction s as [|[i x] u IH]; [done|].
    rewrite fmap_cons, !filter_cons. cbn [snd fst]. destruct (decide (cmp x v = 0%Z)); cbn [length]; by rewrite IH.
  Qed.
  Theorem count_if_counts :
    count_if next equal p fuel first last w = Ok (Z.of_nat (length (filter P vals)), w).
  Proof using Hr Hf Hp.
    rewrite (count_if_ok _ _ _ p P _ _ _ _ _ Hr Hp Hf). do 3 f_equal. clear. induction s as [|[i x] u IH]; [done|].
    rewrite fmap_cons, !filter_cons. cbn [snd fst]. destruct (decide (P x)); cbn [length]; by rewrite IH.
  Qed.
  Theorem find_first v :
    ∃ r, find next value equal cmp fuel first last v w = Ok (r, w) ∧ first_such (λ x, cmp x v = 0%Z) s last r.
  Proof using Hr Hf. by apply find_ok. Qed.
  Theorem find_if_first :
    ∃ r, find_if next equal p fuel first last w = Ok (r, w) ∧ first_such P s last r.
  Proof using Hr Hf Hp. by eapply (find_if_ok next value equal p P). Qed.
  Theorem max_element_first :
    ∃ r, max_element next value equal cmp fuel first last w = Ok (r, w) ∧
      first_extreme (λ x y, (0 < cmp x y)%Z) s last r.
  Proof using Hr Hf OK.
    clear Hp. clear H. clear P. clear p. unfold max_element, mbind_. assert (Hs := Hr). destruct Hs as [i He|i j x u He Hv Hn Hu]; rewrite He.
    - exists last. split; [done|by left].
    - destruct (extreme_first_ok next value equal cmp OK (λ c, (0 <? c)%Z) (or_introl eq_refl) fuel w last i _ Hr Hf) as (r & E & Hx); [done|].
      exists r. split; [done|]. destruct Hx as [?|(k & y & Hk & H1 & H2)]; [by left|]. right. exists k, y. split_and!; [done| |].
      + intros i' z Hz Hc. apply (H1 i' z Hz). by apply Z.ltb_lt.
      + intros j' i' z Hj Hz. apply Z.ltb_lt. by apply (H2 j' i' z).
  Qed.
  Theorem min_element_first :
    ∃ r, min_element next value equal cmp fuel first last w = Ok (r, w) ∧
      first_extreme (λ x y, (cmp x y < 0)%Z) s last r.
  Proof using Hr Hf OK.
    clear Hp. clear H. clear P. clear p. unfold min_element, mbind_. assert (Hs := Hr). destruct Hs as [i He|i j x u He Hv Hn Hu]; rewrite He.
    - exists last. split; [done|by left].
    - destruct (extreme_first_ok next value equal cmp OK (λ c, (c <? 0)%Z) (or_intror eq_refl) fuel w last i _ Hr Hf) as (r & E & Hx); [done|].
      exists r. split; [done|]. destruct Hx as [?|(k & y & Hk & H1 & H2)]; [by left|]. right. exists k, y. split_and!; [done| |].
      + intros i' z Hz Hc. apply (H1 i' z Hz). by apply Z.ltb_lt.
      + intros j' i' z Hj Hz. apply Z.ltb_lt. by apply (H2 j' i' z).
  Qed.
  Theorem quantifiers :
    any_of next equal p fuel first last w = Ok (bool_decide (Exists P vals), w) ∧
    all_of next equal p fuel first last w = Ok (bool_decide (Forall P vals), w) ∧
    none_of next equal p fuel first last w = Ok (bool_decide (Forall (λ x, ¬ P x) vals), w).
  Proof using Hr Hf Hp.
    rewrite (any_of_ok _ _ _ p P _ _ _ _ _ Hr Hp Hf), (all_of_ok _ _ _ p P _ _ _ _ _ Hr Hp Hf), (none_of_ok _ _ _ p P _ _ _ _ _ Hr Hp Hf).
    split_and!; do 2 f_equal; apply bool_decide_ext; [by rewrite Exists_fmap|by rewrite Forall_fmap|by rewrite Forall_fmap].
  Qed.
End const.

(** every range of a random access container is such a range: iterators at a, a+1, ..., b-1 with
    the elements found there *)
Theorem random_access_ranges {W T} csize cat cset o (R : W → list T → Prop) (L : ra_law csize cat cset o R) eq
    (Heq : eq = it_equal ∨ eq = it_equal_slice) w l a b :
  R w l → a <= b <= length l →
  irange (it_next csize) (it_value cat) (λ i j w, Ok (eq i j, w)) w (pos o b) (pos o a)
    (zip ((λ k, pos o k) <$> seq a (b - a)) (seg a b l)) ∧
  (zip ((λ k, pos o k) <$> seq a (b - a)) (seg a b l)).*2 = seg a b l.
Proof.
  intros HR Hab. assert (pos_equal o eq) as He by (destruct Heq as [-> | ->]; [apply it_equal_pos|apply it_equal_slice_pos]).
  split; [by apply (ra_irange _ _ _ o R L eq He)|]. apply snd_zip. rewrite fmap_length, seq_length, seg_length; lia.
Qed.

(** concrete case *)
Example demo_count : count (it_next sw_len) (it_value sw_at) (λ i j w, Ok (it_equal_slice i j, w)) Z.sub 7 (pos 0 0) (pos 0 7) 3%Z demo
  = Ok (2%Z, demo).
Proof. reflexivity. Qed.
Example demo_max : max_element (it_next sw_len) (it_value sw_at) (λ i j w, Ok (it_equal_slice i j, w)) Z.sub 7 (pos 0 0) (pos 0 7) demo
  = Ok (pos 0 2, demo).
Proof. reflexivity. Qed.
Example demo_reverse : ∃ w', alg_reverse sw_len sw_at sw_set it_equal_slice 7 (pos 0 1) (pos 0 5) demo = Ok (tt, w') ∧
  array_of 0 (w_mem w') = [5; 7; 1; 9; 3; 3; 2]%Z.
Proof. eexists. split; vm_compute; reflexivity. Qed.

Print Assumptions reverse_reverses_partial.
Print Assumptions reverse_empty_refuted.
Print Assumptions swap_exchanges.
Print Assumptions count_counts.
Print Assumptions count_if_counts.
Print Assumptions find_first.
Print Assumptions find_if_first.
Print Assumptions max_element_first.
Print Assumptions min_element_first.
Print Assumptions quantifiers.
Print Assumptions random_access_ranges.
