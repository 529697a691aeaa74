(** C77: the sorting, searching and heap functions called with a comparison function that is not an
    order at all (for instance OrderedTypeCmp on floats with NaNs).  No law about [cmp] is assumed
    except in next_permutation_any_partial.  [R w l] says that in world w container o holds the
    sequence l; [seg a b l] is the part of l in [a, b). *)
From Verif Require Import Base Wp History ListLib IterModel IterSpec SortModel SortSpec SortProofs AnyCmpProofs AnyCmpHeap HeapModel ComparatorModel.
From Verif Require Import GoSliceModel VectorModel SliceModel IterProofs IterProps SortProps.
Open Scope nat_scope.

Section props.
  Context {W T : Type} (csize : nat → M W Z) (cat : nat → Z → M W T) (cset : nat → Z → T → M W unit).
  Context (o : nat) (R : W → list T → Prop) (L : ra_law csize cat cset o R).
  Context (cmp : T → T → Z).

  Lemma permuted w' l l' a b : a <= b <= length l → R w' l' → perm_in a b l l' → ∃ s', R w' (take a l ++ s' ++ drop b l) ∧ s' ≡ₚ seg a b l.
  Proof using.
    intros Hab HR Hp. destruct (perm_in_seg a b l l' ltac:(lia) Hp) as (H1 & H2 & H3). pose proof (perm_in_length _ _ _ _ Hp). exists (seg a b l'). split; [|done]. rewrite <-H2, <-H3. by rewrite <-split3 by lia.
  Qed.
  (** Sort, NthElement and Stable (of a non-empty range) return and leave a rearrangement of the range *)
  Theorem sort_any_comparator w l a b : R w l → a <= b <= length l →
    ∃ w' s', sort_range csize cat cset cmp (pos o a) (pos o b) w = Ok (tt, w') ∧ R w' (take a l ++ s' ++ drop b l) ∧ s' ≡ₚ seg a b l.
  Proof using L.
    intros HR Hab. pose proof (quick_sort_any _ _ _ o R L cmp (b - a) w l a b HR Hab ltac:(lia)) as H. apply wp_Ok in H as ([] & w' & E & l' & HR' & Hp). destruct (permuted w' l l' a b Hab HR' Hp) as (s' & H1 & H2).
    exists w', s'. split_and!; [|done|done]. unfold sort_range, it_position, it_at. cbn [it_pos it_obj]. replace (Z.of_nat a + (Z.of_nat b - Z.of_nat a) - 1)%Z with (Z.of_nat b - 1)%Z by lia. by replace (Z.to_nat (Z.of_nat b - Z.of_nat a)) with (b - a) by lia.
  Qed.
  Theorem nth_element_any_comparator w l a b n : R w l → a <= b <= length l →
    ∃ w' s', nth_element csize cat cset cmp (pos o a) (pos o b) n w = Ok (tt, w') ∧ R w' (take a l ++ s' ++ drop b l) ∧ s' ≡ₚ seg a b l.
  Proof using L.
    intros HR Hab. unfold nth_element, it_position, it_at. cbn [it_pos it_obj]. destruct (_ || _). { exists w, (seg a b l). split_and!; [done| |done]. by rewrite <-split3 by lia. }
    replace (Z.of_nat a + (Z.of_nat b - Z.of_nat a) - 1)%Z with (Z.of_nat b - 1)%Z by lia. replace (Z.to_nat (Z.of_nat b - Z.of_nat a)) with (b - a) by lia.
    pose proof (nth_any _ _ _ o R L cmp (b - a) w l a b n HR Hab ltac:(lia)) as H. apply wp_Ok in H as ([] & w' & E & l' & HR' & Hp). destruct (permuted w' l l' a b Hab HR' Hp) as (s' & H1 & H2). by exists w', s'.
  Qed.
  Theorem stable_any_comparator zero w l a b fuel : R w l → a < b <= length l → b - a <= fuel →
    ∃ w' s', stable csize cat cset cmp fuel zero (pos o a) (pos o b) w = Ok (tt, w') ∧ R w' (take a l ++ s' ++ drop b l) ∧ s' ≡ₚ seg a b l.
  Proof using L.
    intros HR Hab Hf. unfold stable, it_position. cbn [it_pos]. destruct (Z.ltb_spec (Z.of_nat b - Z.of_nat a) 0); [lia|].
    pose proof (merge_sort_any _ _ _ o R L cmp fuel w l a b (replicate (Z.to_nat (Z.of_nat b - Z.of_nat a)) zero) HR Hab Hf ltac:(rewrite replicate_length; lia)) as H1.
    apply wp_Ok in H1 as (tmp & w' & E & _ & l' & HR' & Hp). destruct (permuted w' l l' a b ltac:(lia) HR' Hp) as (s' & H1 & H2). exists w', s'. split_and!; [|done|done]. unfold mbind_. by rewrite E.
  Qed.
  (** BinarySearch returns, changes nothing, and true means that an equal element was seen *)
  Theorem binary_search_any_comparator w l a b v : R w l → a <= b <= length l →
    ∃ r, binary_search csize cat cmp (pos o a) (pos o b) v w = Ok (r, w) ∧ (r = true → ∃ y, y ∈ seg a b l ∧ cmp v y = 0%Z).
  Proof using L.
    intros HR Hab. assert (wp (binary_search csize cat cmp (pos o a) (pos o b) v) (λ r w', w' = w ∧ (r = true → ∃ k y, a <= k < b ∧ l !! k = Some y ∧ cmp v y = 0%Z)) w) as H.
    { unfold binary_search. wp_step (IterProofs.valid_ok _ _ _ _ _ L w l (Z.of_nat a) HR). unfold it_position, it_clone. cbn [it_pos it_obj]. destruct (Z.leb_spec (Z.of_nat b) (Z.of_nat a)). { rewrite orb_true_r. by apply wp_ret. }
      rewrite bool_decide_eq_true_2 by lia. cbn [negb orb]. wp_step (prev_ok (W:=W) o w b). apply (bsearch_any _ _ _ o R L cmp _ w l b); done || lia. }
    apply wp_Ok in H as (r & w' & E & -> & H). exists r. split; [done|]. intros (k & y & Hk & Hy & Hc)%H. exists y. split; [|done]. apply (elem_of_list_lookup_2 _ (k - a)). rewrite seg_lookup by lia. by replace (a + (k - a)) with k by lia.
  Qed.
  (** LowerBound and UpperBound return an iterator in [first, last], change nothing, and stand at a
      boundary: the element there is not smaller (greater), the one before is *)
  Theorem lower_bound_any_comparator w l a b v : R w l → a <= b <= length l →
    ∃ p, lower_bound csize cat cmp (pos o a) (pos o b) v w = Ok (pos o p, w) ∧ a <= p <= b ∧
      (∀ y, p < b → l !! p = Some y → (cmp v y <= 0)%Z) ∧ (∀ y, a < p → l !! (p - 1) = Some y → (0 < cmp v y)%Z).
  Proof using L.
    intros HR Hab. assert (wp (lower_bound csize cat cmp (pos o a) (pos o b) v) (λ r w', w' = w ∧ ∃ p, r = pos o p ∧ a <= p <= b ∧ boundary cmp (λ c, (c <=? 0)%Z) a b v l p) w) as H.
    { unfold lower_bound. wp_step (IterProofs.valid_ok _ _ _ _ _ L w l (Z.of_nat a) HR). unfold it_position, it_clone. cbn [it_pos it_obj]. destruct (Z.leb_spec (Z.of_nat b) (Z.of_nat a)).
      { rewrite orb_true_r. apply wp_ret. split; [done|]. exists b. split_and!; [done|lia|lia|]. split; intros; lia. }
      rewrite bool_decide_eq_true_2 by lia. cbn [negb orb]. wp_step (prev_ok (W:=W) o w b). destruct (value_get _ _ _ o R L w l (b - 1) HR ltac:(lia)) as (y & Hy & Ey). replace (Z.of_nat (b - 1)) with (Z.of_nat b - 1)%Z in Ey by lia. wp_step Ey.
      destruct (Z.ltb_spec 0 (cmp v y)). { apply wp_ret. split; [done|]. exists b. split_and!; [done|lia|lia|]. split; intros z Hb Hz; [lia|]. simplify_eq. by apply Z.leb_gt. }
      apply wp_bind. eapply wp_mono; [apply (bound_any _ _ _ o R L cmp _ _ w l a b a b v 0); [done|lia|lia|lia|lia|lia|intros; lia|by left|intros z Hz; simplify_eq; by apply Z.leb_le]|].
      intros res w' (-> & p & -> & Hp & HB). apply wp_ret. split; [done|]. exists p. unfold it_at. cbn [it_obj]. split_and!; [done|lia|lia|done]. }
    apply wp_Ok in H as (r & w' & E & -> & p & -> & Hp & H1 & H2). exists p. split_and!; [done|lia|lia| |].
    - intros y Hb Hy. apply Z.leb_le. by apply H1.
    - intros y Ha Hy. apply Z.leb_gt. by apply H2.
  Qed.
  Theorem upper_bound_any_comparator w l a b v : R w l → a <= b <= length l →
    ∃ p, upper_bound csize cat cmp (pos o a) (pos o b) v w = Ok (pos o p, w) ∧ a <= p <= b ∧
      (∀ y, p < b → l !! p = Some y → (cmp v y < 0)%Z) ∧ (∀ y, a < p → l !! (p - 1) = Some y → (0 <= cmp v y)%Z).
  Proof using L.
    intros HR Hab. assert (wp (upper_bound csize cat cmp (pos o a) (pos o b) v) (λ r w', w' = w ∧ ∃ p, r = pos o p ∧ a <= p <= b ∧ boundary cmp (λ c, (c <? 0)%Z) a b v l p) w) as H.
    { unfold upper_bound. wp_step (IterProofs.valid_ok _ _ _ _ _ L w l (Z.of_nat a) HR). unfold it_position, it_clone. cbn [it_pos it_obj]. destruct (Z.leb_spec (Z.of_nat b) (Z.of_nat a)).
      { rewrite orb_true_r. apply wp_ret. split; [done|]. exists b. split_and!; [done|lia|lia|]. split; intros; lia. }
      rewrite bool_decide_eq_true_2 by lia. cbn [negb orb]. wp_step (prev_ok (W:=W) o w b). destruct (value_get _ _ _ o R L w l (b - 1) HR ltac:(lia)) as (y & Hy & Ey). replace (Z.of_nat (b - 1)) with (Z.of_nat b - 1)%Z in Ey by lia. wp_step Ey.
      destruct (Z.leb_spec 0 (cmp v y)). { apply wp_ret. split; [done|]. exists b. split_and!; [done|lia|lia|]. split; intros z Hb Hz; [lia|]. simplify_eq. by apply Z.ltb_ge. }
      apply wp_bind. eapply wp_mono; [apply (bound_any _ _ _ o R L cmp _ _ w l a b a b v 0); [done|lia|lia|lia|lia|lia|intros; lia|by left|intros z Hz; simplify_eq; by apply Z.ltb_lt]|].
      intros res w' (-> & p & -> & Hp & HB). apply wp_ret. split; [done|]. exists p. unfold it_at. cbn [it_obj]. split_and!; [done|lia|lia|done]. }
    apply wp_Ok in H as (r & w' & E & -> & p & -> & Hp & H1 & H2). exists p. split_and!; [done|lia|lia| |].
    - intros y Hb Hy. apply Z.ltb_lt. by apply H1.
    - intros y Ha Hy. apply Z.ltb_ge. by apply H2.
  Qed.
  (** NextPermutation needs one law, which OrderedTypeCmp has even with NaNs: if x is less than y then
      y is greater than x *)
  Theorem next_permutation_any_partial w l a b : (∀ x y, (cmp x y < 0)%Z → (0 < cmp y x)%Z) → R w l → a <= b <= length l →
    next_permutation csize cat cset cmp (pos o a) (pos o b) w = Ok (false, w) ∨
    ∃ w' s', next_permutation csize cat cset cmp (pos o a) (pos o b) w = Ok (true, w') ∧ R w' (take a l ++ s' ++ drop b l) ∧ s' ≡ₚ seg a b l.
  Proof using L.
    intros Hc HR Hab. pose proof (next_permutation_any _ _ _ o R L cmp w l a b Hc HR Hab) as H. apply wp_Ok in H as (r & w' & E & [[-> ->]|(-> & l' & HR' & Hp)]); [by left|right].
    destruct (permuted w' l l' a b Hab HR' Hp) as (s' & H1 & H2). by exists w', s'.
  Qed.
End props.

(** without that law NextPermutation may run out of the front of the range and panic *)
Theorem next_permutation_any_refuted : ∃ w (l : list Z), sw_holds 0 w l ∧ next_permutation sw_len sw_at sw_set (λ _ _, (-1)%Z) (pos 0 0) (pos 0 (length l)) w = Panic.
Proof. exists two, [2; 1]%Z. split; [eexists; split; [reflexivity|]; split; [eexists; split; [reflexivity|cbn; lia]|reflexivity]|reflexivity]. Qed.

(** heap.Init, Push, Pop, Remove and Fix return and keep the elements; Pop returns the element at the front *)
Theorem heap_any_comparator {T} (cmp : T → T → Z) (l : list T) :
  (∃ l', h_init cmp l = Ok (tt, l') ∧ l' ≡ₚ l) ∧
  (∀ x, ∃ l', heap_push cmp x l = Ok (tt, l') ∧ l' ≡ₚ x :: l) ∧
  (∀ x t, l = x :: t → ∃ l', heap_pop cmp l = Ok (x, l') ∧ l' ≡ₚ t) ∧
  (∀ i x, l !! i = Some x → ∃ l', heap_remove cmp (Z.of_nat i) l = Ok (x, l') ∧ l ≡ₚ x :: l') ∧
  (∀ i, i < length l → ∃ l', heap_fix cmp (Z.of_nat i) l = Ok (tt, l') ∧ l' ≡ₚ l).
Proof. split_and!; [apply init_any|intros; apply push_any|intros x t ->; apply pop_any|apply remove_any|apply fix_any]. Qed.

(** a priority queue with any comparison function is a bag: Pop removes and returns one of its
    elements, and the one that Top shows; only Pop and Top of the empty queue panic *)
Inductive bag_allows {T} : pq_op T → list T → pq_out T → list T → Prop :=
| bag_push x s : bag_allows (PPush x) s PUnit (x :: s)
| bag_pop x s s' : s ≡ₚ x :: s' → bag_allows PPop s (PVal x) s'
| bag_top x s : x ∈ s → bag_allows PTop s (PVal x) s
| bag_empty s : bag_allows PEmpty s (PBool (bool_decide (s = []))) s
| bag_clear s : bag_allows PClear s PUnit []
| bag_size s : bag_allows PSize s (PInt (Z.of_nat (length s))) s.
Inductive bag_exec {T} : list (pq_op T) → list T → list (pq_out T) → list T → Prop :=
| bag_exec_nil s : bag_exec [] s [] s
| bag_exec_cons p ops s r s1 rs s2 : bag_allows p s r s1 → bag_exec ops s1 rs s2 → bag_exec (p :: ops) s (r :: rs) s2.
Lemma bag_run {T} (cmp : T → T → Z) ops l s : l ≡ₚ s →
  match run (pq_step cmp) ops l with
  | Ok (rs, l') => ∃ s', bag_exec ops s rs s' ∧ l' ≡ₚ s'
  | Panic => ∃ pre p post rs, ops = pre ++ p :: post ∧ bag_exec pre s rs [] ∧ (p = PPop ∨ p = PTop)
  | Fuel => False
  end.
Proof.
  revert l s. induction ops as [|p ops IH]; intros l s Hl; cbn [run]. { exists s. split; [constructor|done]. }
  assert ((∃ r l' s', pq_step cmp p l = Ok (r, l') ∧ bag_allows p s r s' ∧ l' ≡ₚ s') ∨ (pq_step cmp p l = Panic ∧ s = [] ∧ (p = PPop ∨ p = PTop))) as Hstep.
  { destruct p as [x| | | | |]; cbn [pq_step]; unfold mbind_, mret_.
    - left. destruct (push_any cmp l x) as (l' & -> & P). exists PUnit, l', (x :: s). split_and!; [done|constructor|by rewrite P, Hl].
    - destruct l as [|x t]. { right. apply Permutation_nil_l in Hl as <-. split_and!; [done|done|by left]. }
      left. destruct (pop_any cmp x t) as (l' & -> & P). exists (PVal x), l', l'. split_and!; [done|constructor; by rewrite P, Hl|done].
    - destruct l as [|x t]. { right. apply Permutation_nil_l in Hl as <-. split_and!; [done|done|by right]. }
      left. exists (PVal x), (x :: t), s. split_and!; [|constructor; rewrite <-Hl; by left|done]. done.
    - left. exists (PBool (bool_decide (s = []))), l, s. split_and!; [|constructor|done]. unfold h_len. do 3 f_equal. destruct l as [|x t].
      + apply Permutation_nil_l in Hl as <-. done.
      + rewrite bool_decide_eq_false_2; [done|]. intros ->. by apply Permutation_nil_r in Hl.
    - left. exists PUnit, [], []. split_and!; [done|constructor|done].
    - left. exists (PInt (Z.of_nat (length s))), l, s. split_and!; [|constructor|done]. unfold h_len. by rewrite (Permutation_length Hl). }
  destruct Hstep as [(r & l' & s' & -> & Ha & Hl')|(-> & -> & Hp)].
  - specialize (IH l' s' Hl'). destruct (run (pq_step cmp) ops l') as [[rs l'']| |].
    + destruct IH as (s'' & H1 & H2). exists s''. split; [by econstructor|done].
    + destruct IH as (pre & p' & post & rs & -> & H1 & H2). exists (p :: pre), p', post, (r :: rs). split_and!; [done|by econstructor|done].
    + done.
  - exists [], p, ops, []. split_and!; [done|constructor|done].
Qed.
Theorem priority_queue_any_comparator {T} (cmp : T → T → Z) (ops : list (pq_op T)) :
  match run (pq_step cmp) ops [] with
  | Ok (rs, l) => ∃ s, bag_exec ops [] rs s ∧ l ≡ₚ s
  | Panic => ∃ pre p post rs, ops = pre ++ p :: post ∧ bag_exec pre [] rs [] ∧ (p = PPop ∨ p = PTop)
  | Fuel => False
  end.
Proof. by apply bag_run. Qed.

(** OrderedTypeCmp on float64 is such a comparison function, NaNs included, and has the one law that
    NextPermutation needs *)
Theorem ordered_cmp_float_flips F x y : (OrderedTypeCmp (f_eqb F) (f_ltb F) x y < 0)%Z → (0 < OrderedTypeCmp (f_eqb F) (f_ltb F) y x)%Z.
Proof.
  unfold OrderedTypeCmp. destruct (f_eqb F x y) eqn:E1; [lia|]. destruct (f_ltb F x y) eqn:E2; [intros _|lia].
  destruct (f_eqb F y x) eqn:E3.
  - revert E1 E3. unfold f_eqb. destruct (isNaN F x), (isNaN F y); cbn; try done. rewrite !Z.eqb_eq, Z.eqb_neq. lia.
  - destruct (f_ltb F y x) eqn:E4; [|lia]. revert E2 E4. unfold f_ltb. destruct (isNaN F x), (isNaN F y); cbn; try done. rewrite !Z.ltb_lt. lia.
Qed.

(** a slice with NaNs: Sort rearranges it but cannot order it; the same comparison in a heap *)
Definition fcmp : float → float → Z := OrderedTypeCmp (f_eqb float64) (f_ltb float64).
Definition f_nan : float := MkFloat false 2047 1.
Definition f_pos (n : Z) : float := MkFloat false n 0.
Definition nans : world float := MkWorld (MkMem {[0 := [f_nan; f_pos 5; f_pos 3; f_nan; f_pos 4; f_pos 2]]} 1) [MkSlice 0 0 6 6].
Example nans_holds : sw_holds 0 nans [f_nan; f_pos 5; f_pos 3; f_nan; f_pos 4; f_pos 2].
Proof. eexists; split; [reflexivity|]; split; [eexists; split; [reflexivity|cbn; lia]|reflexivity]. Qed.
Example nans_sort : ∃ w', sort_range sw_len sw_at sw_set fcmp (pos 0 0) (pos 0 6) nans = Ok (tt, w') ∧ array_of 0 (w_mem w') = [f_pos 2; f_nan; f_nan; f_pos 3; f_pos 4; f_pos 5].
Proof. eexists. split; vm_compute; reflexivity. Qed.
Print Assumptions sort_any_comparator.
Print Assumptions nth_element_any_comparator.
Print Assumptions stable_any_comparator.
Print Assumptions binary_search_any_comparator.
Print Assumptions lower_bound_any_comparator.
Print Assumptions upper_bound_any_comparator.
Print Assumptions next_permutation_any_partial.
Print Assumptions next_permutation_any_refuted.
Print Assumptions heap_any_comparator.
Print Assumptions priority_queue_any_comparator.
Print Assumptions ordered_cmp_float_flips.
