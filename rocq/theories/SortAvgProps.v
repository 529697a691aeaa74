(** Property C109: Sort of n distinct elements makes at most 60 n (log2 n + 1) element accesses on average
    over all the orders the elements can be in. *)
From Verif Require Import Base Wp ListLib GoSliceModel VectorModel SliceModel IterModel IterSpec SortModel SortSpec SortProofs CountSpec SortCostProofs IterProofs IterProps SortProps PermAllProps PermCostProofs SortAvgStep SortAvgCount SortAvgProofs.
From Coq Require Import Factorial Sorted.
Open Scope nat_scope.

Section props.
  Context {W T : Type} (csize : nat → M W Z) (cat : nat → Z → M W T) (cset : nat → Z → T → M W unit) (o : nat) (R : W → list T → Prop).
  Context (L : ra_law csize cat cset o R) (cmp : T → T → Z) (OK : CmpOK cmp).
  Notation csz := (csize_c csize). Notation ct := (cat_c cat). Notation cs := (cset_c cset).
  Lemma sort_steps w pre s post w' c : R w (pre ++ s ++ post) → sort_range csz ct cs cmp (pos o (length pre)) (pos o (length pre + length s)) (w, 0) = Ok (tt, (w', c)) → c <= qb cmp (length s) s.
  Proof using L OK.
    intros HR E. pose proof (sim_sort csize cat cset o R L cmp OK (length s) w pre s post HR ltac:(done) 0) as H.
    destruct (sort_sorts _ _ _ _ _ L cmp OK w _ (length pre) (length pre + length s) HR ltac:(rewrite !app_length; lia)) as (w1 & s1 & E1 & _).
    revert E E1. unfold sort_range, it_position, it_at. cbn [it_pos it_obj]. replace (Z.of_nat (length pre) + (Z.of_nat (length pre + length s) - Z.of_nat (length pre)) - 1)%Z with (Z.of_nat (length pre + length s) - 1)%Z by lia.
    replace (Z.to_nat (Z.of_nat (length pre + length s) - Z.of_nat (length pre))) with (length s) by lia. intros E E1. rewrite E1 in H. destruct H as (d & E2 & Hd). assert (c = 0 + d) as -> by (clear -E E2; congruence). done.
  Qed.
  Lemma sorted_list (l : list T) : ∃ xs, xs ≡ₚ l ∧ ascending cmp xs.
  Proof using OK.
    destruct (sort_sorts lsz lat lset 0 eq list_law cmp OK l l 0 (length l) eq_refl ltac:(lia)) as (w' & s' & _ & _ & Hp & Ha). exists s'. split; [|done]. rewrite Hp. unfold seg. by rewrite drop_0, firstn_all2 by lia.
  Qed.
  Lemma asc_lt (xs : list T) i j x y : ascending cmp xs → i < j → xs !! i = Some x → xs !! j = Some y → (cmp x y <= 0)%Z.
  Proof using.
    intros Ha. revert i j. induction Ha as [|z xs Ha IH Hz]; intros i j Hij Hi Hj; [done|]. destruct j as [|j]; [lia|]. destruct i as [|i].
    - injection Hi as ->. rewrite Forall_forall in Hz. apply Hz. by eapply elem_of_list_lookup_2.
    - apply (IH i j); [lia|done|done].
  Qed.
  (** from the elements to their ranks *)
  Lemma ranks (g : list T → nat) (gn : list nat → nat) (l : list T) (arr : list (list T)) :
    (∀ i j x y, l !! i = Some x → l !! j = Some y → cmp x y = 0%Z → i = j) → NoDup arr → (∀ s, s ∈ arr ↔ s ≡ₚ l) → g [] = gn [] →
    (∀ (d : nat → T) t, t ≡ₚ seq 0 (length l) → (∀ i j, i < length l → j < length l → keep cmpn cmp d i j) → g (d <$> t) = gn t) →
    length arr = fact (length l) ∧ Sm g arr <= Sm gn (P (length l)).
  Proof using OK.
    intros Hd Hnd Harr H0 Hg. set (n := length l) in *.
    assert (once cmp l) as [Hnl Hon]. { apply (apart_once cmp OK). exact Hd. }
    assert (length arr = fact n) as Hlen.
    { rewrite <-(perms_length n l) by done. apply Permutation_length, NoDup_Permutation; [done|by apply perms_nodup|]. intros s. rewrite Harr. symmetry. by apply perms_spec. }
    split; [done|].
    destruct (sorted_list l) as (xs & Hxs & Hasc). assert (length xs = n) as Lxs by (rewrite Hxs; done).
    destruct xs as [|x0 xs'].
    { assert (l = []) as -> by (by apply Permutation_nil). rewrite (Sm_ext g (λ _, g []) arr); [|intros s Hs; apply Harr in Hs; symmetry in Hs; by apply Permutation_nil in Hs as ->]. rewrite Sm_const, Hlen, H0. unfold n. cbn. lia. }
    set (xs := x0 :: xs') in *. set (d := λ i, default x0 (xs !! i)). assert (∀ i x, xs !! i = Some x → d i = x) as Hdx by (intros i x Hi; unfold d; by rewrite Hi).
    assert (xs = d <$> seq 0 n) as Exs.
    { apply list_eq. intros i. rewrite list_lookup_fmap. destruct (decide (i < n)) as [Hi|Hi]; [|rewrite !lookup_ge_None_2; [done|rewrite seq_length; lia|lia]]. rewrite lookup_seq_lt by done. destruct (lookup_lt_is_Some_2 xs i ltac:(lia)) as [x Hx]. cbn. rewrite Hx. f_equal. symmetry. by apply Hdx. }
    assert (∀ i j, i < n → j < n → keep cmpn cmp d i j) as Hk.
    { intros i j Hi Hj. destruct (lookup_lt_is_Some_2 xs i ltac:(lia)) as [x Hx]. destruct (lookup_lt_is_Some_2 xs j ltac:(lia)) as [y Hy]. unfold keep, cmpn. rewrite (Hdx i x Hx), (Hdx j y Hy).
      assert (i ≠ j → cmp x y ≠ 0%Z) as Hne. { intros Hij E. apply Hij. assert (x = y) as <-. { apply Hon; [rewrite <-Hxs; by eapply elem_of_list_lookup_2..|done]. } apply (NoDup_lookup xs i j x); [by rewrite Hxs|done|done]. }
      destruct (decide (i = j)) as [<-|Hij]. { rewrite Hx in Hy. injection Hy as <-. pose proof (cmp_refl _ OK x). lia. }
      specialize (Hne Hij). destruct (decide (i < j)) as [Hlt|Hlt].
      - pose proof (asc_lt xs i j x y Hasc Hlt Hx Hy). lia.
      - pose proof (asc_lt xs j i y x Hasc ltac:(lia) Hy Hx) as H. pose proof (cmp_flip cmp OK x y). lia. }
    assert (arr ⊆+ (λ t : list nat, d <$> t) <$> P n) as Hsub.
    { apply NoDup_submseteq; [done|]. intros s Hs. apply Harr in Hs. rewrite <-Hxs, Exs in Hs. destruct (Permutation_map_inv d (seq 0 n) Hs) as (t & -> & Ht). apply elem_of_list_fmap. exists t. split; [done|]. by apply P_spec. }
    apply submseteq_Permutation in Hsub as [k Hk']. etrans; [apply (Nat.le_add_r _ (Sm g k))|]. rewrite <-Sm_app, <-(Sm_perm _ _ _ Hk'), Sm_map.
    apply Nat.eq_le_incl. apply Sm_ext. intros t Ht%P_spec. by apply Hg.
  Qed.
  (** C109: let the n elements of l be pairwise different, let arr list every order they can be in once, and
      let cost s be the number of At and Set calls that Sort of a range holding s makes (whatever is around
      the range).  The average of the costs is at most 60 n (log2 n + 1). *)
  Theorem sort_average_cost (l pre post : list T) (arr : list (list T)) (cost : list T → nat) :
    (∀ i j x y, l !! i = Some x → l !! j = Some y → cmp x y = 0%Z → i = j) →
    NoDup arr → (∀ s, s ∈ arr ↔ s ≡ₚ l) →
    (∀ s, s ∈ arr → ∃ w w', R w (pre ++ s ++ post) ∧ sort_range csz ct cs cmp (pos o (length pre)) (pos o (length pre + length l)) (w, 0) = Ok (tt, (w', cost s))) →
    length arr = fact (length l) ∧ sum_list (cost <$> arr) <= length arr * (60 * (length l * (Nat.log2 (length l) + 1))).
  Proof using L OK.
    intros Hd Hnd Harr Hcost. destruct (ranks (qb cmp (length l)) (qb cmpn (length l)) l arr Hd Hnd Harr) as [Hlen Hsum].
    { by rewrite !qb_nil. }
    { intros d t Ht Hk. apply qb_fmap. intros i j Hi Hj. rewrite Ht, elem_of_seq in Hi, Hj. apply Hk; lia. }
    split; [done|]. rewrite Hlen.
    assert (sum_list (cost <$> arr) = Sm cost arr) as ->. { change (sum_list (cost <$> arr)) with (Sm id (cost <$> arr)). by rewrite Sm_map. }
    etrans; [|apply (average (length l) (length l)); done]. etrans; [|exact Hsum]. apply Sm_le. intros s Hs. destruct (Hcost s Hs) as (w & w' & HR & E). apply Harr in Hs. assert (length s = length l) as Ls by (by rewrite Hs).
    rewrite <-Ls in E |- *. by apply (sort_steps w pre s post w').
  Qed.
End props.
Print Assumptions sort_average_cost.
(** all the orders of 3 5 8 9 in positions 1 to 4 of a slice *)
Definition demo_arr : list (list Z) := perms 4 [3; 5; 8; 9]%Z.
Definition six (s : list Z) : world Z := MkWorld (MkMem {[0 := (7 :: s ++ [1])%Z]} 1) [MkSlice 0 0 6 6].
Definition demo_cost (s : list Z) : nat :=
  match sort_range (csize_c sw_len) (cat_c sw_at) (cset_c sw_set) Z.sub (pos 0 1) (pos 0 5) (six s, 0) with Ok (_, (_, c)) => c | _ => 0 end.
Lemma six_holds s : length s = 4 → sw_holds 0 (six s) (7 :: s ++ [1])%Z.
Proof. intros H. destruct s as [|a [|b [|c [|d [|? ?]]]]]; try done. eexists; split; [reflexivity|]; split; [eexists; split; [reflexivity|cbn; lia]|reflexivity]. Qed.
Example average_demo : length demo_arr = 24 ∧ sum_list (demo_cost <$> demo_arr) = 648 ∧ sum_list (demo_cost <$> demo_arr) <= 24 * (60 * (4 * 3)).
Proof.
  split_and!; [by vm_compute|by vm_compute|].
  assert (CmpOK Z.sub) as OK by (constructor; intros; lia).
  destruct (sort_average_cost sw_len sw_at sw_set 0 _ (slice_ra_law 0%Z 0) Z.sub OK [3; 5; 8; 9]%Z [7]%Z [1]%Z demo_arr demo_cost) as [_ H].
  - intros i j x y Hi Hj. pose proof (lookup_lt_Some _ _ _ Hi) as Li. pose proof (lookup_lt_Some _ _ _ Hj) as Lj. cbn [length] in Li, Lj.
    destruct i as [|[|[|[|i]]]]; [..|lia]; destruct j as [|[|[|[|j]]]]; try lia; injection Hi as <-; injection Hj as <-; lia.
  - apply perms_nodup; [done|]. repeat constructor; rewrite ?elem_of_cons, ?elem_of_nil; lia.
  - by apply perms_spec.
  - intros s Hs. apply perms_spec in Hs; [|done]. pose proof (Permutation_length Hs) as Ls. cbn [length] in Ls. exists (six s).
    destruct (sort_sorts _ _ _ _ _ (slice_ra_law 0%Z 0) Z.sub OK (six s) _ 1 5 (six_holds s Ls) ltac:(cbn [length]; rewrite app_length; cbn [length]; lia)) as (w' & s' & E & _).
    pose proof (sim_quick_sort sw_len sw_at sw_set Z.sub 0 _ (slice_ra_law 0%Z 0) OK 4 (six s) _ 1 5 (six_holds s Ls) ltac:(cbn [length]; rewrite app_length; cbn [length]; lia) ltac:(lia) 0) as H.
    unfold sort_range, it_position, it_at in E. cbn [it_pos it_obj] in E. change (Z.to_nat (Z.of_nat 5 - Z.of_nat 1)) with 4 in E. change (Z.of_nat 1 + (Z.of_nat 5 - Z.of_nat 1) - 1)%Z with (Z.of_nat 5 - 1)%Z in E. rewrite E in H. destruct H as (d & E2 & _).
    exists w'. split; [exact (six_holds s Ls)|]. unfold demo_cost, sort_range, it_position, it_at. cbn [it_pos it_obj length Nat.add]. change (Z.to_nat (Z.of_nat 5 - Z.of_nat 1)) with 4. change (Z.of_nat 1 + (Z.of_nat 5 - Z.of_nat 1) - 1)%Z with (Z.of_nat 5 - 1)%Z. rewrite E2. done.
  - exact H.
Qed.
