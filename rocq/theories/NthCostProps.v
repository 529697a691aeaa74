(** Property C105: how many element accesses NthElement needs.  The claim "proportional to the number of
    elements" is false: for n equal elements finding the first takes at least (n-3)^2 accesses.  What holds:
    never more than 8 n^2. *)
From Verif Require Import Base Wp ListLib GoSliceModel VectorModel SliceModel IterModel IterSpec SortModel SortSpec SortProofs CountSpec SortCostProofs NthProofs IterProofs IterProps SortProps SortCostProps.
Open Scope nat_scope.
Open Scope go_scope.
Ltac Zify.zify_post_hook ::= Z.div_mod_to_equations.

Section props.
  Context {W T : Type} (csize : nat → M W Z) (cat : nat → Z → M W T) (cset : nat → Z → T → M W unit) (o : nat) (R : W → list T → Prop).
  Context (L : ra_law csize cat cset o R) (cmp : T → T → Z) (OK : CmpOK cmp).
  Notation csz := (csize_c csize). Notation ct := (cat_c cat). Notation cs := (cset_c cset).
  Notation it p := (MkIter o p).
  Notation at_ p := (MkIter o (Z.of_nat p)).
  Lemma sim_nth fuel w l a e n : R w l → a <= e <= length l → e - a <= fuel →
    sim (8 * ((e - a) * (e - a))) (nth_element_ csize cat cset cmp fuel (at_ a) (it (Z.of_nat e - 1)) n) (nth_element_ csz ct cs cmp fuel (at_ a) (it (Z.of_nat e - 1)) n) w.
  Proof using L OK.
    revert w l a e n. induction fuel as [|f IH]; intros w l a e n H He Hf; cbn [nth_element_]; unfold it_position; cbn [it_pos].
    { destruct (Z.leb_spec (Z.of_nat e - 1) (Z.of_nat a + 1)); [|lia]. eapply sim_mono; [apply sim_ret|apply Nat.le_0_l]. }
    destruct (Z.leb_spec (Z.of_nat e - 1) (Z.of_nat a + 1)); [eapply sim_mono; [apply sim_ret|apply Nat.le_0_l]|].
    replace (Z.of_nat e - 1)%Z with (Z.of_nat (e - 1)) by lia. set (b := e - 1). set (q := e - a). assert (3 <= q) as Hn by lia.
    destruct (Z.ltb_spec (Z.of_nat b - Z.of_nat a + 1) 3). { eapply sim_mono; [apply sim_swap_if|nia]. }
    unfold it_at. cbn [it_obj]. set (mid := a + (b - a + 1) / 2). replace (Z.of_nat a + Z.quot (Z.of_nat b - Z.of_nat a + 1) 2)%Z with (Z.of_nat mid) by (rewrite Z.quot_div_nonneg by lia; lia).
    replace (Z.of_nat b - 1)%Z with (Z.of_nat (b - 1)) by lia.
    pose proof (pivot_ok _ _ _ o R L cmp OK w l a b mid H ltac:(lia) ltac:(lia)) as Hpiv. apply wp_Ok in Hpiv as (u & w1 & E1 & l1 & HR1 & Hp1 & Hpv1). assert (length l1 = length l) as Hl1 by (by eapply perm_in_length).
    unfold mbind_ in E1. destruct (do_pivot cat cset cmp _ _ _ w) as [[u' w0]| |] eqn:E0; try done.
    eapply sim_mono; [apply (sim_bind 18 (4 + (8 * (q - 3) + 4 + 8 * ((q - 1) * (q - 1))))); [apply sim_pivot|]|nia]. intros u2 w0' E0'. rewrite E0 in E0'. injection E0' as <- <-.
    apply sim_bind; [apply sim_swap|]. intros u3 w1' E1'. rewrite E1 in E1'. injection E1' as <- <-. destruct (Z.eqb_spec (Z.of_nat b - Z.of_nat a + 1) 3); [eapply sim_mono; [apply sim_ret|apply Nat.le_0_l]|].
    apply sim_bind; [eapply sim_mono; [apply sim_partition|cbn [it_pos]; lia]|]. intros mz w2 E2. pose proof (wp_elim _ _ _ _ _ (partition_ok _ _ _ o R L cmp OK w1 l1 a b HR1 ltac:(lia) ltac:(lia) Hpv1) E2) as (l2 & m & x & -> & HR2 & Hm & Hp2 & _).
    assert (length l2 = length l) as Hl2 by (rewrite <-Hl1; by eapply perm_in_length). destruct (_ <=? _)%Z.
    - replace (Z.of_nat m) with (Z.of_nat (S m) - 1)%Z by lia. eapply sim_mono; [apply (IH w2 l2 a (S m)); [done|lia|lia]|]. assert (S m - a <= q - 1) by lia. nia.
    - eapply sim_mono; [apply (sim_bind 0 (8 * ((e - S m) * (e - S m)))); [apply sim_next|]|]. 2:{ assert (e - S m <= q - 1) by lia. nia. }
      intros nx w4 E4. rewrite (SortProofs.next_ok _ _ _ o R L w2 l2 m HR2 ltac:(lia)) in E4. injection E4 as <- <-. replace (Z.of_nat b) with (Z.of_nat e - 1)%Z by lia. apply (IH w2 l2 (S m) e); [done|lia|lia].
  Qed.
  (** C105, what holds: NthElement on n elements reads and writes at most 8 n^2 elements *)
  Theorem nth_cost_partial w l a b n : R w l → a <= b <= length l → a <= n < b →
    ∃ w' c, nth_element csize cat cset cmp (pos o a) (pos o b) (Z.of_nat n - Z.of_nat a) w = Ok (tt, w')
      ∧ nth_element csz ct cs cmp (pos o a) (pos o b) (Z.of_nat n - Z.of_nat a) (w, 0) = Ok (tt, (w', c)) ∧ c <= 8 * ((b - a) * (b - a)).
  Proof using L OK.
    intros HR Hab Hn. destruct (nth_element_partial _ _ _ _ _ L cmp OK w l a b n HR Hab Hn) as (w' & s' & E & _). exists w'. revert E. unfold nth_element, it_position, it_at. cbn [it_pos it_obj]. destruct (_ || _); [lazymatch goal with |- mret_ tt _ = _ → _ => intros E; exists 0; unfold mret_ in *; injection E as ->; split_and!; [done|done|apply Nat.le_0_l] end|].
    replace (Z.of_nat a + (Z.of_nat b - Z.of_nat a) - 1)%Z with (Z.of_nat b - 1)%Z by lia. replace (Z.to_nat (Z.of_nat b - Z.of_nat a)) with (b - a) by lia. intros E.
    pose proof (sim_nth (b - a) w l a b (Z.of_nat n - Z.of_nat a) HR Hab ltac:(lia) 0) as H. rewrite E in H. destruct H as (d & E2 & Hd). exists d. done.
  Qed.
  (** n equal elements, the first asked for *)
  Context (N : nat) (x : T).
  Notation l := (replicate N x).
  Lemma nth_e fuel w c a e : R w l → a <= e <= N → e - a <= fuel →
    ∃ w' d, nth_element_ csz ct cs cmp fuel (at_ a) (it (Z.of_nat e - 1)) 0 (w, c) = Ok (tt, (w', c + d)) ∧ R w' l ∧ (e - a - 3) * (e - a - 3) <= d.
  Proof using L OK.
    revert w c a e. induction fuel as [|f IH]; intros w c a e HR He Hf; cbn [nth_element_]; unfold it_position; cbn [it_pos].
    { destruct (Z.leb_spec (Z.of_nat e - 1) (Z.of_nat a + 1)); [|lia]. exists w, 0. replace (e - a - 3) with 0 by lia. split_and!; [by rewrite Nat.add_0_r|done|lia]. }
    destruct (Z.leb_spec (Z.of_nat e - 1) (Z.of_nat a + 1)). { exists w, 0. replace (e - a - 3) with 0 by lia. split_and!; [by rewrite Nat.add_0_r|done|lia]. }
    replace (Z.of_nat e - 1)%Z with (Z.of_nat (e - 1)) by lia. set (b := e - 1).
    destruct (Z.ltb_spec (Z.of_nat b - Z.of_nat a + 1) 3); [lia|].
    unfold it_at. cbn [it_obj]. set (mid := a + (b - a + 1) / 2). replace (Z.of_nat a + Z.quot (Z.of_nat b - Z.of_nat a + 1) 2)%Z with (Z.of_nat mid) by (rewrite Z.quot_div_nonneg by lia; lia).
    replace (Z.of_nat b - 1)%Z with (Z.of_nat (b - 1)) by lia. unfold do_pivot, mbind_. rewrite !(swap_if_e csize cat cset o R L cmp OK N x) by (done || lia). destruct (swap_e csize cat cset o R L N x w (c + 2 + 2 + 2) mid (b - 1) HR ltac:(lia) ltac:(lia)) as (w1 & -> & HR1).
    destruct (Z.eqb_spec (Z.of_nat b - Z.of_nat a + 1) 3). { exists w1, (2 + 2 + 2 + 4). replace (e - a - 3) with 0 by lia. split_and!; [unfold mret_; do 3 f_equal; lia|done|lia]. }
    destruct (partition_e csize cat cset o R L cmp OK N x w1 (c + 2 + 2 + 2 + 4) a b HR1 ltac:(lia) ltac:(lia)) as (w2 & -> & HR2).
    destruct (Z.leb_spec 0 (Z.of_nat (b - 1) - Z.of_nat a)); [|lia]. replace (Z.of_nat (b - 1)) with (Z.of_nat b - 1)%Z by lia.
    destruct (IH w2 (c + 2 + 2 + 2 + 4 + 2 * (b - a - 2) + 4) a b HR2 ltac:(lia) ltac:(lia)) as (w3 & d & -> & HR3 & Hd).
    exists w3, (14 + 2 * (b - a - 2) + d). split_and!; [do 3 f_equal; lia|done|].
    replace (b - a - 3) with (e - a - 4) in Hd by lia. replace (b - a - 2) with (e - a - 3) by lia. assert (4 <= e - a) by lia. assert (∃ k, e - a = k + 4) as [k Ek] by (exists (e - a - 4); lia). rewrite Ek in Hd |- *. replace (k + 4 - 4) with k in * by lia. replace (k + 4 - 3) with (k + 1) by lia. cut (k * k <= d); [nia|]. exact Hd.
  Qed.
  (** C105 is false: on n equal elements NthElement reads and writes at least (n-3)^2 elements *)
  Theorem nth_equal_elements w : 0 < N → R w l →
    ∃ w' c, nth_element csz ct cs cmp (pos o 0) (pos o N) 0 (w, 0) = Ok (tt, (w', c)) ∧ (N - 3) * (N - 3) <= c.
  Proof using L OK.
    intros HN HR. unfold nth_element, it_position, it_at. cbn [it_pos it_obj]. destruct (Z.ltb_spec (Z.of_nat 0) 0); [lia|]. destruct (Z.ltb_spec (Z.of_nat N - Z.of_nat 0) 0); [lia|]. cbn [orb].
    replace (Z.of_nat 0 + (Z.of_nat N - Z.of_nat 0) - 1)%Z with (Z.of_nat N - 1)%Z by lia. replace (Z.to_nat (Z.of_nat N - Z.of_nat 0)) with N by lia.
    destruct (nth_e N w 0 0 N HR ltac:(lia) ltac:(lia)) as (w' & d & E & _ & Hd). exists w', d. rewrite E. split; [done|]. by rewrite Nat.sub_0_r in Hd.
  Qed.
End props.

(** C105 is false: no constant k makes k n accesses enough *)
Theorem nth_linear_refuted : ∀ k, ∃ n w' c, 0 < n ∧ nth_element (csize_c sw_len) (cat_c sw_at) (cset_c sw_set) Z.sub (pos 0 0) (pos 0 n) 0 (zeroes n, 0) = Ok (tt, (w', c)) ∧ k * n < c.
Proof.
  intros k. set (n := k + 10). exists n.
  assert (CmpOK Z.sub) as OK. { constructor; intros; lia. }
  destruct (nth_equal_elements _ _ _ 0 _ (slice_ra_law 0%Z 0) Z.sub OK n 0%Z (zeroes n) ltac:(lia) (zeroes_hold n)) as (w' & c & E & Hc). exists w', c. split; [lia|]. split; [done|].
  replace (n - 3) with (k + 7) in Hc by lia. unfold n. lia.
Qed.
Print Assumptions nth_cost_partial. Print Assumptions nth_equal_elements. Print Assumptions nth_linear_refuted.
(** sixty-four equal elements, the first asked for *)
Example nth_cost_demo : match nth_element (csize_c sw_len) (cat_c sw_at) (cset_c sw_set) Z.sub (pos 0 0) (pos 0 64) 0 (zeroes 64, 0) with Ok (_, (_, c)) => (3721 <=? c) && (c <=? 8 * (64 * 64)) = true | _ => False end.
Proof. by vm_compute. Qed.
