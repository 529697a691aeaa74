(** Properties C75 and C76: how many element accesses Sort and Stable need. *)
From Verif Require Import Base Wp ListLib GoSliceModel VectorModel SliceModel IterModel IterSpec SortModel SortSpec SortProofs CountSpec SortCostProofs IterProofs IterProps SortProps.
Open Scope nat_scope.
Open Scope go_scope.
Ltac Zify.zify_post_hook ::= Z.div_mod_to_equations.

Section props.
  Context {W T : Type} (csize : nat → M W Z) (cat : nat → Z → M W T) (cset : nat → Z → T → M W unit) (o : nat) (R : W → list T → Prop).
  Context (L : ra_law csize cat cset o R) (cmp : T → T → Z) (OK : CmpOK cmp).
  Notation csz := (csize_c csize). Notation ct := (cat_c cat). Notation cs := (cset_c cset).
  Notation it p := (MkIter o p).
  Notation at_ p := (MkIter o (Z.of_nat p)).
  (** C75, what holds: Sort of n elements reads and writes at most 8 n^2 elements *)
  Theorem sort_cost_partial w l a b : R w l → a <= b <= length l →
    ∃ w' c, sort_range csize cat cset cmp (pos o a) (pos o b) w = Ok (tt, w') ∧ sort_range csz ct cs cmp (pos o a) (pos o b) (w, 0) = Ok (tt, (w', c)) ∧ c <= 8 * ((b - a) * (b - a)).
  Proof using L OK.
    intros HR Hab. destruct (sort_sorts _ _ _ _ _ L cmp OK w l a b HR Hab) as (w' & s' & E & _). exists w'. revert E. unfold sort_range, it_position, it_at. cbn [it_pos it_obj]. replace (Z.of_nat a + (Z.of_nat b - Z.of_nat a) - 1)%Z with (Z.of_nat b - 1)%Z by lia. replace (Z.to_nat (Z.of_nat b - Z.of_nat a)) with (b - a) by lia. intros E.
    pose proof (sim_quick_sort csize cat cset cmp o R L OK (b - a) w l a b HR Hab ltac:(lia) 0) as H. rewrite E in H. destruct H as (d & E2 & Hd). exists d. done.
  Qed.
  (** C76: Stable of n > 0 elements reads and writes at most 8 n log2(n) elements (log2 rounded up) *)
  Theorem stable_cost zero w l a b fuel : R w l → a < b <= length l → b - a <= fuel →
    ∃ w' c, stable csize cat cset cmp fuel zero (pos o a) (pos o b) w = Ok (tt, w') ∧ stable csz ct cs cmp fuel zero (pos o a) (pos o b) (w, 0) = Ok (tt, (w', c)) ∧ c <= 8 * ((b - a) * Nat.log2_up (b - a)).
  Proof using L OK.
    intros HR Hab Hf. destruct (stable_sorts_partial _ _ _ _ _ L cmp OK zero w l a b fuel HR Hab Hf) as (w' & s' & E & _). exists w'. revert E. unfold stable, it_position. cbn [it_pos]. destruct (Z.ltb_spec (Z.of_nat b - Z.of_nat a) 0); [lia|].
    set (tmp := replicate _ zero). intros E. pose proof (sim_merge_sort csize cat cset cmp fuel o a b tmp w ltac:(lia) 0) as H1. unfold mbind_ in *. destruct (merge_sort csize cat cset cmp fuel _ _ tmp w) as [[t w1]| |]; [|done|done]. injection E as ->. destruct H1 as (d & E2 & Hd). exists d. rewrite E2. done.
  Qed.

  (** n equal elements *)
  Context (N : nat) (x : T).
  Notation l := (replicate N x).
  Lemma value_e w c p : R w l → p < N → it_value ct (at_ p) (w, c) = Ok (x, (w, c + 1)).
  Proof using L.
    intros HR Hp. unfold it_value, cat_c, counting. cbn [it_obj it_pos fst snd]. rewrite (ra_at _ _ _ _ _ L w l _ HR). rewrite bool_decide_eq_true_2 by lia. rewrite Nat2Z.id, lookup_replicate_2 by done. done.
  Qed.
  Lemma set_e w c p : R w l → p < N → ∃ w', it_set cs (at_ p) x (w, c) = Ok (tt, (w', c + 1)) ∧ R w' l.
  Proof using L.
    intros HR Hp. destruct (ra_set _ _ _ _ _ L w l (Z.of_nat p) x HR) as (w' & E & HR'). exists w'. unfold it_set, cset_c, counting. cbn [it_obj it_pos fst snd]. rewrite E. split; [done|]. rewrite bool_decide_eq_true_2 in HR' by lia. rewrite list_insert_id in HR'; [done|]. rewrite Nat2Z.id. by apply lookup_replicate_2.
  Qed.
  Lemma swap_e w c i j : R w l → i < N → j < N → ∃ w', swap_value ct cs (at_ i) (at_ j) (w, c) = Ok (tt, (w', c + 4)) ∧ R w' l.
  Proof using L.
    intros HR Hi Hj. destruct (set_e w (c + 1 + 1) i HR Hi) as (w1 & E1 & HR1). destruct (set_e w1 (c + 1 + 1 + 1) j HR1 Hj) as (w2 & E2 & HR2). exists w2. split; [|done]. unfold swap_value, mbind_. rewrite (value_e w c i HR Hi), (value_e w (c + 1) j HR Hj), E1, E2. do 3 f_equal. lia.
  Qed.
  Lemma swap_if_e w c i j : R w l → i < N → j < N → swap_if_gt ct cs cmp (at_ i) (at_ j) (w, c) = Ok (tt, (w, c + 2)).
  Proof using L OK.
    intros HR Hi Hj. unfold swap_if_gt, mbind_. rewrite (value_e w c i HR Hi), (value_e w (c + 1) j HR Hj). rewrite (cmp_refl _ OK). cbn. unfold mret_. do 3 f_equal. lia.
  Qed.
  Lemma next_e w c p : R w l → p < N → it_next csz (at_ p) (w, c) = Ok (at_ (S p), (w, c)).
  Proof using L.
    intros HR Hp. unfold it_next, csize_c, counting, mbind_. cbn [it_obj it_pos fst snd]. rewrite (ra_size _ _ _ _ _ L w l HR), replicate_length. cbn [fst snd]. destruct (Z.ltb_spec (Z.of_nat p) (Z.of_nat N)); [|lia]. unfold mret_. rewrite Nat.add_0_r. replace (Z.of_nat p + 1)%Z with (Z.of_nat (S p)) by lia. done.
  Qed.
  Lemma part_e fuel w c i r b : R w l → i <= r → r < N → b < N → r - i <= fuel → part_loop csz ct cs cmp fuel (at_ i) (it (Z.of_nat r - 1)) (at_ b) (w, c) = Ok (it (Z.of_nat r - 1), (w, c + 2 * (r - i))).
  Proof using L OK.
    intros HR. revert i c. induction fuel as [|f IH]; intros i c Hi Hr Hb Hf; cbn [part_loop]; unfold it_position; cbn [it_pos].
    all: destruct (Z.leb_spec (Z.of_nat i) (Z.of_nat r - 1)); try lia. 1,3: unfold mret_; do 3 f_equal; lia.
    unfold mbind_. rewrite (value_e w c i HR ltac:(lia)), (value_e w (c + 1) b HR ltac:(lia)). rewrite (cmp_refl _ OK). cbn [Z.leb Z.compare]. rewrite (next_e w _ i HR ltac:(lia)). rewrite IH by lia. do 3 f_equal. lia.
  Qed.
  Lemma partition_e w c a b : R w l → a + 3 <= b → b < N → ∃ w', partition csz ct cs cmp (at_ a) (at_ b) (w, c) = Ok (Z.of_nat (b - 1), (w', c + 2 * (b - a - 2) + 4)) ∧ R w' l.
  Proof using L OK.
    intros HR Hab Hb. unfold partition, it_position, it_at. cbn [it_pos it_obj]. replace (Z.of_nat b - 1)%Z with (Z.of_nat (b - 1)) by lia. replace (Z.of_nat a + 1)%Z with (Z.of_nat (S a)) by lia. replace (Z.of_nat b - 2)%Z with (Z.of_nat (b - 1) - 1)%Z by lia.
    unfold mbind_. rewrite part_e by (done || lia). replace (Z.of_nat (b - 1) - 1)%Z with (Z.of_nat (b - 2)) by lia. rewrite (next_e w _ (b - 2) HR ltac:(lia)). replace (S (b - 2)) with (b - 1) by lia.
    destruct (swap_e w (c + 2 * (b - 1 - S a)) (b - 1) (b - 1) HR ltac:(lia) ltac:(lia)) as (w' & E & HR'). exists w'. split; [|done]. rewrite E. cbn [it_pos]. unfold mret_. do 3 f_equal. lia.
  Qed.
  Lemma quick_e fuel w c a e : R w l → a <= e <= N → e - a <= fuel → ∃ w' d, quick_sort csz ct cs cmp fuel (at_ a) (it (Z.of_nat e - 1)) (w, c) = Ok (tt, (w', c + d)) ∧ R w' l ∧ (e - a - 3) * (e - a - 3) <= 2 * d.
  Proof using L OK.
    revert w c a e. induction fuel as [|f IH]; intros w c a e HR He Hf; cbn [quick_sort]; unfold it_position; cbn [it_pos].
    { destruct (Z.leb_spec (Z.of_nat e - 1) (Z.of_nat a)); [|lia]. exists w, 0. replace (e - a - 3) with 0 by lia. split_and!; [by rewrite Nat.add_0_r|done|lia]. }
    destruct (Z.leb_spec (Z.of_nat e - 1) (Z.of_nat a)). { exists w, 0. replace (e - a - 3) with 0 by lia. split_and!; [by rewrite Nat.add_0_r|done|lia]. }
    replace (Z.of_nat e - 1)%Z with (Z.of_nat (e - 1)) by lia. set (b := e - 1).
    destruct (Z.ltb_spec (Z.of_nat b - Z.of_nat a + 1) 3). { exists w, 2. replace (e - a - 3) with 0 by lia. split_and!; [apply swap_if_e; (done || lia)|done|lia]. }
    unfold it_at. cbn [it_obj]. set (mid := a + (b - a + 1) / 2). replace (Z.of_nat a + Z.quot (Z.of_nat b - Z.of_nat a + 1) 2)%Z with (Z.of_nat mid) by (rewrite Z.quot_div_nonneg by lia; lia).
    replace (Z.of_nat b - 1)%Z with (Z.of_nat (b - 1)) by lia. unfold do_pivot, mbind_. rewrite !swap_if_e by (done || lia). destruct (swap_e w (c + 2 + 2 + 2) mid (b - 1) HR ltac:(lia) ltac:(lia)) as (w1 & -> & HR1).
    destruct (Z.eqb_spec (Z.of_nat b - Z.of_nat a + 1) 3). { exists w1, (2 + 2 + 2 + 4). replace (e - a - 3) with 0 by lia. split_and!; [unfold mret_; do 3 f_equal; lia|done|lia]. }
    destruct (partition_e w1 (c + 2 + 2 + 2 + 4) a b HR1 ltac:(lia) ltac:(lia)) as (w2 & -> & HR2).
    destruct (IH w2 (c + 2 + 2 + 2 + 4 + 2 * (b - a - 2) + 4) a (b - 1) HR2 ltac:(lia) ltac:(lia)) as (w3 & d & -> & HR3 & Hd). rewrite (next_e w3 _ (b - 1) HR3 ltac:(lia)). replace (S (b - 1)) with b by lia.
    exists w3, (14 + 2 * (b - a - 2) + d). split_and!; [|done|].
    - destruct f; cbn [quick_sort]; unfold it_position; cbn [it_pos]; rewrite Z.leb_refl; unfold mret_; do 3 f_equal; lia.
    - assert (b - 1 - a - 3 = e - a - 5) as Eq by lia. rewrite Eq in Hd. replace (b - a - 2) with (e - a - 3) by lia. set (q := e - a) in *. assert (4 <= q) by lia. destruct (decide (q = 4)) as [->|]; [lia|]. assert (∃ k, q = k + 5) as [k ->] by (exists (q - 5); lia). replace (k + 5 - 5) with k in * by lia. replace (k + 5 - 3) with (k + 2) by lia. lia.
  Qed.
  (** C75 is false: on n equal elements Sort reads and writes at least (n-3)^2 / 2 elements *)
  Theorem sort_equal_elements w : R w l → ∃ w' c, sort_range csz ct cs cmp (pos o 0) (pos o N) (w, 0) = Ok (tt, (w', c)) ∧ (N - 3) * (N - 3) <= 2 * c.
  Proof using L OK.
    intros HR. unfold sort_range, it_position, it_at. cbn [it_pos it_obj]. replace (Z.of_nat 0 + (Z.of_nat N - Z.of_nat 0) - 1)%Z with (Z.of_nat N - 1)%Z by lia. replace (Z.to_nat (Z.of_nat N - Z.of_nat 0)) with N by lia.
    destruct (quick_e N w 0 0 N HR ltac:(lia) ltac:(lia)) as (w' & d & E & _ & Hd). exists w', d. rewrite E. split; [done|]. by rewrite Nat.sub_0_r in Hd.
  Qed.
End props.

(** a slice of n zeroes *)
Definition zeroes (n : nat) : world Z := MkWorld (MkMem {[0 := replicate n 0%Z]} 1) [MkSlice 0 0 n n].
Lemma zeroes_hold n : sw_holds 0 (zeroes n) (replicate n 0%Z).
Proof. eexists. split; [reflexivity|]. split; [exists (replicate n 0%Z); split; [reflexivity|cbn; rewrite replicate_length; lia]|]. unfold s_vals, array_of, zeroes. cbn [s_arr s_off s_len w_mem m_arr]. rewrite lookup_singleton. cbn [default]. unfold id. rewrite drop_0. apply take_ge. by rewrite replicate_length. Qed.
(** C75 is false: no constant k makes k n (log2(n) + 1) accesses enough *)
Theorem sort_n_log_n_refuted : ∀ k, ∃ n w' c, sort_range (csize_c sw_len) (cat_c sw_at) (cset_c sw_set) Z.sub (pos 0 0) (pos 0 n) (zeroes n, 0) = Ok (tt, (w', c)) ∧ k * (n * (Nat.log2 n + 1)) < c.
Proof.
  intros k. set (j := 8 * k + 8). set (n := 2 ^ (2 * j)). exists n.
  assert (CmpOK Z.sub) as OK. { constructor; intros; lia. }
  destruct (sort_equal_elements _ _ _ 0 _ (slice_ra_law 0%Z 0) Z.sub OK n 0%Z (zeroes n) (zeroes_hold n)) as (w' & c & E & Hc). exists w', c. split; [done|].
  assert (Nat.log2 n = 2 * j) as -> by (apply Nat.log2_pow2; lia).
  assert (j + 1 <= 2 ^ j) as Hj. { clear. induction j as [|j IH]; cbn [Nat.pow]; lia. }
  assert (n = 2 ^ j * 2 ^ j) as En. { unfold n. rewrite <-Nat.pow_add_r. f_equal. lia. }
  assert ((j + 1) * (j + 1) <= n) as Hn by (rewrite En; by apply Nat.mul_le_mono). clearbody n. clear En E. assert (8 * k + 9 <= j + 1) as Hk by lia. clearbody j. clear Hj.
  assert (4 * k * (2 * j + 1) + 12 <= n) as H by nia. assert (2 * (k * (n * (2 * j + 1))) < (n - 3) * (n - 3)); [|lia]. assert (∃ q, n = q + 3) as [q ->] by (exists (n - 3); lia). replace (q + 3 - 3) with q by lia. nia.
Qed.
Print Assumptions sort_cost_partial. Print Assumptions stable_cost. Print Assumptions sort_equal_elements. Print Assumptions sort_n_log_n_refuted.
(** sixty-four equal elements; the same sixty-four sorted by Stable *)
Example sort_cost_demo : match sort_range (csize_c sw_len) (cat_c sw_at) (cset_c sw_set) Z.sub (pos 0 0) (pos 0 64) (zeroes 64, 0) with Ok (_, (_, c)) => c = 2358 | _ => False end
  ∧ match stable (csize_c sw_len) (cat_c sw_at) (cset_c sw_set) Z.sub 64 0%Z (pos 0 0) (pos 0 64) (zeroes 64, 0) with Ok (_, (_, c)) => c = 1152 | _ => False end.
Proof. by vm_compute. Qed.
