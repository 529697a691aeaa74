(** Property C73: BinarySearch, LowerBound and UpperBound look at logarithmically many elements,
    in every range, sorted or not. *)
From Verif Require Import Base Wp ListLib GoSliceModel VectorModel SliceModel IterModel IterSpec SortModel SortSpec SortProofs SearchProofs CountSpec IterProofs IterProps SortProps.
Open Scope nat_scope.
Ltac Zify.zify_post_hook ::= Z.div_mod_to_equations.

(** halving: rounds n k says that k halvings are enough for a range of n elements *)
Lemma log2_half n m : 2 * m <= n → 0 < m → Nat.log2 m + 1 <= Nat.log2 n.
Proof. intros H Hm. rewrite Nat.add_1_r, <-Nat.log2_double by done. by apply Nat.log2_le_mono. Qed.

Section cost.
  Context {W T : Type} (csize : nat → M W Z) (cat : nat → Z → M W T) (cset : nat → Z → T → M W unit).
  Context (o : nat) (R : W → list T → Prop) (L : ra_law csize cat cset o R) (cmp : T → T → Z).
  Implicit Types l : list T.
  Notation it p := (MkIter o p).
  Notation at_ p := (MkIter o (Z.of_nat p)).
  (** rounds of a loop on n elements *)
  Definition rounds (n : nat) : nat := match n with 0 => 0 | _ => Nat.log2 n + 1 end.
  Lemma rounds_half n m : 2 * m <= n → 0 < n → rounds m + 1 <= rounds n.
  Proof using. clear. intros H Hn. unfold rounds. destruct m as [|m]; [destruct n; lia|]. destruct n as [|n]; [lia|]. pose proof (log2_half (S n) (S m) H ltac:(lia)). lia. Qed.
  Lemma val_c w c l k : R w l → k < length l → ∃ y, it_value cat (at_ k) w = Ok (y, w) ∧ it_value (cat_c cat) (at_ k) (w, c) = Ok (y, (w, c + 1)).
  Proof using L.
    intros HR Hk. destruct (value_get _ _ _ o R L w l k HR Hk) as (y & Hy & Ey). exists y. split; [done|]. unfold it_value, cat_c, counting in *. cbn in *. by rewrite Ey.
  Qed.
  Lemma next_c w c l k : R w l → k < length l → it_next (csize_c csize) (at_ k) (w, c) = Ok (at_ (k + 1), (w, c)) ∧ it_next csize (at_ k) w = Ok (at_ (k + 1), w).
  Proof using L.
    intros HR Hk. unfold it_next, csize_c, counting, mbind_. cbn [fst snd it_obj it_pos]. rewrite (ra_size _ _ _ _ _ L w l HR). cbn. destruct (Z.ltb_spec (Z.of_nat k) (Z.of_nat (length l))); [|lia]. rewrite Nat.add_0_r. unfold mret_. replace (Z.of_nat k + 1)%Z with (Z.of_nat (k + 1)) by lia. done.
  Qed.
  Lemma bsearch_c f w c l i r v : R w l → i <= r → r <= length l → r - i <= f →
    ∃ b c', bsearch_loop csize cat cmp f (at_ i) (it (Z.of_nat r - 1)) v w = Ok (b, w)
      ∧ bsearch_loop (csize_c csize) (cat_c cat) cmp f (at_ i) (it (Z.of_nat r - 1)) v (w, c) = Ok (b, (w, c')) ∧ c' <= c + rounds (r - i).
  Proof using L.
    intros HR. revert i r c. induction f as [|f IH]; intros i r c Hi Hr Hf; cbn [bsearch_loop]; unfold it_position; cbn [it_pos].
    all: destruct (Z.leb_spec (Z.of_nat i) (Z.of_nat r - 1)); try lia. 1,3: exists false, c; split_and!; [done|done|lia].
    unfold it_at. cbn [it_obj]. rewrite half by lia. set (m := (i + r - 1) / 2). assert (m < r ∧ i <= m ∧ 2 * (m - i) <= r - i ∧ 2 * (r - (m + 1)) <= r - i) as (H1 & H2 & H3 & H4) by (unfold m; lia).
    destruct (val_c w c l m HR ltac:(lia)) as (y & E1 & E2). unfold mbind_ at 1 4. rewrite E1, E2. destruct (cmp v y =? 0)%Z.
    { exists true, (c + 1). split_and!; [done|done|]. unfold rounds. destruct (r - i) eqn:?; lia. }
    destruct (cmp v y <? 0)%Z.
    - unfold mbind_, it_prev, mret_. cbn [it_pos]. destruct (Z.leb_spec 0 (Z.of_nat m)); [|lia]. cbn [it_obj]. destruct (IH i m (c + 1) ltac:(lia) ltac:(lia) ltac:(lia)) as (b & c' & E3 & E4 & Hc). exists b, c'. split_and!; [done|done|]. pose proof (rounds_half (r - i) (m - i) H3 ltac:(lia)). lia.
    - destruct (next_c w (c + 1) l m HR ltac:(lia)) as [E3 E4]. unfold mbind_. rewrite E3, E4. destruct (IH (m + 1) r (c + 1) ltac:(lia) ltac:(lia) ltac:(lia)) as (b & c' & E5 & E6 & Hc). exists b, c'. split_and!; [done|done|]. pose proof (rounds_half (r - i) (r - (m + 1)) H4 ltac:(lia)). lia.
  Qed.
  Lemma bound_c keep f w c l i r v p : R w l → i <= r → r <= length l → r - i <= f →
    ∃ b c', bound_loop csize cat cmp keep f (at_ i) (it (Z.of_nat r - 1)) v p w = Ok (b, w)
      ∧ bound_loop (csize_c csize) (cat_c cat) cmp keep f (at_ i) (it (Z.of_nat r - 1)) v p (w, c) = Ok (b, (w, c')) ∧ c' <= c + rounds (r - i).
  Proof using L.
    intros HR. revert i r c p. induction f as [|f IH]; intros i r c p Hi Hr Hf; cbn [bound_loop]; unfold it_position; cbn [it_pos].
    all: destruct (Z.leb_spec (Z.of_nat i) (Z.of_nat r - 1)); try lia. 1,3: exists p, c; split_and!; [done|done|lia].
    unfold it_at. cbn [it_obj]. rewrite half by lia. set (m := (i + r - 1) / 2). assert (m < r ∧ i <= m ∧ 2 * (m - i) <= r - i ∧ 2 * (r - (m + 1)) <= r - i) as (H1 & H2 & H3 & H4) by (unfold m; lia).
    destruct (val_c w c l m HR ltac:(lia)) as (y & E1 & E2). unfold mbind_ at 1 4. rewrite E1, E2. destruct (keep (cmp v y)).
    - unfold mbind_, it_prev, mret_. cbn [it_pos]. destruct (Z.leb_spec 0 (Z.of_nat m)); [|lia]. cbn [it_obj]. destruct (IH i m (c + 1) (Z.of_nat m) ltac:(lia) ltac:(lia) ltac:(lia)) as (b & c' & E3 & E4 & Hc). exists b, c'. split_and!; [done|done|]. pose proof (rounds_half (r - i) (m - i) H3 ltac:(lia)). lia.
    - destruct (next_c w (c + 1) l m HR ltac:(lia)) as [E3 E4]. unfold mbind_. rewrite E3, E4. destruct (IH (m + 1) r (c + 1) p ltac:(lia) ltac:(lia) ltac:(lia)) as (b & c' & E5 & E6 & Hc). exists b, c'. split_and!; [done|done|]. pose proof (rounds_half (r - i) (r - (m + 1)) H4 ltac:(lia)). lia.
  Qed.
  Lemma valid_c w c l a : R w l → ∃ b, it_valid csize (at_ a) w = Ok (b, w) ∧ it_valid (csize_c csize) (at_ a) (w, c) = Ok (b, (w, c)).
  Proof using L. intros HR. unfold it_valid, csize_c, counting, mbind_. cbn [fst snd it_obj]. rewrite (ra_size _ _ _ _ _ L w l HR). rewrite Nat.add_0_r. unfold mret_. eauto. Qed.
  (** C73: each gives its usual result (C43) and looks at no more than log2(n)+1 elements, one more
      for the bounds; n is the length of the range *)
  Theorem search_log_time w l a b v : R w l → a <= b <= length l →
    (∃ r c, binary_search csize cat cmp (pos o a) (pos o b) v w = Ok (r, w) ∧ binary_search (csize_c csize) (cat_c cat) cmp (pos o a) (pos o b) v (w, 0) = Ok (r, (w, c)) ∧ c <= Nat.log2 (b - a) + 1)
    ∧ (∃ r c, lower_bound csize cat cmp (pos o a) (pos o b) v w = Ok (r, w) ∧ lower_bound (csize_c csize) (cat_c cat) cmp (pos o a) (pos o b) v (w, 0) = Ok (r, (w, c)) ∧ c <= Nat.log2 (b - a) + 2)
    ∧ (∃ r c, upper_bound csize cat cmp (pos o a) (pos o b) v w = Ok (r, w) ∧ upper_bound (csize_c csize) (cat_c cat) cmp (pos o a) (pos o b) v (w, 0) = Ok (r, (w, c)) ∧ c <= Nat.log2 (b - a) + 2).
  Proof using L.
    intros HR Hab. destruct (valid_c w 0 l a HR) as (vb & V1 & V2). assert (rounds (b - a) <= Nat.log2 (b - a) + 1) as Hrd by (unfold rounds; destruct (b - a); lia).
    unfold binary_search, lower_bound, upper_bound. unfold mbind_ at 1 3 5 9 13 17. rewrite V1, V2. unfold it_position, it_clone, it_at. cbn [it_pos it_obj].
    destruct (negb vb || (Z.of_nat b <=? Z.of_nat a)%Z) eqn:E0.
    { split_and!; eexists _, 0; (split; [done|]; split; [done|lia]). }
    apply orb_false_iff in E0 as [_ E0%Z.leb_gt]. replace (Z.to_nat (Z.of_nat b - Z.of_nat a)) with (b - a) by lia.
    unfold mbind_, it_prev, mret_. cbn [it_pos it_obj]. destruct (Z.leb_spec 0 (Z.of_nat b)); [|lia].
    destruct (val_c w 0 l (b - 1) HR ltac:(lia)) as (y & Y1 & Y2). replace (Z.of_nat (b - 1)) with (Z.of_nat b - 1)%Z in * by lia.
    split_and!.
    - destruct (bsearch_c (b - a) w 0 l a b v HR ltac:(lia) ltac:(lia) ltac:(lia)) as (r & c & E1 & E2 & Hc). exists r, c. split_and!; [done|done|lia].
    - rewrite Y1, Y2. destruct (0 <? cmp v y)%Z; [eexists _, 1; split; [done|]; split; [done|lia]|].
      destruct (bound_c (λ c, (c <=? 0)%Z) (b - a) w (0 + 1) l a b v 0%Z HR ltac:(lia) ltac:(lia) ltac:(lia)) as (r & c & E1 & E2 & Hc). rewrite E1, E2. eexists _, c. split; [done|]. split; [done|lia].
    - rewrite Y1, Y2. destruct (0 <=? cmp v y)%Z; [eexists _, 1; split; [done|]; split; [done|lia]|].
      destruct (bound_c (λ c, (c <? 0)%Z) (b - a) w (0 + 1) l a b v 0%Z HR ltac:(lia) ltac:(lia) ltac:(lia)) as (r & c & E1 & E2 & Hc). rewrite E1, E2. eexists _, c. split; [done|]. split; [done|lia].
  Qed.
End cost.
Print Assumptions search_log_time.
(** eight elements: four looks of at most 4 (3 + 1) *)
Definition ldemo : world Z := MkWorld (MkMem {[0 := [1; 3; 4; 6; 7; 9; 12; 15]%Z]} 1) [MkSlice 0 0 8 8].
Example search_cost_demo : sw_holds 0 ldemo [1; 3; 4; 6; 7; 9; 12; 15]%Z ∧
  match binary_search (csize_c sw_len) (cat_c sw_at) Z.sub (pos 0 0) (pos 0 8) 15%Z (ldemo, 0) with Ok (r, (_, c)) => r = true ∧ c = 4 | _ => False end.
Proof. split; [eexists; split; [reflexivity|]; split; [eexists; split; [reflexivity|cbn; lia]|reflexivity]|by vm_compute]. Qed.
