(** Counted runs of sort.go and stable_sort.go. *)
From Verif Require Import Base Wp ListLib IterModel IterSpec SortModel SortSpec SortProofs CountSpec.
Open Scope nat_scope.
Open Scope go_scope.
Ltac Zify.zify_post_hook ::= Z.div_mod_to_equations.

(** the counted run mc does what the plain run m does, and adds at most k *)
Definition sim {W A} (k : nat) (m : M W A) (mc : M (W * nat) A) (w : W) : Prop := ∀ c,
  match m w with Ok (a, w') => ∃ d, mc (w, c) = Ok (a, (w', c + d)) ∧ d <= k | Panic => mc (w, c) = Panic | Fuel => mc (w, c) = Fuel end.
Section sim.
  Context {W : Type}.
  Lemma sim_ret {A} (a : A) (w : W) : sim 0 (mret_ a) (mret_ a) w.
  Proof. intros c. exists 0. by rewrite Nat.add_0_r. Qed.
  Lemma sim_panic {A} (w : W) : sim (A := A) 0 mpanic mpanic w. Proof. done. Qed.
  Lemma sim_fuel {A} (w : W) : sim (A := A) 0 mfuel mfuel w. Proof. done. Qed.
  Lemma sim_count {A} k (m : M W A) w : sim k m (counting k m) w.
  Proof. intros c. unfold counting. cbn. destruct (m w) as [[a w']| |]; [|done|done]. by exists k. Qed.
  Lemma sim_mono {A} k k' (m : M W A) mc w : sim k m mc w → k <= k' → sim k' m mc w.
  Proof. intros H Hk c. specialize (H c). destruct (m w) as [[a w']| |]; [|done|done]. destruct H as (d & E & Hd). exists d. split; [done|lia]. Qed.
  Lemma sim_bind {A B} k1 k2 (m : M W A) mc (f : A → M W B) fc w : sim k1 m mc w → (∀ a w', m w = Ok (a, w') → sim k2 (f a) (fc a) w') → sim (k1 + k2) (mbind_ m f) (mbind_ mc fc) w.
  Proof.
    intros H1 H2 c. specialize (H1 c). unfold mbind_. destruct (m w) as [[a w1]| |]; [|by rewrite H1|by rewrite H1]. destruct H1 as (d & -> & Hd). specialize (H2 a w1 eq_refl (c + d)).
    destruct (f a w1) as [[b w2]| |]; [|done|done]. destruct H2 as (d2 & -> & Hd2). exists (d + d2). split; [by rewrite Nat.add_assoc|lia].
  Qed.
End sim.

Section cost.
  Context {W T : Type} (csize : nat → M W Z) (cat : nat → Z → M W T) (cset : nat → Z → T → M W unit) (cmp : T → T → Z).
  Notation csz := (csize_c csize). Notation ct := (cat_c cat). Notation cs := (cset_c cset).
  Lemma sim_value (i : iter) w : sim 1 (it_value cat i) (it_value ct i) w. Proof. apply sim_count. Qed.
  Lemma sim_set (i : iter) x w : sim 1 (it_set cset i x) (it_set cs i x) w. Proof. apply sim_count. Qed.
  Lemma sim_next (i : iter) w : sim 0 (it_next csize i) (it_next csz i) w.
  Proof. unfold it_next. apply (sim_bind 0 0); [apply sim_count|]. intros. apply sim_ret. Qed.
  Lemma sim_prev (i : iter) w : sim 0 (it_prev (W := W) i) (it_prev i) w. Proof. apply sim_ret. Qed.
  Lemma sim_swap a b w : sim 4 (swap_value cat cset a b) (swap_value ct cs a b) w.
  Proof.
    unfold swap_value. apply (sim_bind 1 3); [apply sim_value|]. intros ? ? _. apply (sim_bind 1 2); [apply sim_value|]. intros ? ? _. apply (sim_bind 1 1); [apply sim_set|]. intros ? ? _. apply sim_set.
  Qed.
  Lemma sim_swap_if a b w : sim 6 (swap_if_gt cat cset cmp a b) (swap_if_gt ct cs cmp a b) w.
  Proof.
    unfold swap_if_gt. apply (sim_bind 1 5); [apply sim_value|]. intros ? ? _. apply (sim_bind 1 4); [apply sim_value|]. intros ? ? _. destruct (_ <? _)%Z; [apply sim_swap|eapply sim_mono; [apply sim_ret|lia]].
  Qed.
  Lemma sim_pivot a m b w : sim 18 (do_pivot cat cset cmp a m b) (do_pivot ct cs cmp a m b) w.
  Proof. unfold do_pivot. apply (sim_bind 6 12); [apply sim_swap_if|]. intros ? ? _. apply (sim_bind 6 6); [apply sim_swap_if|]. intros ? ? _. apply sim_swap_if. Qed.
  Lemma sim_part fuel l r b w : sim (8 * fuel) (part_loop csize cat cset cmp fuel l r b) (part_loop csz ct cs cmp fuel l r b) w.
  Proof.
    revert l r w. induction fuel as [|f IH]; intros l r w; cbn [part_loop]; (destruct (_ <=? _)%Z; [|eapply sim_mono; [apply sim_ret|lia]]). { eapply sim_mono; [apply sim_fuel|lia]. }
    replace (8 * S f) with (1 + (1 + (1 + (1 + (4 + 8 * f))))) by lia. apply sim_bind; [apply sim_value|]. intros lv ? _. apply sim_bind; [apply sim_value|]. intros bv ? _. destruct (cmp lv bv <=? 0)%Z.
    - eapply sim_mono; [apply (sim_bind 0 (8 * f)); [apply sim_next|]; intros; apply IH|lia].
    - apply sim_bind; [apply sim_value|]. intros rv ? _. apply sim_bind; [apply sim_value|]. intros bv' ? _. destruct (0 <? cmp rv bv')%Z.
      + eapply sim_mono; [apply (sim_bind 0 (8 * f)); [apply sim_prev|]; intros; apply IH|lia].
      + apply sim_bind; [apply sim_swap|]. intros _ ? _. apply (sim_bind 0); [apply sim_next|]. intros ? ? _. apply (sim_bind 0); [apply sim_prev|]. intros ? ? _. apply IH.
  Qed.
  Lemma sim_partition a b w : sim (8 * Z.to_nat (it_pos b - it_pos a - 2) + 4) (partition csize cat cset cmp a b) (partition csz ct cs cmp a b) w.
  Proof.
    unfold partition. unfold it_position, it_at. cbn [it_pos it_obj]. replace (it_pos b - 2 - (it_pos a + 1) + 1)%Z with (it_pos b - it_pos a - 2)%Z by lia.
    apply sim_bind; [apply sim_part|]. intros r ? _. apply (sim_bind 0); [apply sim_next|]. intros r' ? _. apply (sim_bind 4 0); [apply sim_swap|]. intros. apply sim_ret.
  Qed.
  (** stable_sort.go *)
  Lemma sim_merge_loop fuel fi si mid en p tmp w : sim (3 * fuel) (merge_loop csize cat cmp fuel fi si mid en p tmp) (merge_loop csz ct cmp fuel fi si mid en p tmp) w.
  Proof.
    revert fi si p tmp w. induction fuel as [|f IH]; intros fi si p tmp w; cbn [merge_loop]; (destruct (_ && _); [|eapply sim_mono; [apply sim_ret|lia]]). { eapply sim_mono; [apply sim_fuel|lia]. }
    replace (3 * S f) with (1 + (1 + (1 + 3 * f))) by lia. apply sim_bind; [apply sim_value|]. intros fv ? _. apply sim_bind; [apply sim_value|]. intros sv ? _.
    destruct (cmp fv sv <=? 0)%Z; (apply sim_bind; [apply sim_value|]); intros v ? _; (destruct (upd tmp p v) as [tmp'| |]; [|eapply sim_mono; [apply sim_panic|lia]|eapply sim_mono; [apply sim_fuel|lia]]); (apply (sim_bind 0); [apply sim_next|]); intros ? ? _; apply IH.
  Qed.
  Lemma sim_copy_loop fuel i stop p tmp w : sim fuel (copy_loop csize cat fuel i stop p tmp) (copy_loop csz ct fuel i stop p tmp) w.
  Proof.
    revert i p tmp w. induction fuel as [|f IH]; intros i p tmp w; cbn [copy_loop]; (destruct (_ <? _)%Z; [|eapply sim_mono; [apply sim_ret|lia]]); [apply sim_fuel|].
    apply (sim_bind 1 f); [apply sim_value|]. intros v ? _. destruct (upd tmp p v) as [tmp'| |]; [|eapply sim_mono; [apply sim_panic|lia]|eapply sim_mono; [apply sim_fuel|lia]]. apply (sim_bind 0 f); [apply sim_next|]. intros. apply IH.
  Qed.
  Lemma sim_write c i it_ tmp w : sim c (write_back csize cset c i it_ tmp) (write_back csz cs c i it_ tmp) w.
  Proof.
    revert i it_ w. induction c as [|c IH]; intros i it_ w; cbn [write_back]; [apply sim_ret|]. destruct (idx tmp i); [|eapply sim_mono; [apply sim_panic|lia]|eapply sim_mono; [apply sim_fuel|lia]].
    apply (sim_bind 1 c); [apply sim_set|]. intros _ ? _. apply (sim_bind 0 c); [apply sim_next|]. intros. apply IH.
  Qed.
  Lemma merge_loop_pos fuel fi si mid en p tmp w fi' si' p' tmp' w' : merge_loop csize cat cmp fuel fi si mid en p tmp w = Ok (fi', si', p', tmp', w') → (p' <= p + Z.of_nat fuel)%Z.
  Proof.
    revert fi si p tmp w. induction fuel as [|f IH]; intros fi si p tmp w; cbn [merge_loop]; (destruct (_ && _); [|intros [= _ _ -> _ _]; lia]); [done|]. unfold mbind_.
    destruct (it_value cat fi w) as [[fv w1]| |]; [|done|done]. destruct (it_value cat si w1) as [[sv w2]| |]; [|done|done]. destruct (_ <=? _)%Z.
    - destruct (it_value cat fi w2) as [[v w3]| |]; [|done|done]. destruct (upd tmp p v) as [t| |]; [|done|done]. destruct (it_next csize fi w3) as [[fi2 w4]| |]; [|done|done]. intros H%IH. lia.
    - destruct (it_value cat si w2) as [[v w3]| |]; [|done|done]. destruct (upd tmp p v) as [t| |]; [|done|done]. destruct (it_next csize si w3) as [[fi2 w4]| |]; [|done|done]. intros H%IH. lia.
  Qed.
  Lemma copy_loop_pos fuel i stop p tmp w p' tmp' w' : copy_loop csize cat fuel i stop p tmp w = Ok (p', tmp', w') → (p' <= p + Z.of_nat fuel)%Z.
  Proof.
    revert i p tmp w. induction fuel as [|f IH]; intros i p tmp w; cbn [copy_loop]; (destruct (_ <? _)%Z; [|intros [= -> _ _]; lia]); [done|]. unfold mbind_.
    destruct (it_value cat i w) as [[v w1]| |]; [|done|done]. destruct (upd tmp p v) as [t| |]; [|done|done]. destruct (it_next csize i w1) as [[i2 w2]| |]; [|done|done]. intros H%IH. lia.
  Qed.
  Lemma sim_merge a m e tmp w : sim (8 * Z.to_nat (it_pos e - it_pos a)) (merge csize cat cset cmp a m e tmp) (merge csz ct cs cmp a m e tmp) w.
  Proof.
    unfold merge. unfold it_position. set (k := Z.to_nat (it_pos e - it_pos a)). replace (8 * k) with (3 * k + (k + (k + (3 * k)))) by lia.
    apply sim_bind; [apply sim_merge_loop|]. intros [[[fi si] p] t1] w1 E1. apply merge_loop_pos in E1. apply sim_bind; [apply sim_copy_loop|]. intros [p2 t2] w2 E2. apply copy_loop_pos in E2. apply sim_bind; [apply sim_copy_loop|]. intros [p3 t3] w3 E3. apply copy_loop_pos in E3.
    eapply sim_mono; [apply (sim_bind (Z.to_nat p3) 0); [apply sim_write|intros; apply sim_ret]|lia].
  Qed.
  Lemma log2_up_half n m : 2 <= n → 0 < m → 2 * m <= n + 1 → S (Nat.log2_up m) <= Nat.log2_up n.
  Proof.
    intros Hn Hm H. destruct (Nat.log2_up n) as [|k] eqn:Ek. { apply Nat.log2_up_null in Ek. lia. }
    pose proof (proj2 (Nat.log2_up_le_pow2 n (S k) ltac:(lia)) ltac:(lia)) as Hp. cbn [Nat.pow] in Hp. apply le_n_S. apply Nat.log2_up_le_pow2; [done|]. lia.
  Qed.
  Lemma sim_merge_sort fuel o a e tmp w : a < e → sim (8 * ((e - a) * Nat.log2_up (e - a))) (merge_sort csize cat cset cmp fuel (MkIter o (Z.of_nat a)) (MkIter o (Z.of_nat e)) tmp) (merge_sort csz ct cs cmp fuel (MkIter o (Z.of_nat a)) (MkIter o (Z.of_nat e)) tmp) w.
  Proof.
    revert a e tmp w. induction fuel as [|f IH]; intros a e tmp w Ha; cbn [merge_sort]; unfold it_position; cbn [it_pos]; (destruct (Z.eqb_spec (Z.of_nat a + 1) (Z.of_nat e)); [eapply sim_mono; [apply sim_ret|apply Nat.le_0_l]|]). { eapply sim_mono; [apply sim_fuel|apply Nat.le_0_l]. }
    set (m := (a + e) / 2). unfold it_at. cbn [it_obj]. replace (Z.shiftr (Z.of_nat a + Z.of_nat e) 1) with (Z.of_nat m) by (rewrite Z.shiftr_div_pow2 by lia; change (2 ^ 1)%Z with 2%Z; lia).
    pose proof (log2_up_half (e - a) (m - a) ltac:(lia) ltac:(lia) ltac:(lia)) as H1. pose proof (log2_up_half (e - a) (e - m) ltac:(lia) ltac:(lia) ltac:(lia)) as H2.
    eapply sim_mono; [apply (sim_bind (8 * ((m - a) * Nat.log2_up (m - a)))); [apply IH; lia|intros t1 w1 _; apply (sim_bind (8 * ((e - m) * Nat.log2_up (e - m)))); [apply IH; lia|intros t2 w2 _; apply sim_merge]]|].
    cbn [it_pos]. replace (Z.to_nat (Z.of_nat e - Z.of_nat a)) with (e - a) by lia. set (q := Nat.log2_up (e - a)) in *. set (q1 := Nat.log2_up (m - a)) in *. set (q2 := Nat.log2_up (e - m)) in *.
    assert ((m - a) * S q1 <= (m - a) * q) by (apply Nat.mul_le_mono_l; done). assert ((e - m) * S q2 <= (e - m) * q) by (apply Nat.mul_le_mono_l; done). assert ((m - a) * q + (e - m) * q = (e - a) * q) by (rewrite <-Nat.mul_add_distr_r; f_equal; lia). lia.
  Qed.
  (** sort.go *)
  Context (o : nat) (R : W → list T → Prop) (L : ra_law csize cat cset o R) (OK : CmpOK cmp).
  Lemma sim_quick_sort fuel w l a e : R w l → a <= e <= length l → e - a <= fuel →
    sim (8 * ((e - a) * (e - a))) (quick_sort csize cat cset cmp fuel (MkIter o (Z.of_nat a)) (MkIter o (Z.of_nat e - 1))) (quick_sort csz ct cs cmp fuel (MkIter o (Z.of_nat a)) (MkIter o (Z.of_nat e - 1))) w.
  Proof using L OK.
    revert w l a e. induction fuel as [|f IH]; intros w l a e H He Hf; cbn [quick_sort]; unfold it_position; cbn [it_pos].
    { destruct (Z.leb_spec (Z.of_nat e - 1) (Z.of_nat a)); [|lia]. eapply sim_mono; [apply sim_ret|apply Nat.le_0_l]. }
    destruct (Z.leb_spec (Z.of_nat e - 1) (Z.of_nat a)); [eapply sim_mono; [apply sim_ret|apply Nat.le_0_l]|].
    replace (Z.of_nat e - 1)%Z with (Z.of_nat (e - 1)) by lia. set (b := e - 1). set (n := e - a). assert (2 <= n) as Hn by lia.
    destruct (Z.ltb_spec (Z.of_nat b - Z.of_nat a + 1) 3). { eapply sim_mono; [apply sim_swap_if|nia]. }
    unfold it_at. cbn [it_obj]. set (mid := a + (b - a + 1) / 2). replace (Z.of_nat a + Z.quot (Z.of_nat b - Z.of_nat a + 1) 2)%Z with (Z.of_nat mid) by (rewrite Z.quot_div_nonneg by lia; lia).
    replace (Z.of_nat b - 1)%Z with (Z.of_nat (b - 1)) by lia.
    pose proof (pivot_ok _ _ _ o R L cmp OK w l a b mid H ltac:(lia) ltac:(lia)) as Hpiv. apply wp_Ok in Hpiv as (u & w1 & E1 & l1 & HR1 & Hp1 & Hpv1). assert (length l1 = length l) as Hl1 by (by eapply perm_in_length).
    unfold mbind_ in E1. destruct (do_pivot cat cset cmp _ _ _ w) as [[u' w0]| |] eqn:E0; try done.
    eapply sim_mono; [apply (sim_bind 18 (4 + (8 * (n - 3) + 4 + 8 * ((n - 1) * (n - 1))))); [apply sim_pivot|]|nia]. intros u2 w0' E0'. rewrite E0 in E0'. injection E0' as <- <-.
    apply sim_bind; [apply sim_swap|]. intros u3 w1' E1'. rewrite E1 in E1'. injection E1' as <- <-. destruct (Z.eqb_spec (Z.of_nat b - Z.of_nat a + 1) 3); [eapply sim_mono; [apply sim_ret|apply Nat.le_0_l]|].
    apply sim_bind; [eapply sim_mono; [apply sim_partition|cbn [it_pos]; lia]|]. intros mz w2 E2. pose proof (wp_elim _ _ _ _ _ (partition_ok _ _ _ o R L cmp OK w1 l1 a b HR1 ltac:(lia) ltac:(lia) Hpv1) E2) as (l2 & m & x & -> & HR2 & Hm & Hp2 & _).
    assert (length l2 = length l) as Hl2 by (rewrite <-Hl1; by eapply perm_in_length).
    eapply sim_mono; [apply (sim_bind (8 * ((m - a) * (m - a))) (8 * ((e - S m) * (e - S m))))|].
    - apply (IH w2 l2 a m); [done|lia|lia].
    - intros [] w3 E3. pose proof (wp_elim _ _ _ _ _ (quick_sort_ok _ _ _ o R L cmp OK f w2 l2 a m HR2 ltac:(lia) ltac:(lia)) E3) as (l3 & HR3 & Hp3 & _). assert (length l3 = length l) as Hl3 by (rewrite <-Hl2; by eapply perm_in_length).
      apply (sim_bind 0); [apply sim_next|]. intros nx w4 E4. rewrite (next_ok _ _ _ o R L w3 l3 m HR3 ltac:(lia)) in E4. injection E4 as <- <-. replace (Z.of_nat b) with (Z.of_nat e - 1)%Z by lia. apply (IH w3 l3 (S m) e); [done|lia|lia].
    - assert ((m - a) + (e - S m) = n - 1) by lia. nia.
  Qed.
End cost.
