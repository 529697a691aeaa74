From Verif Require Import Base History BitmapModel BitmapSpec.
Open Scope N_scope.
Ltac Zify.zify_post_hook ::= Z.div_mod_to_equations.
Arguments N.shiftr : simpl never.
Arguments N.div : simpl never.
Arguments N.modulo : simpl never.
Arguments N.pow : simpl never.
Arguments N.mul : simpl never.
Arguments bit_of : simpl never.
Arguments ceil8 : simpl never.
Arguments size_for : simpl never.

Definition byte_at (l : list N) (i : N) : N := default 0 (l !! N.to_nat i).
Definition bit_at (l : list N) (p : N) : bool := N.testbit (byte_at l (p / 8)) (p mod 8).
Definition bm_wf (b : bitmap) : Prop :=
  bm_size b = N.of_nat (length (bm_data b)) * 8 ∧ bm_size b < 2 ^ 64.
Definition bm_rel (b : bitmap) (s : bm_spec) : Prop :=
  bm_wf b ∧ bs_size s = bm_size b ∧
  ∀ p, p ∈ bs_set s ↔ p < bm_size b ∧ bit_at (bm_data b) p = true.

Lemma shiftr3 p : N.shiftr p 3 = p / 8.
Proof. rewrite N.shiftr_div_pow2. done. Qed.
Lemma land7 p : N.land p 7 = p mod 8.
Proof. change 7 with (N.ones 3). rewrite N.land_ones. done. Qed.
Lemma bit_of_eq p : bit_of p = 2 ^ (p mod 8).
Proof. unfold bit_of. by rewrite N.shiftl_1_l, land7. Qed.

Lemma testbit_land_pos d k : (0 <? N.land d (2 ^ k)) = N.testbit d k.
Proof.
  destruct (N.testbit d k) eqn:E.
  - apply N.ltb_lt. assert (N.land d (2^k) ≠ 0) as H; [|lia].
    intros H. assert (N.testbit (N.land d (2^k)) k = false) as H2 by (rewrite H; apply N.bits_0).
    rewrite N.land_spec, E, N.pow2_bits_true in H2. done.
  - apply N.ltb_ge. assert (N.land d (2^k) = 0) as ->; [|lia].
    apply N.bits_inj_0. intros n. rewrite N.land_spec, N.pow2_bits_eqb.
    destruct (N.eqb_spec k n); subst; [by rewrite E|by rewrite andb_false_r].
Qed.

Lemma idx_byte l p : p / 8 < N.of_nat (length l) →
  idx l (Z.of_N (N.shiftr p 3)) = Ok (byte_at l (p / 8)).
Proof.
  intros H. rewrite shiftr3. apply idx_Ok. split; [lia|].
  destruct (lookup_lt_is_Some_2 l (N.to_nat (p / 8)) ltac:(lia)) as [x E].
  unfold byte_at. replace (Z.to_nat (Z.of_N (p / 8))) with (N.to_nat (p / 8)) by lia. rewrite E. done.
Qed.
Lemma upd_byte (l : list N) p x : p / 8 < N.of_nat (length l) →
  upd l (Z.of_N (N.shiftr p 3)) x = Ok (<[N.to_nat (p / 8) := x]> l).
Proof.
  intros H. rewrite shiftr3. rewrite upd_Ok by lia. by replace (Z.to_nat (Z.of_N (p / 8))) with (N.to_nat (p / 8)) by lia.
Qed.
Lemma byte_at_insert l i j x : i < N.of_nat (length l) →
  byte_at (<[N.to_nat i := x]> l) j = if i =? j then x else byte_at l j.
Proof.
  intros H. unfold byte_at. destruct (N.eqb_spec i j).
  - subst. rewrite list_lookup_insert by lia. done.
  - rewrite list_lookup_insert_ne by lia. done.
Qed.
Lemma divmod8 p q : p / 8 = q / 8 → p mod 8 = q mod 8 → p = q.
Proof. intros. lia. Qed.

Lemma bit_at_set l p q : p / 8 < N.of_nat (length l) →
  bit_at (<[N.to_nat (p / 8) := N.lor (byte_at l (p / 8)) (bit_of p)]> l) q = (p =? q) || bit_at l q.
Proof.
  intros H. unfold bit_at. rewrite byte_at_insert by done.
  destruct (N.eqb_spec (p / 8) (q / 8)) as [E|E].
  - rewrite N.lor_spec, bit_of_eq, N.pow2_bits_eqb, E. destruct (N.eqb_spec p q).
    + subst. rewrite N.eqb_refl. by rewrite orb_true_r.
    + destruct (N.eqb_spec (p mod 8) (q mod 8)); [exfalso; eauto using divmod8|]. by rewrite orb_false_r.
  - destruct (N.eqb_spec p q); [subst; done|done].
Qed.
Lemma bit_at_unset l p q : p / 8 < N.of_nat (length l) →
  bit_at (<[N.to_nat (p / 8) := N.land (byte_at l (p / 8)) (N.lxor 255 (bit_of p))]> l) q = negb (p =? q) && bit_at l q.
Proof.
  intros H. unfold bit_at. rewrite byte_at_insert by done.
  destruct (N.eqb_spec (p / 8) (q / 8)) as [E|E].
  - rewrite N.land_spec, N.lxor_spec, bit_of_eq, N.pow2_bits_eqb, E.
    assert (N.testbit 255 (q mod 8) = true) as ->.
    { change 255 with (N.ones 8). apply N.ones_spec_low. lia. }
    destruct (N.eqb_spec p q).
    + subst. rewrite N.eqb_refl. simpl. by rewrite andb_false_r.
    + destruct (N.eqb_spec (p mod 8) (q mod 8)); [exfalso; eauto using divmod8|]. simpl. by rewrite andb_true_r.
  - destruct (N.eqb_spec p q); [subst; done|done].
Qed.
Lemma bit_at_zeros n p : bit_at (replicate n 0) p = false.
Proof.
  unfold bit_at, byte_at. destruct (replicate n 0 !! N.to_nat (p / 8)) eqn:E.
  - apply lookup_replicate in E as [-> _]. apply N.bits_0.
  - apply N.bits_0.
Qed.
Lemma round_size_ok n : n <= 2 ^ 64 - 8 → round_size n = ceil8 n ∧ ceil8 n < 2 ^ 64 ∧ ceil8 n / 8 * 8 = ceil8 n.
Proof.
  intros H. unfold round_size, u64, ceil8.
  rewrite (N.mod_small (n + 7)) by lia. rewrite N.mod_small by lia. split_and!; lia.
Qed.

Lemma bm_new_wraps n : 2 ^ 64 - 8 < n < 2 ^ 64 → bm_Size (bm_new n) = 0.
Proof.
  intros H. unfold bm_new, bm_Size, round_size, u64. cbn [bm_size].
  assert ((n + 7) mod 2 ^ 64 = n + 7 - 2^64) as ->; [|rewrite N.mod_small; lia].
  symmetry. apply N.mod_unique with 1; lia.
Qed.

Lemma size_for_ok n : n < 2 ^ 64 → round_size n = size_for n ∧ size_for n < 2 ^ 64 ∧ size_for n / 8 * 8 = size_for n.
Proof.
  intros H. unfold size_for. destruct (N.leb_spec n (2 ^ 64 - 8)); [by apply round_size_ok|].
  assert (bm_Size (bm_new n) = 0) as E by (apply bm_new_wraps; lia). unfold bm_Size, bm_new in E. cbn [bm_size] in E.
  split_and!; [done|lia|done].
Qed.

Lemma bm_new_rel n : n < 2 ^ 64 → bm_rel (bm_new n) (MkBS (size_for n) ∅).
Proof.
  intros H. destruct (size_for_ok n H) as (E1 & E2 & E3). unfold bm_new. rewrite E1. split_and!; simpl.
  - split; simpl; [|done]. rewrite replicate_length. lia.
  - done.
  - intros p. rewrite bit_at_zeros. set_solver.
Qed.

Lemma bm_step_agrees o b s : bm_good o → bm_rel b s → agrees bm_rel (bm_step o b) (bm_spec_step o s).
Proof.
  intros Hg Hrel. pose proof Hrel as ([Hwf Hlt] & Hsz & Hbits). unfold agrees. destruct o as [p|p|p| |n| |]; simpl.
  - unfold bm_set. rewrite Hsz. destruct (N.leb_spec (bm_size b) p); simpl.
    + rewrite bool_decide_eq_false_2 by lia. eauto.
    + rewrite bool_decide_eq_true_2 by lia.
      assert (p / 8 < N.of_nat (length (bm_data b))) by lia.
      rewrite idx_byte by done. rewrite upd_byte by done. eexists. split; [done|].
      split_and!; [split; simpl; [by rewrite insert_length|done]|done|].
      intros q. cbn [bm_data bm_size bs_set]. rewrite bit_at_set by done.
      rewrite elem_of_union, elem_of_singleton, Hbits.
      destruct (N.eqb_spec p q); simpl; naive_solver lia.
  - unfold bm_unset. rewrite Hsz. destruct (N.leb_spec (bm_size b) p); simpl.
    + rewrite bool_decide_eq_false_2 by lia. eauto.
    + rewrite bool_decide_eq_true_2 by lia.
      assert (p / 8 < N.of_nat (length (bm_data b))) by lia.
      rewrite idx_byte by done. rewrite upd_byte by done. eexists. split; [done|].
      split_and!; [split; simpl; [by rewrite insert_length|done]|done|].
      intros q. cbn [bm_data bm_size bs_set]. rewrite bit_at_unset by done.
      rewrite elem_of_difference, elem_of_singleton, Hbits.
      destruct (N.eqb_spec p q); simpl; naive_solver lia.
  - unfold bm_isset. destruct (N.leb_spec (bm_size b) p); simpl.
    + exists b. split; [|done]. do 3 f_equal. symmetry. apply bool_decide_eq_false_2.
      rewrite Hbits. lia.
    + assert (p / 8 < N.of_nat (length (bm_data b))) by lia.
      rewrite idx_byte by done. exists b. split; [|done]. do 3 f_equal.
      rewrite bit_of_eq, testbit_land_pos. fold (bit_at (bm_data b) p).
      destruct (bit_at (bm_data b) p) eqn:E.
      * symmetry. apply bool_decide_eq_true_2. apply Hbits. done.
      * symmetry. apply bool_decide_eq_false_2. rewrite Hbits. rewrite E. intros [_ ?]; done.
  - eexists. split; [done|]. split_and!; simpl.
    + split; simpl; [|done]. rewrite replicate_length. lia.
    + done.
    + intros p. rewrite bit_at_zeros. set_solver.
  - eexists. split; [done|]. simpl in Hg. destruct (size_for_ok n Hg) as (E1 & E2 & E3).
    unfold bm_resize. rewrite E1. destruct (N.eqb_spec (bm_size b) (size_for n)) as [E|E].
    + split_and!; simpl; [done|done|]. intros p. rewrite elem_of_filter, Hbits. rewrite <-E. tauto.
    + rewrite replicate_length. set (m := N.to_nat (size_for n / 8)).
      assert (length (take (m `min` length (bm_data b)) (bm_data b)) = m `min` length (bm_data b))%nat as Hl.
      { rewrite take_length. lia. }
      split_and!; simpl.
      * split; simpl; [|done]. rewrite app_length, drop_length, replicate_length, Hl. lia.
      * done.
      * intros p. rewrite elem_of_filter, Hbits. unfold bit_at, byte_at.
        destruct (decide (N.to_nat (p / 8) < m `min` length (bm_data b))%nat) as [H|H].
        -- rewrite lookup_app_l by lia. rewrite lookup_take by done. naive_solver lia.
        -- split; [intros [H1 [H2 H3]]|intros [H1 H2]].
           ++ exfalso. lia.
           ++ exfalso. rewrite lookup_app_r in H2 by lia. rewrite lookup_drop in H2.
              destruct (replicate m 0 !! _) eqn:X.
              ** apply lookup_replicate in X as [-> _]. change (N.testbit 0 (p mod 8) = true) in H2. by rewrite N.bits_0 in H2.
              ** change (N.testbit 0 (p mod 8) = true) in H2. by rewrite N.bits_0 in H2.
  - eexists. split; [|done]. unfold bm_Size. by rewrite Hsz.
  - eexists. split; [done|]. unfold bm_from_data, bm_Data. split_and!; simpl.
    + split; simpl; unfold u64; rewrite N.mod_small by lia; lia.
    + unfold u64. rewrite N.mod_small by lia. lia.
    + unfold u64. rewrite N.mod_small by lia. rewrite <-Hwf. done.
Qed.

Theorem bm_history n ops : n < 2 ^ 64 → Forall bm_good ops →
  ∃ rs b s, run bm_step ops (bm_new n) = Ok (rs, b) ∧
            srun bm_spec_step ops (MkBS (size_for n) ∅) = Some (rs, s) ∧ bm_rel b s.
Proof.
  intros Hn Hg. pose proof (run_agrees bm_step bm_spec_step bm_rel bm_good (fun o b s => bm_step_agrees o b s)
    ops _ _ Hg (bm_new_rel n Hn)) as H.
  unfold agrees in H. destruct (srun _ _ _) as [[rs s]|] eqn:E.
  - destruct H as (b & ? & ?). eauto 10.
  - exfalso. clear -E. revert E. generalize (MkBS (size_for n) ∅). induction ops as [|o ops IH]; intros s E; [done|].
    cbn in E. destruct (bm_spec_step o s) as [[r s']|] eqn:X; [|by destruct o].
    destruct (srun bm_spec_step ops s') as [[? ?]|] eqn:Y; [done|]. eauto.
Qed.

Lemma bm_isset_rel b s p : bm_rel b s → bm_isset p b = Ok (bool_decide (p ∈ bs_set s)).
Proof.
  intros H. pose proof (bm_step_agrees (BIsSet p) b s I H) as (b' & E & _). simpl in E.
  destruct (bm_isset p b); naive_solver.
Qed.

(** least multiple of 8 *)
Lemma ceil8_least n : (∃ k, ceil8 n = 8 * k) ∧ n <= ceil8 n ∧ ∀ k, n <= 8 * k → ceil8 n <= 8 * k.
Proof. unfold ceil8. split_and!; [exists ((n + 7) / 8); lia|lia|intros; lia]. Qed.

Lemma bm_reach n ops rs b : n < 2 ^ 64 → Forall bm_good ops →
  run bm_step ops (bm_new n) = Ok (rs, b) → ∃ s, bm_rel b s.
Proof. intros H1 H2 H3. destruct (bm_history n ops H1 H2) as (rs' & b' & s & E & _ & R). rewrite E in H3. simplify_eq. eauto. Qed.

Lemma bm_one_position n ops rs b p q : n < 2 ^ 64 → Forall bm_good ops →
  run bm_step ops (bm_new n) = Ok (rs, b) →
  (∃ b', bm_set p b = Ok (bool_decide (p < bm_Size b), b') ∧ bm_Size b' = bm_Size b ∧
     (p < bm_Size b → bm_isset p b' = Ok true) ∧ (q ≠ p → bm_isset q b' = bm_isset q b) ∧
     (bm_Size b <= p → b' = b)) ∧
  (∃ b', bm_unset p b = Ok (bool_decide (p < bm_Size b), b') ∧ bm_Size b' = bm_Size b ∧
     bm_isset p b' = Ok false ∧ (q ≠ p → bm_isset q b' = bm_isset q b) ∧
     (bm_Size b <= p → b' = b)).
Proof.
  intros H1 H2 H3. destruct (bm_reach _ _ _ _ H1 H2 H3) as [s R].
  pose proof R as (_ & Hsz & _). unfold bm_Size. split.
  - pose proof (bm_step_agrees (BSet p) b s I R) as (b' & E & R'). simpl in E.
    destruct (bm_set p b) as [[r b'']| |] eqn:X; try done. simplify_eq. rewrite Hsz in *.
    exists b'. split_and!; [done| | | |].
    + destruct R' as (_ & E & _). rewrite <-E. case_bool_decide; [done|lia].
    + intros L. rewrite (bm_isset_rel _ _ p R'). 
      f_equal. apply bool_decide_eq_true_2. case_bool_decide; [set_solver|lia].
    + intros N. rewrite (bm_isset_rel _ _ q R'), (bm_isset_rel _ _ q R). f_equal. apply bool_decide_ext.
      case_bool_decide; [set_solver|done].
    + intros L. unfold bm_set in X. destruct (N.leb_spec (bm_size b) p); [|lia]. by simplify_eq.
  - pose proof (bm_step_agrees (BUnset p) b s I R) as (b' & E & R'). simpl in E.
    destruct (bm_unset p b) as [[r b'']| |] eqn:X; try done. simplify_eq. rewrite Hsz in *.
    exists b'. split_and!; [done| | | |].
    + destruct R' as (_ & E & _). rewrite <-E. case_bool_decide; [done|lia].
    + rewrite (bm_isset_rel _ _ p R'). f_equal. apply bool_decide_eq_false_2. case_bool_decide; [set_solver|].
      destruct R as (_ & _ & R). rewrite R. lia.
    + intros N. rewrite (bm_isset_rel _ _ q R'), (bm_isset_rel _ _ q R). f_equal. apply bool_decide_ext.
      case_bool_decide; [set_solver|done].
    + intros L. unfold bm_unset in X. destruct (N.leb_spec (bm_size b) p); [|lia]. by simplify_eq.
Qed.

Lemma bm_resize_pres n ops rs b m p : n < 2 ^ 64 → Forall bm_good ops → m < 2 ^ 64 →
  run bm_step ops (bm_new n) = Ok (rs, b) →
  bm_Size (bm_resize m b) = size_for m ∧
  bm_isset p (bm_resize m b) = (if p <? size_for m then bm_isset p b else Ok false).
Proof.
  intros H1 H2 Hm H3. destruct (bm_reach _ _ _ _ H1 H2 H3) as [s R].
  pose proof (bm_step_agrees (BResize m) b s Hm R) as (b' & E & R'). simpl in E. simplify_eq. split.
  - destruct R' as (_ & E & _). unfold bm_Size; by rewrite <-E.
  - rewrite (bm_isset_rel _ _ p R'). rewrite (bm_isset_rel _ _ p R). simpl.
    destruct (N.ltb_spec p (size_for m)); f_equal.
    + apply bool_decide_ext. rewrite elem_of_filter. tauto.
    + apply bool_decide_eq_false_2. rewrite elem_of_filter. intros [? _]. lia.
Qed.

Lemma bm_data_round n ops rs b p : n < 2 ^ 64 → Forall bm_good ops →
  run bm_step ops (bm_new n) = Ok (rs, b) →
  bm_Size (bm_from_data (bm_Data b)) = bm_Size b ∧ bm_isset p (bm_from_data (bm_Data b)) = bm_isset p b.
Proof.
  intros H1 H2 H3. destruct (bm_reach _ _ _ _ H1 H2 H3) as [s R].
  pose proof (bm_step_agrees BReload b s I R) as (b' & E & R'). simpl in E. simplify_eq. split.
  - destruct R as (_ & E & _), R' as (_ & E' & _). unfold bm_Size. congruence.
  - by rewrite (bm_isset_rel _ _ p R'), (bm_isset_rel _ _ p R).
Qed.
