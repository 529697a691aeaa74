(** Property C97: NewWithEstimates and the error rate it was asked for. *)
From Coq Require Import Reals Lra.
From Verif Require Import Base History BitmapModel BloomModel BloomSpec BloomProofs BloomProps BloomRateSpec BloomRateProps EstimateModel EstimateSpec EstimateProofs.
Local Open Scope R_scope.

Section real.
  (** For 0 < p < 1 and n > 0: m is the least number of bits for which the textbook rate
      2^-(ln 2 * m/n) of the best (real) number of hash functions is at most p; k is that number of hash functions
      rounded up; neither is 0 *)
  Theorem estimate_partial n p : (0 < n)%N → 0 < p < 1 →
    let m := (estimate n p).1 in let k := (estimate n p).2 in let N2R x := IZR (Z.of_N x) in
    (0 < m)%N ∧ (0 < k)%N ∧
    exp (- ln 2 * (ln 2 * N2R m / N2R n)) <= p ∧
    (∀ m', (m' < m)%N → p < exp (- ln 2 * (ln 2 * N2R m' / N2R n))) ∧
    ln 2 * N2R m / N2R n <= N2R k < ln 2 * N2R m / N2R n + 1.
  Proof.
    intros Hn [Hp Hp1] m k N2R. pose proof ln2_gt as L1. assert (0 < ln 2 * ln 2) as Hc by (apply Rmult_lt_0_compat; lra).
    assert (Hl : ln p < 0). { rewrite <-ln_1. by apply ln_increasing. }
    assert (HN : 0 < N2R n) by (unfold N2R; apply (IZR_lt 0); lia).
    set (x := -1 * IZR (Z.of_N n) * ln p / (ln 2 * ln 2)) in *.
    assert (Hx : 0 < x). { unfold x. apply Rdiv_lt_0_compat; [|done]. fold (N2R n). nra. }
    assert (Hxe : ln 2 * (ln 2 * x / N2R n) = - ln p). { unfold x. fold (N2R n). field. lra. }
    pose proof (ceil_pos x Hx) as Hm0. destruct (ceil_spec x) as [Hm1 Hm2].
    assert (Em : N2R m = IZR (ceil x)). { unfold N2R, m. cbn [estimate fst]. unfold est_m. fold x. rewrite Z2N.id; [done|lia]. }
    assert (Hm : (0 < m)%N). { unfold m. cbn [estimate fst]. unfold est_m. fold x. lia. }
    set (y := ln 2 * IZR (Z.of_N m) / IZR (Z.of_N n)) in *.
    assert (Hy : 0 < y). { unfold y. apply Rdiv_lt_0_compat; [|done]. apply Rmult_lt_0_compat; [lra|]. apply (IZR_lt 0). lia. }
    pose proof (ceil_pos y Hy) as Hk0. destruct (ceil_spec y) as [Hk1 Hk2].
    assert (Ek : N2R k = IZR (ceil y)). { change (IZR (Z.of_N (Z.to_N (ceil y))) = IZR (ceil y)). rewrite Z2N.id; [done|]. clear -Hk0. lia. }
    assert (Hmono : ∀ a b, a <= b → ln 2 * (ln 2 * a / N2R n) <= ln 2 * (ln 2 * b / N2R n)).
    { intros a b Hab. apply Rmult_le_compat_l; [lra|]. unfold Rdiv. apply Rmult_le_compat_r; [left; by apply Rinv_0_lt_compat|]. apply Rmult_le_compat_l; lra. }
    split_and!.
    - done.
    - change (0 < Z.to_N (ceil y))%N. clear -Hk0. lia.
    - rewrite <-(exp_ln p) by done. rewrite Em, Ropp_mult_distr_l_reverse. pose proof (Hmono x (IZR (ceil x)) Hm2). destruct (Rle_lt_or_eq_dec (- (ln 2 * (ln 2 * IZR (ceil x) / N2R n))) (ln p)) as [H1|H1]; [clear -H Hxe; lra| |].
      + left. by apply exp_increasing.
      + right. by rewrite H1.
    - intros m' Hm'. rewrite <-(exp_ln p) at 1 by done. rewrite Ropp_mult_distr_l_reverse. apply exp_increasing.
      assert (N2R m' < x). { assert (N2R m' <= IZR (ceil x) - 1); [|lra]. rewrite <-Em. unfold N2R. rewrite <-minus_IZR. apply IZR_le. lia. }
      assert (ln 2 * (ln 2 * N2R m' / N2R n) < ln 2 * (ln 2 * x / N2R n)); [|lra].
      apply Rmult_lt_compat_l; [lra|]. unfold Rdiv. apply Rmult_lt_compat_r; [by apply Rinv_0_lt_compat|]. apply Rmult_lt_compat_l; lra.
    - rewrite Ek. fold (N2R m) (N2R n) in y. fold y. lra.
    - rewrite Ek. fold (N2R m) (N2R n) in y. fold y. lra.
  Qed.
  Lemma estimate_half : estimate 2 (1 / 2) = (3, 2)%N.
  Proof.
    pose proof ln2_gt as L1. pose proof ln2_lt as L2. assert (E : ln (1 / 2) = - ln 2). { unfold Rdiv. rewrite Rmult_1_l. apply ln_Rinv. lra. }
    assert (Hx : -1 * IZR (Z.of_N 2) * ln (1 / 2) / (ln 2 * ln 2) = 2 / ln 2). { rewrite E. cbn. field. lra. }
    assert (Em : est_m 2 (1 / 2) = 3%N).
    { unfold est_m. rewrite Hx, (ceil_is _ 3); [done|]. assert (Hi : / ln 2 * ln 2 = 1) by (apply Rinv_l; lra). unfold Rdiv. pose proof (Rinv_0_lt_compat (ln 2) ltac:(lra)). split; nra. }
    unfold estimate. rewrite Em. f_equal. unfold est_k. rewrite (ceil_is _ 2); [done|]. cbn. split; lra.
  Qed.
  Lemma estimate_small : let mk := estimate 1 (/ 2 ^ 72) in (0 < mk.1 <= 108)%N ∧ (mk.2 <= 108)%N.
  Proof.
    pose proof ln2_gt as L1. pose proof ln2_lt as L2. assert (E : ln (/ 2 ^ 72) = - (72 * ln 2)). { rewrite ln_Rinv by (apply pow_lt; lra). rewrite ln_pow by lra. f_equal. f_equal. simpl. lra. }
    assert (Hx : -1 * IZR (Z.of_N 1) * ln (/ 2 ^ 72) / (ln 2 * ln 2) = 72 / ln 2). { rewrite E. cbn. field. lra. }
    assert (Hi : / ln 2 * ln 2 = 1) by (apply Rinv_l; lra). pose proof (Rinv_0_lt_compat (ln 2) ltac:(lra)) as Hp.
    assert (Hm : (0 < est_m 1 (/ 2 ^ 72) <= 108)%N).
    { unfold est_m. rewrite Hx. assert (0 < ceil (72 / ln 2))%Z by (apply ceil_pos; unfold Rdiv; nra). assert (ceil (72 / ln 2) <= 108)%Z; [|lia]. apply ceil_le. unfold Rdiv. nra. }
    cbn [estimate fst snd]. split; [done|]. unfold est_k. assert (ceil (ln 2 * IZR (Z.of_N (est_m 1 (/ 2 ^ 72))) / IZR (Z.of_N 1)) <= 108)%Z; [|lia].
    apply ceil_le. assert (IZR (Z.of_N (est_m 1 (/ 2 ^ 72))) <= 108) by (apply IZR_le; lia). assert (0 <= IZR (Z.of_N (est_m 1 (/ 2 ^ 72)))) by (apply IZR_le; lia). change (IZR (Z.of_N 1)) with 1. unfold Rdiv. rewrite Rinv_1, Rmult_1_r. nra.
  Qed.
End real.

(** The error rate is not kept. For two values and rate 1/2 the filter gets 3 bits and 2 hash functions (see
    [estimate_half]); a third value is reported for 495 of the 729 combinations of positions. *)
Theorem estimates_half_refuted h : (∀ d, length (h d) = 64%nat) → ¬ tolerates h (bf_with_estimates 2 (1 / 2)) 2 (1 / 2).
Proof.
  intros Hh HT. unfold bf_with_estimates in HT. rewrite estimate_half in HT. cbn [fst snd] in HT. destruct half_spec as (L1 & L2 & L3). generalize dependent half. intros L L1 L2 L3.
  specialize (HT [0%N] [[1%N]; [2%N]] L eq_refl ltac:(apply (bool_decide_unpack _); by vm_compute) L2). assert (HN : NoDup [[0%N]; [1%N]; [2%N]]) by (apply (bool_decide_unpack _); by vm_compute).
  assert (IZR (Z.of_nat (length L)) <= 1 / 2 * IZR (2 ^ (512 * Z.of_nat 3))) as H.
  { apply HT. clear HT L1 L2. intros ds Hds. destruct (L3 ds Hds) as (pat & Hh' & HF). pose proof (Forall2_length _ _ _ HF) as Hlen.
    destruct pat as [|[q1 q2] [|[a1 a2] [|[b1 b2] [|]]]]; try done. destruct ds as [|dv [|da [|db [|]]]]; try done. apply Forall2_cons_1 in HF as [(Dv & xv & yv & Xv & Yv & Rv1 & Rv2) HF]. apply Forall2_cons_1 in HF as [(Da & xa & ya & Xa & Ya & Ra1 & Ra2) HF]. apply Forall2_cons_1 in HF as [(Db & xb & yb & Xb & Yb & Rb1 & Rb2) _]. cbn in Rv1, Rv2, Ra1, Ra2, Rb1, Rb2.
    assert (HD : Forall digest [dv; da; db]) by (repeat constructor; first [apply Dv | apply Da | apply Db]).
    split; [done|]. split; [done|]. apply reports_covered; [by apply with_digests_length|lia|lia|].
    set (g := with_digests h [[0%N]; [1%N]; [2%N]] [dv; da; db]).
    assert (Gv : g (salt ++ [0%N]) = dv) by (by apply (with_digests_at h _ _ 0)). assert (Ga : g (salt ++ [1%N]) = da) by (by apply (with_digests_at h _ _ 1)). assert (Gb : g (salt ++ [2%N]) = db) by (by apply (with_digests_at h _ _ 2)).
    assert (Hpr : ∀ v d x y, g (salt ++ v) = d → words 8 d !! 0%nat = Some x → words 8 d !! 1%nat = Some y → probe g 3 v 0 = (x mod 3)%N ∧ probe g 3 v 1 = (y mod 3)%N).
    { intros v d x y E E0 E1. destruct (probe_word g 3 v 0) as (u & Hu & ->); [lia|]. destruct (probe_word g 3 v 1) as (w & Hw & ->); [lia|]. rewrite E in Hu, Hw. split; congruence. }
    destruct (Hpr _ _ _ _ Gv Xv Yv) as [V0 V1]. destruct (Hpr _ _ _ _ Ga Xa Ya) as [A0 A1]. destruct (Hpr _ _ _ _ Gb Xb Yb) as [B0 B1]. rewrite Rv1 in V0. rewrite Rv2 in V1. rewrite Ra1 in A0. rewrite Ra2 in A1. rewrite Rb1 in B0. rewrite Rb2 in B1.
    cbn [hit] in Hh'. apply andb_true_iff in Hh' as [Q1 Q2]. apply bool_decide_eq_true in Q1. apply bool_decide_eq_true in Q2.
    assert (Hq : ∀ q, q ∈ [a1; a2; b1; b2] → ∃ w j, w ∈ [[1%N]; [2%N]] ∧ (j < N.to_nat 2)%nat ∧ probe g 3 w j = q).
    { intros q Hq. rewrite !elem_of_cons, elem_of_nil in Hq. destruct Hq as [E|[E|[E|[E|[]]]]]; subst q.
      - exists [1%N], 0%nat. split_and!; [rewrite !elem_of_cons; tauto|lia|assumption].
      - exists [1%N], 1%nat. split_and!; [rewrite !elem_of_cons; tauto|lia|assumption].
      - exists [2%N], 0%nat. split_and!; [rewrite !elem_of_cons; tauto|lia|assumption].
      - exists [2%N], 1%nat. split_and!; [rewrite !elem_of_cons; tauto|lia|assumption]. }
    intros i Hi. destruct i as [|[|i]]; [rewrite V0; by apply Hq|rewrite V1; by apply Hq|lia]. }
  rewrite <-nat_N_Z, L1 in H. assert (2 * IZR (Z.of_N (495 * (c3 * c3 * (2 ^ 64) ^ 6) ^ 3)) <= IZR (2 ^ (512 * Z.of_nat 3))) as H' by lra. rewrite <-mult_IZR in H'. apply le_IZR in H'. revert H'. apply Zlt_not_le. apply Z.ltb_lt. by vm_compute.
Qed.

(** Nor is it within any constant factor: only the 8 words of one digest are used as positions, so that a rate of
    2^-72 for one value is missed by far (it is above 2^-57): the digests of the queried value whose words all fall on the first position
    of the added one are more than that many. *)
Theorem estimates_small_refuted h : (∀ d, length (h d) = 64%nat) → ¬ tolerates h (bf_with_estimates 1 (/ 2 ^ 72)) 1 (/ 2 ^ 57).
Proof.
  intros Hh HT. unfold bf_with_estimates in HT. destruct estimate_small as [Hm Hk]. destruct (estimate 1 (/ 2 ^ 72)) as [m k]. cbn [fst snd] in *. set (c := (2 ^ 57)%N).
  assert (Hc : (m * c <= 2 ^ 64)%N) by (unfold c; lia). destruct (small_spec m c ltac:(lia) Hc) as (L1 & L2 & L3). generalize dependent (small m c). intros L L1 L2 L3.
  assert (HN : NoDup [[0%N]; [1%N]]) by (apply (bool_decide_unpack _); by vm_compute). specialize (HT [0%N] [[1%N]] L eq_refl HN L2).
  assert (IZR (Z.of_nat (length L)) <= / 2 ^ 57 * IZR (2 ^ (512 * Z.of_nat 2))) as H.
  { apply HT. clear HT L1 L2. intros ds Hds. destruct (L3 ds Hds) as (dv & da & -> & Da & Dv & Hw). assert (HD : Forall digest [dv; da]) by (repeat constructor; first [apply Dv | apply Da]).
    split; [done|]. split; [done|]. apply reports_covered; [by apply with_digests_length|lia|lia|]. set (g := with_digests h [[0%N]; [1%N]] [dv; da]).
    assert (Gv : g (salt ++ [0%N]) = dv) by (by apply (with_digests_at h _ _ 0)). assert (Ga : g (salt ++ [1%N]) = da) by (by apply (with_digests_at h _ _ 1)).
    intros i Hi. exists [1%N], 0%nat. split_and!; [set_solver|lia|]. destruct (probe_word g m [1%N] 0) as (u & Hu & ->); [lia|]. destruct (probe_word_mod g m [0%N] i) as (w & Hw' & ->). rewrite Ga in Hu. rewrite Gv in Hw'. rewrite (Hw _ _ Hw'). unfold w0. by rewrite Hu. }
  rewrite <-nat_N_Z, L1 in H. assert (0 < 2 ^ 57) as Hp by (apply pow_lt; lra). apply (Rmult_le_compat_l (2 ^ 57)) in H; [|lra]. rewrite <-Rmult_assoc, Rinv_r, Rmult_1_l in H by lra. rewrite (pow_IZR 2 57), <-mult_IZR in H. subst c. apply le_IZR in H. revert H. apply Zlt_not_le. apply Z.ltb_lt. by vm_compute.
Qed.
(** non-vacuity: a digest function as assumed exists; the estimate of [estimate_partial] for a concrete case *)
Example estimates_demo : (∀ d : list BinNums.N, length ((λ _, replicate 64 0%N) d) = 64%nat) ∧ (0 < 2)%N ∧ 0 < 1 / 2 < 1 ∧ estimate 2 (1 / 2) = (3, 2)%N.
Proof. split; [done|]. split; [done|]. split; [lra|apply estimate_half]. Qed.
Print Assumptions estimate_partial.
Print Assumptions estimates_half_refuted.
Print Assumptions estimates_small_refuted.
