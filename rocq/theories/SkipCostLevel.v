(** How many 64-bit words give a tower of which height. *)
From Verif Require Import Base SkipModel SkipProofs SkipCostSpec SkipCostAvg.
Open Scope Z_scope.

Notation ind P := (if decide P then 1 else 0).
Lemma sum_ind n a : sum_below n (λ v, ind (a = v)) = ind (0 <= a < Z.of_nat n).
Proof.
  induction n as [|n IH]; cbn [sum_below]; [by rewrite decide_False by lia|]. rewrite IH. repeat case_decide; lia.
Qed.
Section residues.
  Context (T : Z) (HT : 0 < T).
  (** the words below M with residue r *)
  Definition cnt (M : nat) (r : Z) : Z := sum_below M (λ w, ind (w mod T = r)).
  Lemma div_step x : (x + 1) / T = x / T + ind ((x + 1) mod T = 0).
  Proof using HT.
    pose proof (Z.div_mod x T ltac:(lia)) as E. pose proof (Z.mod_pos_bound x T HT) as Hb.
    destruct (decide (x mod T = T - 1)) as [H|H].
    - assert (x + 1 = T * (x / T + 1) + 0) as E1 by lia. rewrite decide_True by (symmetry; apply (Z.mod_unique (x + 1) T (x / T + 1) 0); [left; lia|exact E1]). symmetry. apply (Z.div_unique (x + 1) T (x / T + 1) 0); [left; lia|exact E1].
    - assert (x + 1 = T * (x / T) + (x mod T + 1)) as E1 by lia. assert ((x + 1) mod T = x mod T + 1) as -> by (symmetry; apply (Z.mod_unique (x + 1) T (x / T) (x mod T + 1)); [left; lia|exact E1]). rewrite decide_False by lia.
      rewrite Z.add_0_r. symmetry. apply (Z.div_unique (x + 1) T (x / T) (x mod T + 1)); [left; lia|exact E1].
  Qed.
  Lemma cnt_eq (M : nat) r : 0 <= r < T → cnt M r = (Z.of_nat M + T - 1 - r) / T.
  Proof using HT.
    intros Hr. unfold cnt. induction M as [|M IH]; cbn [sum_below].
    - symmetry. apply Z.div_small. lia.
    - rewrite IH. replace (Z.of_nat (S M) + T - 1 - r) with (Z.of_nat M + T - 1 - r + 1) by lia. rewrite div_step. f_equal.
      assert (Z.of_nat M mod T = r ↔ (Z.of_nat M + T - 1 - r + 1) mod T = 0) as Hiff.
      { replace (Z.of_nat M + T - 1 - r + 1) with (Z.of_nat M - r + 1 * T) by lia. rewrite Z.mod_add by lia. rewrite Zminus_mod, (Z.mod_small r) by lia.
        pose proof (Z.mod_pos_bound (Z.of_nat M) T HT) as Hb. split; [intros ->; by rewrite Z.sub_diag, Zmod_0_l|]. intros H. apply Z.mod_divide in H; [|lia]. destruct H as [c Hc]. assert (c = 0) by nia. lia. }
      destruct (decide (Z.of_nat M mod T = r)) as [H|H]; [rewrite decide_True by tauto|rewrite decide_False by tauto]; done.
  Qed.
  Lemma cnt_mono (M : nat) r r' : 0 <= r <= r' → r' < T → cnt M r' <= cnt M r.
  Proof using HT. intros H1 H2. rewrite !cnt_eq by lia. apply Z.div_le_mono; lia. Qed.
  Lemma cnt_range (M : nat) (lo : Z) (n : nat) : 0 <= lo → lo + Z.of_nat n <= T →
    sum_below M (λ w, ind (lo <= w mod T < lo + Z.of_nat n)) = sum_below n (λ v, cnt M (lo + v)).
  Proof using HT.
    intros H1 H2. unfold cnt. rewrite <-sum_swap. apply sum_ext. intros w Hw. rewrite (sum_ext n _ (λ v, ind (w mod T - lo = v))).
    - rewrite sum_ind. repeat case_decide; lia.
    - intros v _. repeat case_decide; lia.
  Qed.
  (** small residues are at least as frequent as large ones *)
  Lemma cnt_ratio (M a b : nat) : Z.of_nat a + Z.of_nat b <= T →
    sum_below M (λ w, ind (Z.of_nat a <= w mod T < Z.of_nat a + Z.of_nat b)) * Z.of_nat a <= sum_below M (λ w, ind (w mod T < Z.of_nat a)) * Z.of_nat b.
  Proof using HT.
    intros H. rewrite cnt_range by lia.
    rewrite (sum_ext M (λ w, ind (w mod T < Z.of_nat a)) (λ w, ind (0 <= w mod T < 0 + Z.of_nat a))).
    2:{ intros w _. pose proof (Z.mod_pos_bound w T HT). repeat case_decide; lia. }
    rewrite cnt_range by lia.
    destruct b as [|b]; [cbn [sum_below]; lia|].
    assert (sum_below (S b) (λ v, cnt M (Z.of_nat a + v)) <= Z.of_nat (S b) * cnt M (Z.of_nat a)) as H1.
    { rewrite <-sum_const. apply sum_le. intros v Hv. apply cnt_mono; lia. }
    assert (Z.of_nat a * cnt M (Z.of_nat a) <= sum_below a (λ v, cnt M (0 + v))) as H2.
    { rewrite <-sum_const. apply sum_le. intros v Hv. apply cnt_mono; lia. }
    generalize dependent (cnt M (Z.of_nat a)). generalize (sum_below (S b) (λ v, cnt M (Z.of_nat a + v))) (sum_below a (λ v, cnt M (0 + v))). intros x y c. clear. intros H1 H2. nia.
  Qed.
End residues.

(** the height a word gives *)
Definition lev (max : Z) (w : Z) : nat := match randomLevel 64 max w with Ok l => Z.to_nat l | _ => 0%nat end.
Lemma lev_bound max w : 1 <= max <= 64 → 0 <= w → (1 <= lev max w <= Z.to_nat max)%nat.
Proof. intros Hm Hw. unfold lev. destruct (randomLevel_ok max w Hm Hw) as (l & -> & Hl & _). lia. Qed.
Lemma lev_gt max w (h : nat) : 1 <= max <= 64 → 0 <= w → (h <= Z.to_nat max)%nat → (h < lev max w)%nat ↔ w mod (2 ^ max - 1) < 2 ^ (max - Z.of_nat h) - 1.
Proof.
  intros Hm Hw Hh. unfold lev. destruct (randomLevel_ok max w Hm Hw) as (l & -> & Hl & H1 & H2). split; intros H.
  - assert (2 ^ (max - l + 1) <= 2 ^ (max - Z.of_nat h)) by (apply Z.pow_le_mono_r; lia). lia.
  - destruct (decide (h < Z.to_nat l)%nat) as [?|Hn]; [done|]. assert (2 ^ (max - Z.of_nat h) <= 2 ^ (max - l)) by (apply Z.pow_le_mono_r; lia). lia.
Qed.
Lemma lev_eq max w (h : nat) : 1 <= max <= 64 → 0 <= w → (1 <= h <= Z.to_nat max)%nat → lev max w = h ↔ 2 ^ (max - Z.of_nat h) - 1 <= w mod (2 ^ max - 1) < 2 ^ (max - Z.of_nat h + 1) - 1.
Proof.
  intros Hm Hw Hh. pose proof (lev_gt max w h Hm Hw ltac:(lia)) as E1. pose proof (lev_gt max w (h - 1) Hm Hw ltac:(lia)) as E2.
  replace (max - Z.of_nat (h - 1)) with (max - Z.of_nat h + 1) in E2 by lia. lia.
Qed.
Section words.
  Context (D : nat) (max : Z) (Hm : 1 <= max <= 64).
  Lemma pow_T : 0 < 2 ^ max - 1.
  Proof using Hm. assert (2 ^ 1 <= 2 ^ max) by (apply Z.pow_le_mono_r; lia). lia. Qed.
  (** the ratio of the words that give h to those that give more is at most 2^m / (2^m - 1), m = max - h *)
  Lemma words_ratio (h : nat) : (1 <= h < Z.to_nat max)%nat →
    eq_words D (lev max) h * (2 ^ (max - Z.of_nat h) - 1) <= gt_words D (lev max) h * 2 ^ (max - Z.of_nat h).
  Proof using Hm.
    intros Hh. set (m := max - Z.of_nat h). assert (0 < 2 ^ m) as Hpos by (apply Z.pow_pos_nonneg; unfold m; lia).
    assert (2 ^ (m + 1) = 2 * 2 ^ m) as Hdbl by (rewrite Z.pow_add_r by (unfold m; lia); lia).
    assert (2 ^ (m + 1) <= 2 ^ max) as Hle by (apply Z.pow_le_mono_r; unfold m; lia).
    pose proof (cnt_ratio (2 ^ max - 1) pow_T D (Z.to_nat (2 ^ m - 1)) (Z.to_nat (2 ^ m))) as H. rewrite !Z2Nat.id in H by lia. specialize (H ltac:(lia)).
    unfold eq_words, gt_words. etransitivity; [|etransitivity; [exact H|]]; apply Z.eq_le_incl; f_equal; apply sum_ext; intros w Hw.
    - pose proof (lev_eq max w h Hm ltac:(lia) ltac:(lia)) as E. fold m in E. repeat case_decide; try done; exfalso; lia.
    - pose proof (lev_gt max w h Hm ltac:(lia) ltac:(lia)) as E. fold m in E. repeat case_decide; try done; exfalso; lia.
  Qed.
  Lemma gt_words_pos (h : nat) : (0 < D)%nat → (h < Z.to_nat max)%nat → 0 < gt_words D (lev max) h.
  Proof using Hm.
    intros HD Hh. assert (sum_below D (λ w, ind (0 = w)) <= gt_words D (lev max) h) as H.
    { unfold gt_words. apply sum_le. intros w Hw. pose proof (lev_gt max w h Hm ltac:(lia) ltac:(lia)) as E. repeat case_decide; try lia. subst w. exfalso. rewrite Zmod_0_l in E.
      assert (2 ^ 1 <= 2 ^ (max - Z.of_nat h)) by (apply Z.pow_le_mono_r; lia). lia. }
    rewrite sum_ind in H. rewrite decide_True in H by lia. lia.
  Qed.
  (** the words that give the maximum: at most 2^(65 - max) of the 2^64 *)
  Lemma words_top : Z.of_nat D = 2 ^ 64 → eq_words D (lev max) (Z.to_nat max) * 2 ^ max <= 2 * Z.of_nat D.
  Proof using Hm.
    intros HD. pose proof pow_T as HT.
    assert (eq_words D (lev max) (Z.to_nat max) = cnt (2 ^ max - 1) D 0) as ->.
    { unfold eq_words, cnt. apply sum_ext. intros w Hw. pose proof (lev_eq max w (Z.to_nat max) Hm ltac:(lia) ltac:(lia)) as E. rewrite Z2Nat.id, Z.sub_diag in E by lia.
      change (2 ^ 0) with 1 in E. change (2 ^ (0 + 1)) with 2 in E. repeat case_decide; try done; exfalso; lia. }
    rewrite (cnt_eq _ HT) by lia. rewrite HD.
    assert (2 ^ max = 2 * 2 ^ (max - 1)) as Hd by (rewrite <-Z.pow_succ_r by lia; f_equal; lia).
    assert (2 ^ 64 = 2 ^ (max - 1) * 2 ^ (65 - max)) as Hs by (rewrite <-Z.pow_add_r by lia; f_equal; lia).
    assert (0 < 2 ^ (max - 1)) by (apply Z.pow_pos_nonneg; lia). assert (0 < 2 ^ (65 - max)) by (apply Z.pow_pos_nonneg; lia).
    assert ((2 ^ 64 + (2 ^ max - 1) - 1 - 0) / (2 ^ max - 1) < 2 ^ (65 - max) + 1) as Hlt.
    { apply Z.div_lt_upper_bound; [lia|]. rewrite Hs, Hd. nia. }
    rewrite Hs. rewrite Hs in Hlt. set (q := _ / _) in *. rewrite Hd. nia.
  Qed.
End words.
