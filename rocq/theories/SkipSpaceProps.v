(** C108: a skip list takes space proportional to its size on average. *)
From Verif Require Import Base History RbSpec MapSpec SkipModel SkipSpec SkipProofs SkipOps SkipProps CrashModel CrashSkipModel
  SkipCostSpec SkipCostAvg SkipCostLevel SkipCostProps HeldSpec HeldProps2 SkipSpaceSpec.
Open Scope Z_scope.

(* ---------- the average tower ---------- *)
#[local] Opaque words.
Lemma sum_split n m f : sum_below (n + m) f = sum_below n f + sum_below m (λ w, f (Z.of_nat n + w)).
Proof. induction m as [|m IH]; cbn [sum_below]; [rewrite Nat.add_0_r; lia|]. rewrite Nat.add_succ_r. cbn [sum_below]. rewrite IH, Nat2Z.inj_add. lia. Qed.
(** q rounds of T words and r more *)
Lemma sum_rounds (T q r : nat) (g : Z → Z) : (0 < T)%nat → (r <= T)%nat →
  sum_below (q * T + r) (λ w, g (w mod Z.of_nat T)) = Z.of_nat q * sum_below T g + sum_below r g.
Proof.
  intros HT Hr. assert (∀ m k, (m <= T)%nat → sum_below m (λ w, g ((Z.of_nat (k * T) + w) mod Z.of_nat T)) = sum_below m g) as Hm.
  { intros m k Hle. apply sum_ext. intros w Hw. f_equal. rewrite Nat2Z.inj_mul, Z.add_comm, Z.mod_add by lia.
    destruct (decide (w = Z.of_nat T)) as [->|]; [lia|]. apply Z.mod_small. lia. }
  rewrite sum_split, Hm by done. f_equal. clear Hr. induction q as [|q IH]; [cbn [sum_below Nat.mul]; lia|].
  replace (S q * T)%nat with (q * T + T)%nat by lia. rewrite sum_split, IH, Hm by lia. lia.
Qed.
Lemma sum_small n a : 0 <= a → sum_below n (λ w, ind (w < a)) = Z.min (Z.of_nat n) a.
Proof. intros Ha. induction n as [|n IH]; cbn [sum_below]; [lia|]. rewrite IH. case_decide; lia. Qed.
(** 2^64 = q (2^max - 1) + r with r <= q *)
Lemma words_rounds max : 1 <= max <= 64 → 2 ^ 64 mod (2 ^ max - 1) <= 2 ^ 64 / (2 ^ max - 1).
Proof.
  intros Hm. assert (forallb (λ m, 2 ^ 64 mod (2 ^ Z.of_nat m - 1) <=? 2 ^ 64 / (2 ^ Z.of_nat m - 1)) (seq 1 64) = true) as H by (vm_compute; reflexivity).
  rewrite forallb_forall in H. specialize (H (Z.to_nat max) ltac:(apply in_seq; lia)). rewrite Z2Nat.id in H by lia. by apply Z.leb_le.
Qed.
(** at most one word in 2^h gives a tower higher than h *)
Lemma gt_few (D : nat) max (h : nat) : Z.of_nat D = 2 ^ 64 → 1 <= max <= 64 → (h <= Z.to_nat max)%nat → gt_words D (lev max) h * 2 ^ Z.of_nat h <= 2 ^ 64.
Proof.
  intros HD Hm Hh. unfold gt_words.
  rewrite (sum_ext D _ (λ w, (λ x, ind (x < 2 ^ (max - Z.of_nat h) - 1)) (w mod Z.of_nat (Z.to_nat (2 ^ max - 1))))).
  2:{ intros w Hw. pose proof (lev_gt max w h Hm ltac:(lia) Hh) as E. pose proof (pow_T max Hm). rewrite Z2Nat.id by lia. destruct (decide (h < lev max w)%nat); [rewrite decide_True by tauto|rewrite decide_False by tauto]; done. }
  pose proof (pow_T max Hm) as HT. pose proof (words_rounds max Hm) as Hr. pose proof (Z.div_mod (2 ^ 64) (2 ^ max - 1) ltac:(lia)) as E. pose proof (Z.mod_pos_bound (2 ^ 64) (2 ^ max - 1) HT) as Hb.
  assert (0 <= 2 ^ 64 / (2 ^ max - 1)) as Hq by (apply Z.div_pos; lia).
  assert (2 ^ max = 2 ^ (max - Z.of_nat h) * 2 ^ Z.of_nat h) as E1 by (rewrite <-Z.pow_add_r by lia; f_equal; lia).
  assert (0 < 2 ^ (max - Z.of_nat h)) as Ha by (apply Z.pow_pos_nonneg; lia). assert (0 < 2 ^ Z.of_nat h) as Hp by (apply Z.pow_pos_nonneg; lia).
  assert (D = Z.to_nat (2 ^ 64 / (2 ^ max - 1)) * Z.to_nat (2 ^ max - 1) + Z.to_nat (2 ^ 64 mod (2 ^ max - 1)))%nat as -> by (apply Nat2Z.inj; rewrite HD; lia).
  pose proof (sum_rounds (Z.to_nat (2 ^ max - 1)) (Z.to_nat (2 ^ 64 / (2 ^ max - 1))) (Z.to_nat (2 ^ 64 mod (2 ^ max - 1))) (λ x, ind (x < 2 ^ (max - Z.of_nat h) - 1)) ltac:(lia) ltac:(lia)) as R. cbv beta in R |- *. rewrite R. clear R. rewrite !sum_small by lia. rewrite !Z2Nat.id by lia. rewrite E at 3. clear Hh HD.
  generalize dependent (2 ^ 64 mod (2 ^ max - 1)). generalize dependent (2 ^ 64 / (2 ^ max - 1)). rewrite E1 in *. generalize dependent (2 ^ (max - Z.of_nat h)). generalize dependent (2 ^ Z.of_nat h).
  intros p Hp a E1 HT Ha q Hq r Hr _ Hb. clear -Hp Ha Hq Hr Hb.
  rewrite Z.min_r by nia. transitivity (q * (a - 1) * p + Z.min r (a - 1) * p); [lia|]. assert (Z.min r (a - 1) * p <= r * p) by (apply Z.mul_le_mono_nonneg_r; lia). nia.
Qed.
(** the towers of all words together *)
Lemma tower_sum (D : nat) max : Z.of_nat D = 2 ^ 64 → 1 <= max <= 64 → sum_below D (λ w, Z.of_nat (lev max w)) * 2 ^ (max - 1) <= 2 ^ 64 * (2 ^ max - 1).
Proof.
  intros HD Hm. assert (sum_below D (λ w, Z.of_nat (lev max w)) = sum_below (Z.to_nat max) (λ h, gt_words D (lev max) (Z.to_nat h))) as ->.
  { unfold gt_words. rewrite <-sum_swap. apply sum_ext. intros w Hw. pose proof (lev_bound max w Hm ltac:(lia)) as Hl.
    rewrite (sum_ext (Z.to_nat max) _ (λ h, ind (h < Z.of_nat (lev max w)))); [rewrite sum_small by lia; lia|]. intros h Hh. repeat case_decide; lia. }
  rewrite <-sum_scale_r. transitivity (sum_below (Z.to_nat max) (λ h, 2 ^ 64 * 2 ^ (max - 1 - h))).
  - apply sum_le. intros h Hh. pose proof (gt_few D max (Z.to_nat h) HD Hm ltac:(lia)) as H. rewrite Z2Nat.id in H by lia.
    replace (2 ^ (max - 1)) with (2 ^ h * 2 ^ (max - 1 - h)) by (rewrite <-Z.pow_add_r by lia; f_equal; lia).
    rewrite Z.mul_assoc. apply Z.mul_le_mono_nonneg_r; [apply Z.pow_nonneg; lia|done].
  - rewrite sum_scale. apply Z.mul_le_mono_nonneg_l; [done|].
    assert (∀ n : nat, Z.of_nat n <= max → sum_below n (λ h, 2 ^ (max - 1 - h)) = 2 ^ max - 2 ^ (max - Z.of_nat n)) as Hg.
    { induction n as [|n IH]; intros Hn; cbn [sum_below]; [change (Z.of_nat 0) with 0; rewrite Z.sub_0_r; lia|]. rewrite IH by lia.
      replace (max - Z.of_nat n) with (Z.succ (max - Z.of_nat (S n))) by lia. rewrite Z.pow_succ_r by lia. replace (max - 1 - Z.of_nat n) with (max - Z.of_nat (S n)) by lia. lia. }
    rewrite Hg by lia. rewrite Z2Nat.id by lia. rewrite Z.sub_diag. change (2 ^ 0) with 1. lia.
Qed.
(** the towers of the elements js of a list, on average *)
Lemma towers_avg (D : nat) max n js : Z.of_nat D = 2 ^ 64 → 1 <= max <= 64 → Forall (λ j, (j < n)%nat) js →
  total D n (λ ws, Z.of_nat (sum_list (drawn (lev max) ws js))) * 2 ^ (max - 1) <= (2 ^ 64) ^ Z.of_nat n * (Z.of_nat (length js) * (2 ^ max - 1)).
Proof.
  intros HZ Hm. induction js as [|j js IH]; intros Hf.
  { cbn [drawn sum_list_with length]. change (Z.of_nat 0) with 0. erewrite (total_ext D n _ (λ _, 0)) by reflexivity. rewrite total_const. lia. }
  apply Forall_cons in Hf as [Hj Hf]. specialize (IH Hf).
  rewrite (total_ext D n _ (λ ws, Z.of_nat (lev max (ws !!! j)) * 1 + Z.of_nat (sum_list (drawn (lev max) ws js)))) by (intros ws _; rewrite drawn_cons; cbn [sum_list_with]; unfold id; lia).
  rewrite total_plus. pose proof (total_indep D n j (λ w, Z.of_nat (lev max w)) (λ _, 1) Hj (λ _ _, eq_refl)) as H. rewrite total_const, HZ in H. pose proof (tower_sum D max HZ Hm) as Ht.
  assert (0 <= (2 ^ 64) ^ Z.of_nat n) as HP by (apply Z.pow_nonneg; lia). assert (0 < 2 ^ 64) as HD by done. cbn [length]. rewrite Nat2Z.inj_succ.
  generalize dependent (total D n (λ ws, Z.of_nat (lev max (ws !!! j)) * 1)). generalize dependent (total D n (λ ws, Z.of_nat (sum_list (drawn (lev max) ws js)))).
  generalize dependent (sum_below D (λ w, Z.of_nat (lev max w))). generalize dependent ((2 ^ 64) ^ Z.of_nat n). generalize dependent (2 ^ (max - 1)). generalize dependent (2 ^ max - 1). clear HZ. generalize dependent (2 ^ 64).
  intros E HD b q P HP S HS B IH A HA. clear -HD HS HP IH HA.
  assert (A * q <= P * b) as HAq; [|rewrite Z.mul_add_distr_r; transitivity (P * b + P * (Z.of_nat (length js) * b)); [apply Z.add_le_mono; [exact HAq|exact IH]|lia]]. apply (Z.mul_le_mono_pos_r _ _ E); [done|]. transitivity (S * q * P); [rewrite (Z.mul_comm A q), <-Z.mul_assoc, HA; lia|]. transitivity (E * b * P); [|lia]. by apply Z.mul_le_mono_nonneg_r.
Qed.

Section props.
  Context {K V W : Type} (cmp : K → K → Z) (CO : CmpOK cmp).
  Implicit Types (l : list (K * V)) (ops : list (sk_op K V W)).

  Lemma with_words_ok ops ws : Forall sk_op_ok ops → Forall (λ w, 0 <= w < 2 ^ 64) ws → Forall sk_op_ok (with_words ops ws).
  Proof using.
    revert ws. induction ops as [|o ops IH]; intros [|w ws] Ho Hw; try constructor.
    - apply Forall_cons in Ho as [Ho _]. apply Forall_cons in Hw as [Hw _]. by destruct o.
    - apply Forall_cons in Ho as [_ Ho]. apply Forall_cons in Hw as [_ Hw]. by apply IH.
  Qed.
  Lemma srun_words ops ws l : length ws = length ops → srun (sk_spec cmp) (with_words ops ws) l = srun (sk_spec cmp) ops l.
  Proof using.
    revert ws l. induction ops as [|o ops IH]; intros [|w ws] l Hl; try done. cbn [with_words zip_with srun]. fold (with_words ops ws).
    assert (sk_spec cmp (set_word o w) l = sk_spec cmp o l) as -> by (by destruct o). destruct (sk_spec cmp o l) as [[r l']|]; [|done]. rewrite IH by (cbn in Hl; lia). done.
  Qed.
  Lemma sum_list_le (c : nat) ns : Forall (λ x, (x <= c)%nat) ns → (sum_list ns <= length ns * c)%nat.
  Proof using. induction 1; cbn; lia. Qed.
  Lemma sum_list_ge (c : nat) ns : Forall (λ x, (c <= x)%nat) ns → (length ns * c <= sum_list ns)%nat.
  Proof using. induction 1; cbn; lia. Qed.

  (** what one run takes *)
  Lemma run_takes (max : nat) s xs l : inv cmp max s xs l → hinv cmp max s l → takes s (2 * Z.of_nat max + Z.of_nat (sum_list (hts s xs))).
  Proof using.
    intros Hinv (xs' & Hinv' & Hca). pose proof (held_xs cmp max s xs' l Hinv' Hca) as Hh. exists xs'. split_and!; [apply (inv_nodup _ _ _ _ _ Hinv')|by intros a; rewrite Hh|].
    rewrite (inv_head _ _ _ _ _ Hinv), (inv_cache _ _ _ _ _ Hinv). change ((λ a : nat, match sk_els s !! a with Some e => length (e_next e) | None => 0%nat end) <$> xs') with (hts s xs').
    assert (xs ≡ₚ xs') as Hp.
    { apply submseteq_Permutation_length_eq; [by rewrite (Forall2_length _ _ _ (inv_kv _ _ _ _ _ Hinv)), (Forall2_length _ _ _ (inv_kv _ _ _ _ _ Hinv'))|].
      apply NoDup_submseteq; [apply (inv_nodup _ _ _ _ _ Hinv)|]. intros a Ha. apply Hh. exact (inv_held cmp max s xs l a Hinv Ha). }
    assert (sum_list (hts s xs) = sum_list (hts s xs')) as ->; [|lia]. unfold hts. by rewrite Hp.
  Qed.

  (** C108: whatever the history (fixed before the words are drawn), averaged over all sequences of random words the list
      takes less than 2 max + 2 n pointers, n the number of keys in it; and never more than (n + 2) max *)
  Theorem skiplist_average_space max ops : 1 <= max <= 64 → Forall sk_op_ok ops →
    ∃ s0 rs l (space : list Z → Z), sk_New max = Ok s0 ∧ srun (sk_spec cmp) ops [] = Some (rs, l) ∧
      (∀ ws, length ws = length ops → Forall (λ w, 0 <= w < 2 ^ 64) ws →
         ∃ s, run (sk_step cmp) (with_words ops ws) s0 = Ok (rs, s) ∧ takes s (space ws) ∧
           2 * max + Z.of_nat (length l) <= space ws <= 2 * max + Z.of_nat (length l) * max) ∧
      total words (length ops) space * 2 ^ (max - 1) <=
        (2 ^ 64) ^ Z.of_nat (length ops) * (2 * max * 2 ^ (max - 1) + Z.of_nat (length l) * (2 ^ max - 1)).
  Proof using CO.
    intros Hm Hok. destruct (history_towers cmp CO (Z.to_nat max) ops ltac:(lia)) as (rs & l & ids & Es & Hnd & Hlt & Hlen & s0 & E0 & Hrun). rewrite Z2Nat.id in E0, Hrun by lia.
    exists s0, rs, l, (λ ws, 2 * max + Z.of_nat (sum_list (drawn (lev max) ws ids))). split_and!; [done|done| |].
    - intros ws Hl Hf. destruct (Hrun ws) as (s & xs & Er & Hinv & Hh); [split; [done|by rewrite words_Z]|]. exists s. split; [done|].
      assert (hinv cmp (Z.to_nat max) s l) as Hi.
      { destruct (new_hinv (V := V) cmp (Z.to_nat max)) as (s0' & E0' & Hinv0); [lia|]. rewrite Z2Nat.id, E0 in E0' by lia. injection E0' as <-.
        pose proof (run_agrees (sk_step cmp) (sk_spec cmp) (hinv cmp (Z.to_nat max)) sk_op_ok (λ o s l, hstep_agrees cmp CO _ o s l) (with_words ops ws) s0 [] (with_words_ok ops ws Hok Hf) Hinv0) as H.
        unfold agrees in H. destruct (srun (sk_spec cmp) (with_words ops ws) []) as [[rs' l']|] eqn:Es'.
        - destruct H as (s' & E' & Hi'). rewrite Er in E'. injection E' as <- <-. destruct Hi' as (xs' & Hi' & Hca). 
          assert (srun (sk_spec cmp) (with_words ops ws) [] = srun (sk_spec cmp) ops []) as Esame by (apply srun_words; done). rewrite Esame, Es in Es'. injection Es' as <-. by exists xs'.
        - rewrite srun_words, Es in Es' by done. done. }
      assert (length (hts s xs) = length l) as Lh by (unfold hts; rewrite fmap_length; exact (Forall2_length _ _ _ (inv_kv _ _ _ _ _ Hinv))).
      rewrite <-Hh. split_and!.
      + pose proof (run_takes _ s xs l Hinv Hi) as Ht. rewrite Z2Nat.id in Ht by lia. exact Ht.
      + pose proof (sum_list_ge 1 (hts s xs)) as Hs. rewrite Lh in Hs.
        specialize (Hs ltac:(apply Forall_forall; intros x Hx; apply elem_of_list_fmap in Hx as (p & -> & Hp); apply (inv_ht _ _ _ _ _ Hinv p Hp))). lia.
      + pose proof (sum_list_le (Z.to_nat max) (hts s xs)) as Hs. rewrite Lh in Hs.
        specialize (Hs ltac:(apply Forall_forall; intros x Hx; apply elem_of_list_fmap in Hx as (p & -> & Hp); apply (inv_ht _ _ _ _ _ Hinv p Hp))). nia.
    - rewrite total_plus, total_const, words_Z. pose proof (towers_avg words max (length ops) ids words_Z Hm Hlt) as H. rewrite Hlen in H.
      generalize dependent (total words (length ops) (λ ws, Z.of_nat (sum_list (drawn (lev max) ws ids)))). generalize ((2 ^ 64) ^ Z.of_nat (length ops)) (2 ^ (max - 1)) (2 ^ max - 1). intros P q b T HT. clear -HT. nia.
  Qed.
  (** ... so on average at most 2 max + 2 n *)
  Corollary skiplist_average_space_linear max ops : 1 <= max <= 64 → Forall sk_op_ok ops →
    ∃ s0 rs l (space : list Z → Z), sk_New max = Ok s0 ∧ srun (sk_spec cmp) ops [] = Some (rs, l) ∧
      (∀ ws, length ws = length ops → Forall (λ w, 0 <= w < 2 ^ 64) ws →
         ∃ s, run (sk_step cmp) (with_words ops ws) s0 = Ok (rs, s) ∧ takes s (space ws)) ∧
      total words (length ops) space <= (2 ^ 64) ^ Z.of_nat (length ops) * (2 * max + 2 * Z.of_nat (length l)).
  Proof using CO.
    intros Hm Hok. destruct (skiplist_average_space max ops Hm Hok) as (s0 & rs & l & space & E0 & Es & Hr & H). exists s0, rs, l, space. split_and!; [done..| |].
    - intros ws Hl Hf. destruct (Hr ws Hl Hf) as (s & E & Ht & _). by exists s.
    - assert (0 < 2 ^ (max - 1)) as Hp by (apply Z.pow_pos_nonneg; lia). assert (0 <= (2 ^ 64) ^ Z.of_nat (length ops)) as HP by (apply Z.pow_nonneg; lia).
      assert (2 ^ max = 2 * 2 ^ (max - 1)) as E by (rewrite <-Z.pow_succ_r by lia; f_equal; lia). rewrite E in H. clear E. clear Hr.
      generalize dependent (total words (length ops) space). generalize dependent ((2 ^ 64) ^ Z.of_nat (length ops)). generalize dependent (2 ^ (max - 1)).
      intros q Hq P HP T HT. clear -Hq HP HT. apply (Z.mul_le_mono_pos_r _ _ q); [done|]. etransitivity; [exact HT|]. rewrite <-(Z.mul_assoc P). apply Z.mul_le_mono_nonneg_l; [done|]. nia.
  Qed.
End props.
Print Assumptions skiplist_average_space.
Print Assumptions skiplist_average_space_linear.
(** ten keys with maximum level 4: whatever the words 18 to 48 pointers, on average at most 26.75 *)
Example ten_space : Forall sk_op_ok ten ∧ ∃ rs l, srun (sk_spec zcmp) ten [] = Some (rs, l) ∧ length l = 10%nat.
Proof. split; [repeat constructor; done|]. eexists _, _. split; [vm_compute; reflexivity|reflexivity]. Qed.
