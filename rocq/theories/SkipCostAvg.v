(** Sums over all lists of random words. *)
From Verif Require Import Base SkipModel SkipProofs SkipCostSpec.
Open Scope Z_scope.

(* ---------- sums ---------- *)
Lemma sum_ext n f g : (∀ w, 0 <= w < Z.of_nat n → f w = g w) → sum_below n f = sum_below n g.
Proof. induction n as [|n IH]; intros H; [done|]. cbn [sum_below]. rewrite IH, H; [done|lia|]. intros w Hw. apply H. lia. Qed.
Lemma sum_le n f g : (∀ w, 0 <= w < Z.of_nat n → f w <= g w) → sum_below n f <= sum_below n g.
Proof. induction n as [|n IH]; intros H; [done|]. cbn [sum_below]. assert (f (Z.of_nat n) <= g (Z.of_nat n)) by (apply H; lia). assert (sum_below n f <= sum_below n g) by (apply IH; intros w Hw; apply H; lia). lia. Qed.
Lemma sum_plus n f g : sum_below n (λ w, f w + g w) = sum_below n f + sum_below n g.
Proof. induction n as [|n IH]; [done|]. cbn [sum_below]. rewrite IH. lia. Qed.
Lemma sum_scale n c f : sum_below n (λ w, c * f w) = c * sum_below n f.
Proof. induction n as [|n IH]; [cbn; lia|]. cbn [sum_below]. rewrite IH. lia. Qed.
Lemma sum_scale_r n c f : sum_below n (λ w, f w * c) = sum_below n f * c.
Proof. induction n as [|n IH]; [cbn; lia|]. cbn [sum_below]. rewrite IH. lia. Qed.
Lemma sum_const n c : sum_below n (λ _, c) = Z.of_nat n * c.
Proof. induction n as [|n IH]; [done|]. cbn [sum_below]. rewrite IH. lia. Qed.
Lemma sum_nonneg n f : (∀ w, 0 <= w < Z.of_nat n → 0 <= f w) → 0 <= sum_below n f.
Proof. intros H. transitivity (sum_below n (λ _, 0)); [rewrite sum_const; lia|]. by apply sum_le. Qed.
Lemma sum_swap n m (f : Z → Z → Z) : sum_below n (λ w, sum_below m (f w)) = sum_below m (λ v, sum_below n (λ w, f w v)).
Proof. induction n as [|n IH]; cbn [sum_below]; [rewrite sum_const; lia|]. rewrite IH, <-sum_plus. done. Qed.

(* ---------- totals ---------- *)
Section total.
  Context (D : nat).
  (** a list of n random words *)
  Definition draws (n : nat) (ws : list Z) : Prop := length ws = n ∧ Forall (λ w, 0 <= w < Z.of_nat D) ws.
  Lemma draws_cons n w ws : 0 <= w < Z.of_nat D → draws n ws → draws (S n) (w :: ws).
  Proof using. intros Hw [Hl Hf]. split; [cbn; lia|by constructor]. Qed.
  Lemma total_ext n : ∀ f g, (∀ ws, draws n ws → f ws = g ws) → total D n f = total D n g.
  Proof using.
    induction n as [|n IH]; intros f g H; cbn [total]; [apply H; by split|]. apply sum_ext. intros w Hw. apply IH. intros ws Hws. apply H. by apply draws_cons.
  Qed.
  Lemma total_le n : ∀ f g, (∀ ws, draws n ws → f ws <= g ws) → total D n f <= total D n g.
  Proof using.
    induction n as [|n IH]; intros f g H; cbn [total]; [apply H; by split|]. apply sum_le. intros w Hw. apply IH. intros ws Hws. apply H. by apply draws_cons.
  Qed.
  Lemma total_plus n : ∀ f g, total D n (λ ws, f ws + g ws) = total D n f + total D n g.
  Proof using. induction n as [|n IH]; intros f g; cbn [total]; [done|]. rewrite <-sum_plus. apply sum_ext. intros w _. apply IH. Qed.
  Lemma total_scale n c : ∀ f, total D n (λ ws, c * f ws) = c * total D n f.
  Proof using. induction n as [|n IH]; intros f; cbn [total]; [done|]. rewrite <-sum_scale. apply sum_ext. intros w _. apply IH. Qed.
  Lemma total_const n c : total D n (λ _, c) = Z.of_nat D ^ Z.of_nat n * c.
  Proof using.
    induction n as [|n IH]; cbn [total]; [change (Z.of_nat 0) with 0; rewrite Z.pow_0_r; lia|]. rewrite sum_const, IH. rewrite Nat2Z.inj_succ, Z.pow_succ_r by lia. lia.
  Qed.
  (** a factor that depends on one word only, another that does not depend on it *)
  Lemma total_indep n : ∀ j (φ : Z → Z) (g : list Z → Z), (j < n)%nat → (∀ ws w, g (<[j := w]> ws) = g ws) →
    total D n (λ ws, φ (ws !!! j) * g ws) * Z.of_nat D = sum_below D φ * total D n g.
  Proof using.
    induction n as [|n IH]; intros j φ g Hj Hg; [lia|]. cbn [total]. destruct j as [|j].
    - assert (∀ w ws, g (w :: ws) = g (0 :: ws)) as H0 by (intros w ws; exact (Hg (0 :: ws) w)).
      assert (sum_below D (λ w, total D n (λ ws, φ ((w :: ws) !!! 0%nat) * g (w :: ws))) = sum_below D φ * total D n (λ ws, g (0 :: ws))) as ->.
      { rewrite <-sum_scale_r. apply sum_ext. intros w _. rewrite <-total_scale. apply total_ext. intros ws _. rewrite H0. done. }
      assert (sum_below D (λ w, total D n (λ ws, g (w :: ws))) = Z.of_nat D * total D n (λ ws, g (0 :: ws))) as ->.
      { rewrite <-sum_const. apply sum_ext. intros w _. apply total_ext. intros ws _. apply H0. }
      lia.
    - rewrite <-sum_scale_r, <-sum_scale. apply sum_ext. intros w _. apply (IH j φ (λ ws, g (w :: ws))); [lia|]. intros ws w'. exact (Hg (w :: ws) w').
  Qed.
End total.

(* ---------- a walk along one level ---------- *)
(** the towers of height exactly h before the first taller one *)
Fixpoint moves (h : nat) (hs : list nat) : Z :=
  match hs with [] => 0 | x :: hs => if decide (h < x)%nat then 0 else (if decide (x = h) then 1 else 0) + moves h hs end.
Section level.
  Context (D : nat) (lev : Z → nat).
  (** how many words give the height h; more than h *)
  Definition eq_words (h : nat) : Z := sum_below D (λ w, if decide (lev w = h) then 1 else 0).
  Definition gt_words (h : nat) : Z := sum_below D (λ w, if decide (h < lev w)%nat then 1 else 0).
  Definition drawn (ws : list Z) (js : list nat) : list nat := (λ j, lev (ws !!! j)) <$> js.
  Lemma drawn_other ws j w js : j ∉ js → drawn (<[j := w]> ws) js = drawn ws js.
  Proof using.
    unfold drawn. induction js as [|i js IH]; intros H; [done|]. cbn. rewrite not_elem_of_cons in H. destruct H as [H1 H2]. rewrite IH by done. f_equal. f_equal.
    by rewrite list_lookup_total_insert_ne by done.
  Qed.
  Lemma gt_words_le h : 0 <= gt_words h <= Z.of_nat D.
  Proof using.
    unfold gt_words. split; [apply sum_nonneg; intros w _; case_decide; lia|]. rewrite <-(Z.mul_1_r (Z.of_nat D)), <-sum_const. apply sum_le. intros w _. case_decide; lia.
  Qed.
  Lemma eq_words_le h : 0 <= eq_words h.
  Proof using. unfold eq_words. apply sum_nonneg; intros w _; case_decide; lia. Qed.
  (** on average the walk passes (number of words giving h) / (number giving more) towers *)
  Lemma moves_avg n h js : (0 < D)%nat → NoDup js → Forall (λ j, (j < n)%nat) js →
    total D n (λ ws, moves h (drawn ws js)) * gt_words h <= eq_words h * Z.of_nat D ^ Z.of_nat n.
  Proof using.
    intros HD Hnd Hlt. pose proof (gt_words_le h) as Hg. pose proof (eq_words_le h) as He.
    assert (0 <= Z.of_nat D ^ Z.of_nat n) as Hpow by (apply Z.pow_nonneg; lia).
    induction js as [|j js IH].
    { unfold drawn. cbn [fmap list_fmap moves]. rewrite total_const. lia. }
    apply NoDup_cons in Hnd as [Hj Hnd]. apply Forall_cons in Hlt as [Hjn Hlt]. specialize (IH Hnd Hlt).
    set (T := total D n (λ ws, moves h (drawn ws js))) in *.
    assert (total D n (λ ws, moves h (drawn ws (j :: js))) * Z.of_nat D = eq_words h * Z.of_nat D ^ Z.of_nat n + (Z.of_nat D - gt_words h) * T) as E.
    { rewrite (total_ext D n _ (λ ws, (if decide (lev (ws !!! j) = h) then 1 else 0) * 1 + (if decide (h < lev (ws !!! j))%nat then 0 else 1) * moves h (drawn ws js))).
      2:{ intros ws _. unfold drawn. cbn [fmap list_fmap moves]. destruct (decide (h < lev (ws !!! j))%nat), (decide (lev (ws !!! j) = h)); lia. }
      rewrite total_plus, Z.mul_add_distr_r.
      pose proof (total_indep D n j (λ w, if decide (lev w = h) then 1 else 0) (λ _, 1) Hjn (λ _ _, eq_refl)) as E1.
      pose proof (total_indep D n j (λ w, if decide (h < lev w)%nat then 0 else 1) (λ ws, moves h (drawn ws js)) Hjn ltac:(intros ws w; cbv beta; by rewrite drawn_other)) as E2.
      cbv beta in E1, E2. etransitivity; [apply f_equal2; [exact E1|exact E2]|].
      rewrite total_const, Z.mul_1_r. fold (eq_words h). fold T. f_equal. f_equal.
      assert (sum_below D (λ w, if decide (h < lev w)%nat then 0 else 1) + gt_words h = Z.of_nat D) as Hc; [|lia].
      unfold gt_words. rewrite <-sum_plus. rewrite <-(Z.mul_1_r (Z.of_nat D)), <-sum_const. apply sum_ext. intros w _. case_decide; lia. }
    apply (Z.mul_le_mono_pos_r _ _ (Z.of_nat D)); [lia|].
    replace (total D n (λ ws, moves h (drawn ws (j :: js))) * gt_words h * Z.of_nat D) with (gt_words h * (total D n (λ ws, moves h (drawn ws (j :: js))) * Z.of_nat D)) by lia.
    rewrite E. set (P := Z.of_nat D ^ Z.of_nat n) in *. nia.
  Qed.
  (** no tower is taller: the walk passes all of this height *)
  Lemma moves_avg_top n h js : Forall (λ j, (j < n)%nat) js →
    total D n (λ ws, moves h (drawn ws js)) * Z.of_nat D <= Z.of_nat (length js) * eq_words h * Z.of_nat D ^ Z.of_nat n.
  Proof using.
    intros Hlt. assert (0 <= Z.of_nat D ^ Z.of_nat n) as Hpow by (apply Z.pow_nonneg; lia).
    induction js as [|j js IH].
    { unfold drawn. cbn [fmap list_fmap moves length]. rewrite total_const. lia. }
    apply Forall_cons in Hlt as [Hjn Hlt]. specialize (IH Hlt).
    assert (total D n (λ ws, moves h (drawn ws (j :: js))) <= total D n (λ ws, (if decide (lev (ws !!! j) = h) then 1 else 0) * 1 + moves h (drawn ws js))) as Hle.
    { apply total_le. intros ws _. unfold drawn. cbn [fmap list_fmap moves]. fold (drawn ws js).
      assert (0 <= moves h (drawn ws js)). { generalize (drawn ws js). intros hs. induction hs as [|x hs IHh]; cbn [moves]; [lia|]. repeat case_decide; lia. }
      destruct (decide (h < lev (ws !!! j))%nat), (decide (lev (ws !!! j) = h)); lia. }
    rewrite total_plus in Hle. pose proof (total_indep D n j (λ w, if decide (lev w = h) then 1 else 0) (λ _, 1) Hjn (λ _ _, eq_refl)) as E. rewrite total_const, Z.mul_1_r in E. fold (eq_words h) in E.
    cbn [length]. rewrite Nat2Z.inj_succ. set (P := Z.of_nat D ^ Z.of_nat n) in *. nia.
  Qed.
End level.
