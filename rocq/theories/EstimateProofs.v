(** Bounds on ln 2, rounding, and counting of digests. *)
From Coq Require Import Reals Lra.
From Verif Require Import Base History BitmapModel BloomModel BloomSpec BloomProofs BloomProps BloomRateSpec BloomRateProps EstimateModel EstimateSpec.
Local Open Scope R_scope.

Lemma ceil_spec r : IZR (ceil r) - 1 < r <= IZR (ceil r).
Proof. unfold ceil. rewrite minus_IZR. destruct (archimed (- r)) as [H1 H2]. lra. Qed.
Lemma ceil_is r z : IZR z - 1 < r <= IZR z → ceil r = z.
Proof.
  intros [H1 H2]. destruct (ceil_spec r) as [H3 H4].
  assert (IZR (ceil r) < IZR (z + 1)) as H5 by (rewrite plus_IZR; lra). apply lt_IZR in H5.
  assert (IZR z < IZR (ceil r + 1)) as H6 by (rewrite plus_IZR; lra). apply lt_IZR in H6. lia.
Qed.
Lemma ceil_le r z : r <= IZR z → (ceil r <= z)%Z.
Proof. intros H. destruct (ceil_spec r) as [H3 H4]. assert (IZR (ceil r) < IZR (z + 1)) as H5 by (rewrite plus_IZR; lra). apply lt_IZR in H5. lia. Qed.
Lemma ceil_pos r : 0 < r → (0 < ceil r)%Z.
Proof. intros H. destruct (ceil_spec r) as [H3 H4]. apply lt_IZR. lra. Qed.
Lemma ln2_lt : ln 2 < 1.
Proof. rewrite <-(ln_exp 1). apply ln_increasing; [lra|]. pose proof (exp_ineq1 1 ltac:(lra)). lra. Qed.
Lemma ln2_gt : 2 / 3 < ln 2.
Proof.
  rewrite <-(ln_exp (2 / 3)). apply ln_increasing; [apply exp_pos|].
  assert (H : exp (1 / 15) <= 15 / 14).
  { pose proof (exp_ineq1 (- (1 / 15)) ltac:(lra)) as H. pose proof (exp_pos (1 / 15)) as Hp. assert (E : exp (1 / 15) * exp (- (1 / 15)) = 1). { rewrite <-exp_plus. replace (1 / 15 + - (1 / 15)) with 0 by lra. apply exp_0. }
    assert (exp (1 / 15) * (14 / 15) <= exp (1 / 15) * exp (- (1 / 15))) by (apply Rmult_le_compat_l; lra). lra. }
  replace (2 / 3) with (INR 10 * (1 / 15)) by (simpl; lra).
  assert (Hn : ∀ j x, exp (INR j * x) = exp x ^ j). { induction j as [|j IH]; intros x; [cbn; rewrite Rmult_0_l; apply exp_0|]. rewrite S_INR. replace ((INR j + 1) * x) with (x + INR j * x) by lra. rewrite exp_plus, IH. done. }
  rewrite Hn. assert (exp (1 / 15) ^ 10 <= (15 / 14) ^ 10). { apply pow_incr. pose proof (exp_pos (1 / 15)). lra. } assert ((15 / 14) ^ 10 < 2) by (simpl; lra). lra.
Qed.

Local Open Scope N_scope.
Lemma NoDup_bind' {A B} (f : A → list B) (X : list A) : NoDup X → (∀ x, x ∈ X → NoDup (f x)) → (∀ x y z, x ∈ X → y ∈ X → z ∈ f x → z ∈ f y → x = y) → NoDup (x ← X; f x).
Proof.
  induction 1 as [|x X Hx _ IH]; intros Hf Hd; [constructor|]. rewrite bind_cons. apply NoDup_app. split; [apply Hf; by left|]. split.
  - intros z Hz (y & Hz' & Hy)%elem_of_list_bind. assert (x = y) as -> by (eapply Hd; [by left|by right|done|done]). done.
  - apply IH; [intros y Hy; apply Hf; by right|]. intros y y' z Hy Hy'. apply Hd; by right.
Qed.
(** the numbers below b; c words in the residue class r modulo m *)
Definition upto (b : N) : list N := N.of_nat <$> seq 0 (N.to_nat b).
Lemma upto_spec b : N.of_nat (length (upto b)) = b ∧ NoDup (upto b) ∧ ∀ x, x ∈ upto b ↔ x < b.
Proof.
  unfold upto. rewrite fmap_length, seq_length. split; [by rewrite N2Nat.id|]. split.
  - apply NoDup_fmap_2; [intros ? ?; apply Nat2N.inj | apply NoDup_seq].
  - intros x. rewrite elem_of_list_fmap. split.
    + intros (y & -> & Hy%elem_of_seq). lia.
    + intros Hx. exists (N.to_nat x). rewrite N2Nat.id, elem_of_seq. split; [done|]. lia.
Qed.
Definition cls (m c r : N) : list N := (λ q, q * m + r) <$> upto c.
Lemma cls_spec m c r : r < m → m * c <= 2 ^ 64 → N.of_nat (length (cls m c r)) = c ∧ NoDup (cls m c r) ∧ ∀ x, x ∈ cls m c r → x < 2 ^ 64 ∧ x mod m = r.
Proof.
  intros Hr Hc. destruct (upto_spec c) as (HQl & HQn & HQ). unfold cls. rewrite fmap_length. split_and!; [done| |].
  - apply NoDup_fmap_2; [|done]. intros x y E. apply (N.mul_cancel_r _ _ m); lia.
  - intros x (q & -> & Hq%HQ)%elem_of_list_fmap. split; [nia|]. rewrite N.add_comm, N.mod_add by lia. by apply N.mod_small.
Qed.
(** the sequences whose elements are taken from given lists *)
Fixpoint prod {A} (Xs : list (list A)) : list (list A) := match Xs with [] => [[]] | X :: Xs => x ← X; cons x <$> prod Xs end.
Lemma prod_length {A} (Xs : list (list A)) : N.of_nat (length (prod Xs)) = foldr (λ X acc, N.of_nat (length X) * acc) 1 Xs.
Proof. induction Xs as [|X Xs IH]; [done|]. cbn [prod foldr]. rewrite (bind_length _ (length (prod Xs))) by (intros x; by rewrite fmap_length). by rewrite Nat2N.inj_mul, IH. Qed.
Lemma elem_of_prod {A} (Xs : list (list A)) l : l ∈ prod Xs ↔ Forall2 (λ x X, x ∈ X) l Xs.
Proof.
  revert l. induction Xs as [|X Xs IH]; intros l; cbn [prod].
  - rewrite elem_of_list_singleton. split; [intros ->; constructor|]. intros H. by inversion H.
  - rewrite elem_of_list_bind. split.
    + intros (x & Hl & Hx). apply elem_of_list_fmap in Hl as (l' & -> & H%IH). by constructor.
    + intros H. inversion H as [|x X' l' Xs' Hx Hl]; subst. exists x. split; [|done]. apply elem_of_list_fmap. exists l'. split; [done|]. by apply IH.
Qed.
Lemma prod_NoDup {A} (Xs : list (list A)) : Forall NoDup Xs → NoDup (prod Xs).
Proof.
  induction 1 as [|X Xs HX _ IH]; cbn [prod]; [apply NoDup_singleton|]. apply NoDup_bind'; [done| |].
  - intros x _. by apply NoDup_fmap_2; [intros ? ? [= ?]|].
  - intros x y z _ _ (l & -> & _)%elem_of_list_fmap (l' & E & _)%elem_of_list_fmap. by injection E.
Qed.
Definition digs (Xs : list (list N)) : list (list N) := bytes_of <$> prod Xs.
Lemma digs_length Xs : N.of_nat (length (digs Xs)) = foldr (λ X acc, N.of_nat (length X) * acc) 1 Xs.
Proof. unfold digs. rewrite fmap_length. apply prod_length. Qed.
Lemma digs_words Xs d : length Xs = 8%nat → Forall (λ X, ∀ x, x ∈ X → x < 2 ^ 64) Xs → d ∈ digs Xs → digest d ∧ Forall2 (λ x X, x ∈ X) (words 8 d) Xs.
Proof.
  intros Hl Hb (ws & -> & Hws)%elem_of_list_fmap. apply elem_of_prod in Hws. destruct (bytes_of_ok ws) as [H1 H2]. pose proof (Forall2_length _ _ _ Hws) as Hlen. rewrite Hl in Hlen. rewrite Hlen in H1.
  split; [done|]. rewrite <-Hlen, words_bytes_of; [done|]. apply Forall_lookup. intros i x Hx. destruct (Forall2_lookup_l _ _ _ _ _ Hws Hx) as (X & HX & Hin). rewrite Forall_lookup in Hb. by eapply Hb.
Qed.
Lemma digs_NoDup Xs : length Xs = 8%nat → Forall (λ X, ∀ x, x ∈ X → x < 2 ^ 64) Xs → Forall NoDup Xs → NoDup (digs Xs).
Proof.
  intros Hl Hb Hn. unfold digs. assert (NoDup (words 8 <$> (bytes_of <$> prod Xs))) as H; [|by apply NoDup_fmap_1 in H].
  rewrite <-list_fmap_compose. rewrite (list_fmap_ext (words 8 ∘ bytes_of) Datatypes.id (prod Xs)); [rewrite list_fmap_id; by apply prod_NoDup|].
  intros i ws Hws. unfold compose. change (Datatypes.id ws) with ws. apply elem_of_list_lookup_2, elem_of_prod in Hws. pose proof (Forall2_length _ _ _ Hws) as Hlen. rewrite Hl in Hlen. rewrite <-Hlen. apply words_bytes_of.
  apply Forall_lookup. intros j x Hx. destruct (Forall2_lookup_l _ _ _ _ _ Hws Hx) as (X & HX & Hin). rewrite Forall_lookup in Hb. by eapply Hb.
Qed.
Lemma probe_word h m v i : (i < 8)%nat → ∃ w, words 8 (h (salt ++ v)) !! i = Some w ∧ probe h m v i = w mod m.
Proof. intros Hi. exists (be_word (take 8 (drop (8 * i) (h (salt ++ v))))). split; [by rewrite words_lookup by done|]. unfold probe. by rewrite Nat.mod_small. Qed.
Lemma reports_covered h m k vs v : (∀ d, length (h d) = 64%nat) → 0 < m <= 2 ^ 64 - 8 → k < 2 ^ 63 → covered h m k vs v → reports h (bf_new m k) vs v.
Proof.
  intros Hh Hm Hk Hc. destruct (bloom_contains_exact h m k (FAdd <$> vs) Hh Hm Hk) as (rs & f & E & Hf). destruct (Hf v) as (r & Er & Hr). exists rs, f. split; [done|]. rewrite Er. f_equal. apply Hr.
  replace (added_by (FAdd <$> vs)) with vs; [done|]. clear. unfold added_by. induction vs as [|w vs IH]; [done|]. cbn. by f_equal.
Qed.
Lemma with_digests_length h vs ds : (∀ d, length (h d) = 64%nat) → Forall digest ds → ∀ x, length (with_digests h vs ds x) = 64%nat.
Proof.
  intros Hh. revert ds. induction vs as [|v vs IH]; intros [|d ds] Hd x; cbn [with_digests]; [apply Hh..|]. apply Forall_cons in Hd as [[H1 H2] Hd]. unfold with_digest. case_decide; [done|]. by apply IH.
Qed.
Lemma with_digests_at h vs ds i v d : NoDup vs → vs !! i = Some v → ds !! i = Some d → with_digests h vs ds (salt ++ v) = d.
Proof.
  revert ds i. induction vs as [|w vs IH]; intros ds i Hn Hv Hd; [done|]. apply NoDup_cons in Hn as [Hw Hn]. destruct ds as [|e ds]; [done|]. cbn [with_digests]. unfold with_digest. destruct i as [|i]; cbn in Hv, Hd.
  - injection Hv as ->. injection Hd as ->. by rewrite decide_True.
  - rewrite decide_False; [by eapply IH|]. intros E. apply app_inv_head in E as <-. apply Hw. by eapply elem_of_list_lookup_2.
Qed.
Lemma probe_word_mod h m v i : ∃ w, words 8 (h (salt ++ v)) !! (i mod 8)%nat = Some w ∧ probe h m v i = w mod m.
Proof. assert (i mod 8 < 8)%nat as Hi by (apply Nat.mod_upper_bound; lia). exists (be_word (take 8 (drop (8 * (i mod 8)) (h (salt ++ v))))). split; [by rewrite words_lookup by done|done]. Qed.
Lemma bind_length {A B} (f : A → list B) (X : list A) c : (∀ x, x ∈ X → N.of_nat (length (f x)) = c) → N.of_nat (length (x ← X; f x)) = N.of_nat (length X) * c.
Proof.
  intros H. induction X as [|x X IH]; [done|]. change (x ← x :: X; f x) with (f x ++ (x ← X; f x)). rewrite app_length, Nat2N.inj_add, IH, H by (intros; try apply H; set_solver). cbn [length]. lia.
Qed.

Opaque upto.
(** the digests of [small]: the queried value's words all fall on the first position of the added value *)
Section small.
  Context (m c : N) (Hm : 0 < m) (Hc : m * c <= 2 ^ 64).
  Definition anyw : list N := upto (2 ^ 64).
  Definition w0 (d : list N) : N := default 0 (words 8 d !! 0%nat).
  Definition small_v (da : list N) : list (list N) := digs (replicate 8 (cls m c (w0 da mod m))).
  Definition small : list (list (list N)) := da ← digs (replicate 8 anyw); (λ dv, [dv; da]) <$> small_v da.
  Lemma small_v_spec da : N.of_nat (length (small_v da)) = c ^ 8 ∧ NoDup (small_v da) ∧ ∀ dv, dv ∈ small_v da → digest dv ∧ ∀ i w, words 8 dv !! i = Some w → w mod m = w0 da mod m.
  Proof.
    destruct (cls_spec m c (w0 da mod m)) as (H1 & H2 & H3); [apply N.mod_lt; lia|done|]. unfold small_v. split_and!.
    - rewrite digs_length. cbn [replicate foldr]. rewrite H1. lia.
    - apply digs_NoDup; [done| |]; apply Forall_replicate; [apply H3|done].
    - intros dv Hd. apply digs_words in Hd as [Hd Hw]; [|done|apply Forall_replicate; apply H3]. split; [done|]. intros i w Hi.
      destruct (Forall2_lookup_l _ _ _ _ _ Hw Hi) as (X & HX & Hin). apply lookup_replicate in HX as [-> _]. by apply H3.
  Qed.
  Lemma small_spec : N.of_nat (length small) = (2 ^ 64) ^ 8 * c ^ 8 ∧ NoDup small ∧
    ∀ ds, ds ∈ small → ∃ dv da, ds = [dv; da] ∧ digest da ∧ digest dv ∧ ∀ i w, words 8 dv !! i = Some w → w mod m = w0 da mod m.
  Proof.
    destruct (upto_spec (2 ^ 64)) as (H1 & H2 & H3). unfold small. split_and!.
    - rewrite (bind_length _ _ (c ^ 8)); [|intros x _; rewrite fmap_length; apply small_v_spec]. rewrite digs_length. unfold anyw. generalize dependent (upto (2 ^ 64)). intros X H1 _ _. cbn [replicate foldr]. rewrite H1. generalize (2 ^ 64). intros. lia.
    - apply NoDup_bind'.
      + apply digs_NoDup; [done| |]; apply Forall_replicate; [apply H3|done].
      + intros da _. apply NoDup_fmap_2; [|apply small_v_spec]. intros x y E. by injection E.
      + intros x y z _ _ Hx Hy. apply elem_of_list_fmap in Hx as (dx & -> & _). apply elem_of_list_fmap in Hy as (dy & E & _). by injection E.
    - intros ds Hd. apply elem_of_list_bind in Hd as (da & Hd & Ha). apply elem_of_list_fmap in Hd as (dv & -> & Hv). exists dv, da. split; [done|].
      apply digs_words in Ha as [Ha _]; [|done|apply Forall_replicate; apply H3]. split; [done|]. by apply small_v_spec.
  Qed.
End small.

(** the digests of [half]: in a filter of 3 bits and 2 hash functions, both positions of the queried value are among the four of two added values *)
Section half.
  Definition c3 : N := (2 ^ 64 - 1) / 3.
  Definition pairs : list (N * N) := r ← [0; 1; 2]; s ← [0; 1; 2]; [(r, s)].
  Definition hit (pat : list (N * N)) : bool :=
    match pat with [(q1, q2); (a1, a2); (b1, b2)] => bool_decide (q1 ∈ [a1; a2; b1; b2]) && bool_decide (q2 ∈ [a1; a2; b1; b2]) | _ => false end.
  Definition pats : list (list (N * N)) := filter (λ p, hit p = true) (prod [pairs; pairs; pairs]).
  Definition D (rs : N * N) : list (list N) := digs (cls 3 c3 rs.1 :: cls 3 c3 rs.2 :: replicate 6 (upto (2 ^ 64))).
  Definition half : list (list (list N)) := pat ← pats; prod (D <$> pat).
  Lemma pats_facts : N.of_nat (length pats) = 495 ∧ NoDup pats ∧ ∀ pat, pat ∈ pats → hit pat = true ∧ ∀ rs, rs ∈ pat → rs.1 < 3 ∧ rs.2 < 3.
  Proof.
    split; [by vm_compute|]. split; [apply (bool_decide_unpack _); by vm_compute|]. intros pat Hp. apply elem_of_list_filter in Hp as [Hh Hp]. split; [done|]. intros rs Hrs.
    apply elem_of_prod in Hp. apply elem_of_list_lookup in Hrs as (i & Hi). destruct (Forall2_lookup_l _ _ _ _ _ Hp Hi) as (X & HX & Hin). assert (X = pairs) as ->. { do 3 (destruct i as [|i]; [by injection HX|]). done. }
    assert (Forall (λ rs : N * N, rs.1 < 3 ∧ rs.2 < 3) pairs) as HF by (vm_compute; repeat constructor). rewrite Forall_forall in HF. by apply HF.
  Qed.
  Lemma D_spec rs : rs.1 < 3 → rs.2 < 3 → N.of_nat (length (D rs)) = c3 * c3 * (2 ^ 64) ^ 6 ∧ NoDup (D rs) ∧
    ∀ d, d ∈ D rs → digest d ∧ ∃ x y, words 8 d !! 0%nat = Some x ∧ words 8 d !! 1%nat = Some y ∧ x mod 3 = rs.1 ∧ y mod 3 = rs.2.
  Proof.
    intros Hr Hs. assert (3 * c3 <= 2 ^ 64) as Hc by (apply N.leb_le; by vm_compute). destruct (cls_spec 3 c3 rs.1 Hr Hc) as (A1 & A2 & A3). destruct (cls_spec 3 c3 rs.2 Hs Hc) as (B1 & B2 & B3). destruct (upto_spec (2 ^ 64)) as (C1 & C2 & C3).
    assert (HF : Forall (λ X, ∀ x, x ∈ X → x < 2 ^ 64) (cls 3 c3 rs.1 :: cls 3 c3 rs.2 :: replicate 6 (upto (2 ^ 64)))).
    { constructor; [apply A3|]. constructor; [apply B3|]. apply Forall_replicate. apply C3. }
    unfold D. split_and!.
    - rewrite digs_length. cbn [replicate foldr]. rewrite A1, B1, C1. lia.
    - apply digs_NoDup; [done|done|]. constructor; [done|]. constructor; [done|]. by apply Forall_replicate.
    - intros d Hd. apply digs_words in Hd as [Hd Hw]; [|done|done]. split; [done|].
      destruct (Forall2_lookup_r _ _ _ 0%nat _ Hw eq_refl) as (x & Hx & X1). destruct (Forall2_lookup_r _ _ _ 1%nat _ Hw eq_refl) as (y & Hy & Y1). exists x, y. exact (conj Hx (conj Hy (conj (proj2 (A3 x X1)) (proj2 (B3 y Y1))))).
  Qed.
  Lemma hit_shape pat : hit pat = true → ∃ r1 r2 r3, pat = [r1; r2; r3].
  Proof. intros H. destruct pat as [|[a b] [|[c d] [|[e f] [|]]]]; try discriminate H. by eexists _, _, _. Qed.
  Lemma half_spec : N.of_nat (length half) = 495 * (c3 * c3 * (2 ^ 64) ^ 6) ^ 3 ∧ NoDup half ∧
    ∀ ds, ds ∈ half → ∃ pat, hit pat = true ∧ Forall2 (λ d (rs : N * N), digest d ∧ ∃ x y, words 8 d !! 0%nat = Some x ∧ words 8 d !! 1%nat = Some y ∧ x mod 3 = rs.1 ∧ y mod 3 = rs.2) ds pat.
  Proof.
    destruct pats_facts as (P1 & P2 & P3).
    assert (HF : ∀ pat ds, pat ∈ pats → ds ∈ prod (D <$> pat) → Forall2 (λ d (rs : N * N), digest d ∧ ∃ x y, words 8 d !! 0%nat = Some x ∧ words 8 d !! 1%nat = Some y ∧ x mod 3 = rs.1 ∧ y mod 3 = rs.2) ds pat).
    { intros pat ds Hp Hd. apply elem_of_prod in Hd. apply (Forall2_fmap_r D (∈)) in Hd. destruct (P3 _ Hp) as [_ Hb]. apply Forall2_same_length_lookup_2; [exact (Forall2_length _ _ _ Hd)|]. intros i d rs Hi Hrs.
      apply D_spec; [apply Hb; by eapply elem_of_list_lookup_2..|]. exact (Forall2_lookup_lr _ _ _ _ _ _ Hd Hi Hrs). }
    unfold half. split_and!.
    - rewrite (bind_length _ _ ((c3 * c3 * (2 ^ 64) ^ 6) ^ 3)); [rewrite P1; reflexivity|]. intros pat Hp. rewrite prod_length. destruct (P3 _ Hp) as [Hh Hb].
      destruct (hit_shape _ Hh) as (r1 & r2 & r3 & ->). change (D <$> [r1; r2; r3]) with [D r1; D r2; D r3]. cbn [foldr].
      assert (HD : ∀ r, r ∈ [r1; r2; r3] → N.of_nat (length (D r)) = c3 * c3 * (2 ^ 64) ^ 6). { intros r Hr. destruct (Hb r Hr) as [X1 X2]. exact (proj1 (D_spec r X1 X2)). }
      rewrite (HD r1), (HD r2), (HD r3) by (rewrite !elem_of_cons; tauto). clear.
      generalize (c3 * c3 * (2 ^ 64) ^ 6). intros. lia.
    - apply NoDup_bind'; [exact P2| |].
      + intros pat Hp. apply prod_NoDup. apply Forall_fmap, Forall_forall. intros rs Hrs. destruct (P3 _ Hp) as [_ Hb]. destruct (Hb _ Hrs) as [X1 X2]. exact (proj1 (proj2 (D_spec rs X1 X2))).
      + intros p q ds Hp Hq H1 H2. apply HF in H1; [|exact Hp]. apply HF in H2; [|exact Hq]. clear -H1 H2. revert q H2. induction H1 as [|d rs ds p (_ & x & y & Hx & Hy & E1 & E2) H1 IH]; intros q H2; [by inversion H2|].
        inversion H2 as [|? rs' ? q' (_ & x' & y' & Hx' & Hy' & E1' & E2') H3]; subst. f_equal; [|by apply IH]. destruct rs, rs'. cbn in *. congruence.
    - intros ds Hd. apply elem_of_list_bind in Hd as (pat & Hd & Hp). exists pat. split; [exact (proj1 (P3 _ Hp))|exact (HF _ _ Hp Hd)].
  Qed.
End half.
