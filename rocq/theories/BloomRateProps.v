(** Property C89: every hash function of a Bloom filter counts. *)
From Verif Require Import Base History BitmapModel BloomModel BloomSpec BloomProofs BloomProps BloomRateSpec.
Open Scope N_scope.

(** ** bytes and words *)
Lemma be_word_app l b : be_word (l ++ [b]) = be_word l * 256 + b.
Proof. unfold be_word. by rewrite fold_left_app. Qed.
Lemma be_word_lt l : Forall (λ b, b < 256) l → be_word l < 256 ^ N.of_nat (length l).
Proof.
  induction l as [|b l IH] using rev_ind; [done|]. rewrite Forall_app, Forall_singleton. intros [Hl Hb]. specialize (IH Hl).
  rewrite be_word_app, app_length. cbn [length]. rewrite Nat.add_1_r, Nat2N.inj_succ, N.pow_succ_r'. lia.
Qed.
Lemma be_word_inj l l' : length l = length l' → Forall (λ b, b < 256) l → Forall (λ b, b < 256) l' → be_word l = be_word l' → l = l'.
Proof.
  revert l'. induction l as [|b l IH] using rev_ind; intros l'; [by destruct l'|]. destruct l' as [|b' l' _] using rev_ind; rewrite !app_length; cbn [length]; [lia|].
  intros Hlen. rewrite !Forall_app, !Forall_singleton, !be_word_app. intros [Hl Hb] [Hl' Hb'] E.
  assert (b = b' ∧ be_word l = be_word l') as [-> E2] by lia. f_equal. apply IH; [lia | done..].
Qed.
Lemma words_inj n : ∀ d d', length d = (8 * n)%nat → length d' = (8 * n)%nat → Forall (λ b, b < 256) d → Forall (λ b, b < 256) d' → words n d = words n d' → d = d'.
Proof.
  induction n as [|n IH]; intros d d' Hd Hd' Hb Hb'. { by destruct d, d'. }
  cbn [words]. intros [= E1 E2]. rewrite <- (take_drop 8 d), <- (take_drop 8 d'). f_equal.
  - apply be_word_inj; [rewrite !take_length; lia | by apply Forall_take | by apply Forall_take | done].
  - apply IH; [rewrite drop_length; lia | rewrite drop_length; lia | by apply Forall_drop | by apply Forall_drop | done].
Qed.
Lemma words_bound n : ∀ d, length d = (8 * n)%nat → Forall (λ b, b < 256) d → Forall (λ w, w < 2 ^ 64) (words n d).
Proof.
  induction n as [|n IH]; intros d Hd Hb; cbn [words]; constructor.
  - assert (Hl : length (take 8 d) = 8%nat) by (rewrite take_length; lia). pose proof (be_word_lt (take 8 d) ltac:(by apply Forall_take)) as H. rewrite Hl in H. exact H.
  - apply IH; [rewrite drop_length; lia | by apply Forall_drop].
Qed.
(** the bytes of a word, and of a list of words *)
Definition be_bytes (x : N) : list N := rev (le_bytes 8 x).
Lemma be_word_rev l : be_word (rev l) = le_word l.
Proof. induction l as [|b l IH]; [done|]. cbn [rev le_word]. rewrite be_word_app, IH. lia. Qed.
Lemma be_bytes_word x : x < 2 ^ 64 → be_word (be_bytes x) = x.
Proof. intros H. unfold be_bytes. rewrite be_word_rev. by apply le_word_bytes. Qed.
Lemma le_bytes_small n x : Forall (λ b, b < 256) (le_bytes n x).
Proof. revert x. induction n as [|n IH]; intros x; cbn [le_bytes]; constructor; [|done]. by apply N.mod_lt. Qed.
Lemma be_bytes_ok x : length (be_bytes x) = 8%nat ∧ Forall (λ b, b < 256) (be_bytes x).
Proof. unfold be_bytes. rewrite rev_length, le_bytes_length. split; [done|]. apply Forall_rev, le_bytes_small. Qed.
Definition bytes_of (ws : list N) : list N := concat (be_bytes <$> ws).
Lemma bytes_of_ok ws : length (bytes_of ws) = (8 * length ws)%nat ∧ Forall (λ b, b < 256) (bytes_of ws).
Proof.
  unfold bytes_of. induction ws as [|w ws [IH1 IH2]]; [split; [done | constructor]|]. cbn [fmap list_fmap concat length]. destruct (be_bytes_ok w) as [Hl Hb].
  rewrite app_length, Hl, IH1, Forall_app. split; [lia | done].
Qed.
Lemma words_bytes_of ws : Forall (λ w, w < 2 ^ 64) ws → words (length ws) (bytes_of ws) = ws.
Proof.
  induction 1 as [|w ws Hw _ IH]; [done|]. unfold bytes_of. cbn [fmap list_fmap concat length words]. destruct (be_bytes_ok w) as [Hl _].
  rewrite take_app_alt, drop_app_alt by done. rewrite be_bytes_word by done. f_equal. exact IH.
Qed.

(** ** counting *)
Lemma range b : ∃ l, N.of_nat (length l) = b ∧ NoDup l ∧ ∀ x, x ∈ l ↔ x < b.
Proof.
  exists (N.of_nat <$> seq 0 (N.to_nat b)). rewrite fmap_length, seq_length. split; [by rewrite N2Nat.id|]. split.
  - apply NoDup_fmap_2; [intros ? ?; apply Nat2N.inj | apply NoDup_seq].
  - intros x. rewrite elem_of_list_fmap. split.
    + intros (y & -> & Hy%elem_of_seq). lia.
    + intros Hx. exists (N.to_nat x). rewrite N2Nat.id, elem_of_seq. split; [done|]. lia.
Qed.
(** the sequences of length k over a list *)
Fixpoint seqs (X : list N) (k : nat) : list (list N) := match k with O => [[]] | S k => x ← X; (cons x) <$> seqs X k end.
Lemma bind_length {A B} (f : A → list B) c (l : list A) : (∀ x, length (f x) = c) → length (x ← l; f x) = (length l * c)%nat.
Proof. intros H. induction l as [|x l IH]; [done|]. rewrite bind_cons, app_length, H, IH. cbn [length]. lia. Qed.
Lemma seqs_length X k : N.of_nat (length (seqs X k)) = N.of_nat (length X) ^ N.of_nat k.
Proof.
  induction k as [|k IH]; [done|]. cbn [seqs]. rewrite (bind_length _ (length (seqs X k))) by (intros x; by rewrite fmap_length).
  rewrite Nat2N.inj_mul, IH, Nat2N.inj_succ, N.pow_succ_r'. done.
Qed.
Lemma elem_of_seqs X k l : l ∈ seqs X k ↔ length l = k ∧ Forall (λ x, x ∈ X) l.
Proof.
  revert l. induction k as [|k IH]; intros l; cbn [seqs].
  - rewrite elem_of_list_singleton. split; [intros ->; by split|]. intros [H _]. by destruct l.
  - rewrite elem_of_list_bind. split.
    + intros (x & Hl & Hx). apply elem_of_list_fmap in Hl as (l' & -> & [H1 H2]%IH). split; [cbn; lia|]. by constructor.
    + destruct l as [|x l]; [by intros [? _]|]. intros [[= H1] H2]. inversion H2; subst. exists x. split; [|done]. apply elem_of_list_fmap. exists l. split; [done|]. by apply IH.
Qed.
Lemma NoDup_bind_cons X (Y : list (list N)) : NoDup X → NoDup Y → NoDup (x ← X; cons x <$> Y).
Proof.
  intros HX HY. induction HX as [|x X Hx _ IH]; [constructor|]. cbn [mbind list_bind]. apply NoDup_app. split; [by apply NoDup_fmap_2; [intros ? ? [= ?]|]|]. split; [|exact IH].
  intros l (l' & -> & _)%elem_of_list_fmap Hin. change (x :: l' ∈ (x ← X; cons x <$> Y)) in Hin. apply elem_of_list_bind in Hin as (x' & Hin & Hx').
  apply elem_of_list_fmap in Hin as (l2 & [= <- _] & _). done.
Qed.
Lemma seqs_NoDup X k : NoDup X → NoDup (seqs X k).
Proof. intros HX. induction k as [|k IH]; cbn [seqs]; [apply NoDup_singleton | by apply NoDup_bind_cons]. Qed.
(** an injective image inside a list *)
Lemma inj_count {A B} `{EqDecision B} (f : A → B) (L : list A) (K : list B) : NoDup L → (∀ x y, x ∈ L → y ∈ L → f x = f y → x = y) → (∀ x, x ∈ L → f x ∈ K) → (length L <= length K)%nat.
Proof.
  intros HL Hinj Hin. rewrite <- (fmap_length f L). apply submseteq_length, NoDup_submseteq.
  - clear Hin. induction HL as [|x L Hx HL IH]; [constructor|]. cbn. apply NoDup_cons. split.
    + intros (y & E & Hy)%elem_of_list_fmap. apply Hinj in E; [|by left|by right]. by subst.
    + apply IH. intros y z Hy Hz. apply Hinj; by right.
  - intros b (x & -> & Hx)%elem_of_list_fmap. by apply Hin.
Qed.

Section rate.
  Context (h : list N → list N) (Hh : ∀ d, length (h d) = 64%nat).
  Lemma with_digest_length v d : length d = 64%nat → ∀ x, length (with_digest h v d x) = 64%nat.
  Proof using Hh. intros Hd x. unfold with_digest. by case_decide. Qed.
  Lemma with_digest_probe m v d w i : w ≠ v → probe (with_digest h v d) m w i = probe h m w i.
  Proof using. intros Hne. unfold probe, with_digest. case_decide as E; [|done]. by apply app_inv_head in E. Qed.
  Lemma with_digest_same m v d i : probe (with_digest h v d) m v i = be_word (take 8 (drop (8 * (i mod 8)) d)) mod m.
  Proof using. unfold probe, with_digest. by rewrite decide_True. Qed.
  Lemma reported_covered m k ops v d : 0 < m <= 2 ^ 64 - 8 → k < 2 ^ 63 → digest d →
    reported h m k ops v d ↔ covered (with_digest h v d) m k (added_by ops) v.
  Proof using Hh.
    intros Hm Hk [Hd _]. destruct (bloom_contains_exact (with_digest h v d) m k ops (with_digest_length v d Hd) Hm Hk) as (rs & f & E & Hf).
    destruct (Hf v) as (r & Er & Hr). rewrite <- Hr. split.
    - intros (rs' & f' & E' & Ec). congruence.
    - intros ->. by exists rs, f.
  Qed.

  (** C89 for at most 8 hash functions: whatever was added and whatever its digests are, at most a
      fraction (n·k/m)^k of the digests of a value that was not added makes the filter report it *)
  Theorem bloom_error_rate_partial m k ops v (L : list (list N)) : 0 < m <= 2 ^ 64 - 8 → k <= 8 → v ∉ added_by ops →
    NoDup L → (∀ d, d ∈ L → digest d ∧ reported h m k ops v d) → rate_bound m k (N.of_nat (length (added_by ops))) (N.of_nat (length L)).
  Proof using Hh.
    intros Hm Hk Hv HL Hin. destruct (range (per_position m)) as (Q & HQl & _ & HQ). destruct (range (2 ^ 64)) as (W & HWl & _ & HW).
    set (P := w ← added_by ops; probe h m w <$> seq 0 (N.to_nat k)).
    set (X := p ← P; (λ q, q * m + p) <$> Q).
    set (K := a ← seqs X (N.to_nat k); (app a) <$> seqs W (8 - N.to_nat k)).
    assert (HPl : length P = (length (added_by ops) * N.to_nat k)%nat).
    { unfold P. apply bind_length. intros w. by rewrite fmap_length, seq_length. }
    assert (HXl : N.of_nat (length X) = N.of_nat (length (added_by ops)) * k * per_position m).
    { unfold X. rewrite (bind_length _ (length Q)) by (intros p; by rewrite fmap_length). rewrite Nat2N.inj_mul, HQl, HPl, Nat2N.inj_mul, N2Nat.id. done. }
    assert (HKl : N.of_nat (length K) = (N.of_nat (length (added_by ops)) * k * per_position m) ^ k * (2 ^ 64) ^ (8 - k)).
    { unfold K. rewrite (bind_length _ (length (seqs W (8 - N.to_nat k)))) by (intros a; by rewrite fmap_length).
      rewrite Nat2N.inj_mul, !seqs_length, HXl, HWl, Nat2N.inj_sub, N2Nat.id. done. }
    assert (Hc : (length L <= length K)%nat).
    { apply (inj_count (words 8)); [done | |].
      - intros x y [[Hx1 Hx2] _]%Hin [[Hy1 Hy2] _]%Hin. by apply words_inj.
      - intros d Hd. destruct (Hin d Hd) as [Hdig Hrep]. rewrite reported_covered in Hrep by (done || lia). destruct Hdig as [Hd1 Hd2].
        pose proof (words_bound 8 d Hd1 Hd2) as Hwb. pose proof (words_length 8 d) as Hwl. unfold K. apply elem_of_list_bind. exists (take (N.to_nat k) (words 8 d)). split.
        + apply elem_of_list_fmap. exists (drop (N.to_nat k) (words 8 d)). split; [by rewrite take_drop|]. apply elem_of_seqs. rewrite drop_length, Hwl. split; [done|].
          apply Forall_drop. eapply Forall_impl; [exact Hwb|]. intros x. by rewrite HW.
        + apply elem_of_seqs. rewrite take_length, Hwl. split; [lia|]. apply Forall_lookup. intros i x Hx. apply lookup_take_Some in Hx as [Hx Hi].
          assert (Hx2 : x < 2 ^ 64) by (rewrite Forall_lookup in Hwb; by eapply Hwb).
          rewrite words_lookup in Hx by lia. apply (inj Some) in Hx. destruct (Hrep i Hi) as (w & j & Hw & Hj & E).
          rewrite with_digest_same, with_digest_probe in E by (intros ->; done). rewrite Nat.mod_small in E by lia. rewrite Hx in E.
          unfold X. apply elem_of_list_bind. exists (x mod m). split.
          * apply elem_of_list_fmap. exists (x / m). split.
            { rewrite N.mul_comm. apply N.div_mod. lia. }
            apply HQ. unfold per_position. clear -Hx2 Hm.
            assert (2 ^ 64 <= m * ((2 ^ 64 + m - 1) / m)).
            { pose proof (N.div_mod (2 ^ 64 + m - 1) m ltac:(lia)). pose proof (N.mod_lt (2 ^ 64 + m - 1) m ltac:(lia)). lia. }
            pose proof (N.div_mod x m ltac:(lia)). nia.
          * unfold P. apply elem_of_list_bind. exists w. split; [|done]. apply elem_of_list_fmap. exists j. split; [done|]. apply elem_of_seq. lia. }
    unfold rate_bound. assert (Hc' : N.of_nat (length L) <= N.of_nat (length K)) by lia. rewrite HKl in Hc'.
    assert (Hp : (2 ^ 64) ^ (8 - k) * (2 ^ 64) ^ k = 2 ^ 512). { rewrite <- N.pow_add_r. replace (8 - k + k) with 8 by lia. by vm_compute. }
    rewrite <- Hp, N.mul_assoc. apply N.mul_le_mono_r. exact Hc'.
  Qed.

  (** C89 is false beyond: for every k from 9 to 65536 a filter of 2^32 bits to which one value was added
      reports another value for more than the fraction (k/m)^k of its digests *)
  Theorem bloom_error_rate_refuted k w v : 8 < k <= 65536 → w ≠ v →
    ∃ L, NoDup L ∧ (∀ d, d ∈ L → digest d ∧ reported h (2 ^ 32) k [FAdd w] v d) ∧ ¬ rate_bound (2 ^ 32) k 1 (N.of_nat (length L)).
  Proof using Hh.
    intros Hk Hne. set (r := probe h (2 ^ 32) w 0). assert (Hr : r < 2 ^ 32) by (apply N.mod_lt; done).
    destruct (range (2 ^ 32)) as (Q & HQl & HQn & HQ).
    set (Y := (λ q, q * 2 ^ 32 + r) <$> Q). exists (bytes_of <$> seqs Y 8).
    assert (HY : ∀ x, x ∈ Y → x < 2 ^ 64 ∧ x mod 2 ^ 32 = r).
    { intros x (q & -> & Hq%HQ)%elem_of_list_fmap. split; [lia|]. rewrite N.add_comm, N.mod_add by done. by apply N.mod_small. }
    assert (Hseq : ∀ ws, ws ∈ seqs Y 8 → words 8 (bytes_of ws) = ws).
    { intros ws [Hl Hf]%elem_of_seqs. rewrite <- Hl at 1. apply words_bytes_of. eapply Forall_impl; [exact Hf|]. intros x Hx. by apply HY. }
    split_and!.
    - assert (NoDup (words 8 <$> (bytes_of <$> seqs Y 8))) as H.
      { rewrite <- list_fmap_compose. rewrite (list_fmap_ext (words 8 ∘ bytes_of) id (seqs Y 8)); [|intros i ws Hws; cbn; apply Hseq; by eapply elem_of_list_lookup_2].
        rewrite list_fmap_id. apply seqs_NoDup. unfold Y. apply NoDup_fmap_2; [|done]. intros x y E. lia. }
      by apply NoDup_fmap_1 in H.
    - intros d (ws & -> & Hws)%elem_of_list_fmap. pose proof (Hseq _ Hws) as Hw. apply elem_of_seqs in Hws as [Hl Hf]. destruct (bytes_of_ok ws) as [H1 H2]. rewrite Hl in H1.
      assert (Hdg : digest (bytes_of ws)) by done. split; [done|]. apply reported_covered; [done | lia | done |].
      intros i Hi. exists w, 0%nat. split; [cbn; by left|]. split; [lia|]. rewrite with_digest_probe by done. rewrite with_digest_same. fold r.
      assert (Hi8 : (i mod 8 < 8)%nat) by (by apply Nat.mod_upper_bound).
      pose proof (words_lookup 8 (bytes_of ws) (i mod 8) Hi8) as Hlk. rewrite Hw in Hlk. rewrite Forall_lookup in Hf. symmetry. apply HY. by eapply Hf.
    - rewrite fmap_length, seqs_length. unfold Y. rewrite fmap_length, HQl. unfold rate_bound, per_position. clear -Hk.
      replace ((2 ^ 64 + 2 ^ 32 - 1) / 2 ^ 32) with (2 ^ 32) by (by vm_compute). change ((2 ^ 32) ^ N.of_nat 8) with (2 ^ 256). rewrite N.mul_1_l, N.pow_mul_l, <- !N.pow_mul_r.
      intros H. assert (Hk2 : k ^ k * 2 ^ 512 < 2 ^ 256 * 2 ^ (32 * k)).
      { destruct (decide (k <= 16)) as [Hle|Hgt].
        - assert (k = 9 ∨ k = 10 ∨ k = 11 ∨ k = 12 ∨ k = 13 ∨ k = 14 ∨ k = 15 ∨ k = 16) as Hc by lia. destruct Hc as [->|[->|[->|[->|[->|[->|[->| ->]]]]]]]; by vm_compute.
        - assert (k ^ k <= (2 ^ 16) ^ k) by (apply N.pow_le_mono_l; lia). rewrite <- N.pow_mul_r in H0.
          assert (2 ^ (16 * k) * 2 ^ 512 < 2 ^ 256 * 2 ^ (32 * k)); [|eapply N.le_lt_trans; [|done]; by apply N.mul_le_mono_r].
          rewrite <- !N.pow_add_r. apply N.pow_lt_mono_r; lia. }
      apply (N.lt_irrefl (2 ^ (64 * k) * 2 ^ 256)). eapply N.le_lt_trans; [rewrite N.mul_comm; exact H|].
      replace (2 ^ (64 * k)) with (2 ^ (32 * k) * 2 ^ (32 * k)) by (rewrite <- N.pow_add_r; f_equal; lia).
      assert (0 < 2 ^ (32 * k)) by (apply N.neq_0_lt_0, N.pow_nonzero; done). nia.
  Qed.
End rate.
Print Assumptions bloom_error_rate_partial.
Print Assumptions bloom_error_rate_refuted.
(** the hypotheses can be met *)
Example bloom_rate_nonvacuous : ∃ h d, (∀ x, length (h x) = 64%nat) ∧ digest d ∧ [2] ∉ added_by [FAdd [1]] ∧ reported h 1000 3 [FAdd [1]] [2] d.
Proof.
  exists demo_h, (demo_h (salt ++ [1])). split; [apply demo_h_length|]. assert (digest (demo_h (salt ++ [1]))) as Hd. { split; [apply demo_h_length|]. repeat (constructor; [done|]). constructor. }
  split; [done|]. split; [cbn; rewrite elem_of_list_singleton; done|]. apply reported_covered; [apply demo_h_length | done | done | done |]. intros i Hi. exists [1], i. split; [by left|]. split; [done|].
  rewrite with_digest_probe by done. by rewrite with_digest_same.
Qed.
