(** C103: over all digests the nodes could have, every node is chosen equally often. *)
From Verif Require Import Base History RbModel KetamaModel KetamaSpec KetamaProofs KetamaProps SkipCostSpec SkipCostAvg KetamaShareSpec KetamaShareProofs.
Open Scope Z_scope.

(* ---------- sums ---------- *)
Lemma zsum_le {A} (f g : A → Z) l : (∀ a, a ∈ l → f a <= g a) → zsum (f <$> l) <= zsum (g <$> l).
Proof. unfold zsum. induction l as [|a l IH]; intros H; cbn; [done|]. assert (f a <= g a) by (apply H; by left). assert (foldr Z.add 0 (f <$> l) <= foldr Z.add 0 (g <$> l)) by (apply IH; intros b Hb; apply H; by right). lia. Qed.
Lemma zsum_const {A} (l : list A) c : zsum ((λ _, c) <$> l) = Z.of_nat (length l) * c.
Proof. unfold zsum. induction l as [|a l IH]; cbn [fmap list_fmap foldr length]; [lia|]. rewrite IH. lia. Qed.
Lemma zsum_ext {A} (f g : A → Z) l : (∀ a, a ∈ l → f a = g a) → zsum (f <$> l) = zsum (g <$> l).
Proof. intros H. apply Z.le_antisymm; apply zsum_le; intros a Ha; rewrite (H a Ha); lia. Qed.
Lemma zsum_one {A} (l : list A) (P : A → Prop) `{∀ a, Decision (P a)} a : NoDup l → a ∈ l → (∀ b, P b ↔ b = a) → zsum ((λ b, if decide (P b) then 1 else 0) <$> l) = 1.
Proof.
  intros Hl Ha HP. unfold zsum. induction Hl as [|b l Hb Hl IH]; [by apply elem_of_nil in Ha|]. cbn. apply elem_of_cons in Ha as [->|Ha].
  - rewrite decide_True by by apply HP. assert (zsum ((λ b, if decide (P b) then 1 else 0) <$> l) = 0) as E; [|unfold zsum in E; lia].
    rewrite (zsum_ext _ (λ _, 0)); [rewrite zsum_const; lia|]. intros c Hc. rewrite decide_False; [done|]. rewrite HP. intros ->. done.
  - rewrite decide_False; [by rewrite IH|]. rewrite HP. intros ->. done.
Qed.
Lemma total_zsum {A} D n (g : list Z → A → Z) (l : list A) : total D n (λ ws, zsum (g ws <$> l)) = zsum ((λ a, total D n (λ ws, g ws a)) <$> l).
Proof.
  induction l as [|a l IH]. { unfold zsum. cbn. rewrite total_const. lia. }
  rewrite (total_ext D n _ (λ ws, g ws a + zsum (g ws <$> l))) by (intros ws _; reflexivity). rewrite total_plus, IH. reflexivity.
Qed.

(* ---------- equal words are rare ---------- *)
Notation ind P := (if decide P then 1 else 0).
Lemma clash_rare D n m : (m <= n)%nat → 2 * total D n (λ ws, ind (¬ NoDup (take m ws))) * Z.of_nat D <= Z.of_nat m * Z.of_nat m * Z.of_nat D ^ Z.of_nat n.
Proof.
  induction m as [|m IH]; intros Hm.
  { rewrite (total_ext D n _ (λ _, 0)); [rewrite total_const; lia|]. intros ws _. rewrite decide_False; [done|]. intros H. apply H. rewrite take_0. constructor. }
  assert (total D n (λ ws, ind (¬ NoDup (take (S m) ws))) <= total D n (λ ws, ind (¬ NoDup (take m ws))) + zsum ((λ x, total D n (λ ws, ind (ws !!! x = ws !!! m))) <$> seq 0 m)) as H.
  { rewrite <-(total_zsum D n (λ ws x, ind (ws !!! x = ws !!! m))), <-total_plus. apply total_le. intros ws [Hl _]. destruct (lookup_lt_is_Some_2 ws m) as [w Hw]; [lia|].
    assert (0 <= zsum ((λ x, ind (ws !!! x = ws !!! m)) <$> seq 0 m)) as H0. { transitivity (zsum ((λ _ : nat, 0) <$> seq 0 m)); [rewrite zsum_const; lia|]. apply zsum_le. intros. case_decide; lia. }
    destruct (decide (¬ NoDup (take (S m) ws))) as [Hd|]; [|case_decide; lia]. destruct (decide (¬ NoDup (take m ws))) as [|Hn]; [lia|]. apply dec_stable in Hn.
    rewrite (take_S_r _ _ _ Hw) in Hd. destruct (decide (w ∈ take m ws)) as [Hin|Hin]; [|exfalso; apply Hd; apply NoDup_app; split_and!; [done| |apply NoDup_singleton]; intros y Hy Hy'%elem_of_list_singleton; by subst].
    apply elem_of_list_lookup in Hin as [x Hx]. apply lookup_take_Some in Hx as [Hx Hxm].
    assert (1 <= zsum ((λ x, ind (ws !!! x = ws !!! m)) <$> seq 0 m)); [|lia].
    transitivity (zsum ((λ y, ind (y = x)) <$> seq 0 m)); [rewrite (zsum_one (seq 0 m) (λ y, y = x) x); [lia|apply NoDup_seq|apply elem_of_seq; lia|done]|].
    apply zsum_le. intros y _. destruct (decide (y = x)) as [->|]; [|case_decide; lia]. rewrite decide_True; [lia|]. by rewrite (list_lookup_total_correct _ _ _ Hx), (list_lookup_total_correct _ _ _ Hw). }
  specialize (IH ltac:(lia)). set (P := Z.of_nat D ^ Z.of_nat n) in *.
  assert (zsum ((λ x, total D n (λ ws, ind (ws !!! x = ws !!! m))) <$> seq 0 m) * Z.of_nat D = Z.of_nat m * P) as E.
  { transitivity (zsum ((λ x, total D n (λ ws, ind (ws !!! x = ws !!! m)) * Z.of_nat D) <$> seq 0 m)).
    - generalize (seq 0 m). intros l. unfold zsum. induction l as [|x l IHl]; cbn [fmap list_fmap foldr]; [done|]. rewrite Z.mul_add_distr_r, IHl. reflexivity.
    - rewrite (zsum_ext _ (λ _, P)); [rewrite zsum_const, seq_length; done|]. intros x Hx. apply elem_of_seq in Hx. apply total_equal; lia. }
  set (T1 := total D n (λ ws, ind (¬ NoDup (take (S m) ws)))) in *. set (T0 := total D n (λ ws, ind (¬ NoDup (take m ws)))) in *. set (Z1 := zsum _) in *.
  assert (0 <= P) by (apply Z.pow_nonneg; lia). clearbody T1 T0 Z1 P. rewrite Nat2Z.inj_succ. nia.
Qed.

(* ---------- exchanging two nodes ---------- *)
Definition tr (a b i : nat) : nat := if decide (i = a) then b else if decide (i = b) then a else i.
Lemma tr_tr a b i : tr a b (tr a b i) = i. Proof. unfold tr. repeat case_decide; congruence. Qed.
Lemma tr_lt a b i n : (a < n)%nat → (b < n)%nat → (i < n)%nat → (tr a b i < n)%nat. Proof. unfold tr. repeat case_decide; lia. Qed.
(** the position of a word after the exchange *)
Definition pos8 (a b x : nat) : nat := (8 * tr a b (x / 8) + x mod 8)%nat.
Lemma pos8_at a b i c : (c < 8)%nat → pos8 a b (8 * i + c) = (8 * tr a b i + c)%nat.
Proof. intros Hc. unfold pos8. rewrite (Nat.mul_comm 8 i), Nat.div_add_l, (Nat.div_small c), Nat.add_0_r by lia. rewrite (Nat.add_comm (i * 8) c), Nat.mod_add, Nat.mod_small by lia. done. Qed.
Lemma split8 x : x = (8 * (x / 8) + x mod 8)%nat ∧ (x mod 8 < 8)%nat. Proof. split; [apply Nat.div_mod; lia|apply Nat.mod_upper_bound; lia]. Qed.
Lemma pos8_pos8 a b x : pos8 a b (pos8 a b x) = x.
Proof. destruct (split8 x) as [E Hc]. unfold pos8 at 2. rewrite pos8_at by done. rewrite tr_tr. done. Qed.
Lemma pos8_lt a b x n : (a < n)%nat → (b < n)%nat → (x < 8 * n)%nat → (pos8 a b x < 8 * n)%nat.
Proof. intros Ha Hb Hx. destruct (split8 x) as [E Hc]. unfold pos8. assert (tr a b (x / 8) < n)%nat by (apply tr_lt; [done|done|lia]). lia. Qed.
Definition exchange (a b : nat) (ws : list Z) : list Z := (λ x, ws !!! pos8 a b x) <$> seq 0 (length ws).
Lemma exchange_at a b ws x : (x < length ws)%nat → exchange a b ws !!! x = ws !!! pos8 a b x.
Proof. intros Hx. apply list_lookup_total_correct. unfold exchange. rewrite list_lookup_fmap, lookup_seq_lt by done. done. Qed.
Section exchange.
  Context (D n a b : nat) (Ha : (a < n)%nat) (Hb : (b < n)%nat).
  Lemma exchange_draws ws : draws D (8 * n) ws → draws D (8 * n) (exchange a b ws) ∧ exchange a b (exchange a b ws) = ws.
  Proof using Ha Hb.
    intros [Hl Hf]. assert (length (exchange a b ws) = length ws) as El by (unfold exchange; by rewrite fmap_length, seq_length). split; [split; [by rewrite El|]|].
    - apply Forall_forall. unfold exchange. intros w (x & -> & Hx)%elem_of_list_fmap. apply elem_of_seq in Hx. destruct (lookup_lt_is_Some_2 ws (pos8 a b x)) as [v Hv]; [rewrite Hl; apply pos8_lt; lia|].
      rewrite (list_lookup_total_correct _ _ _ Hv). exact (proj1 (Forall_lookup _ _) Hf _ _ Hv).
    - apply list_eq. intros x. destruct (decide (x < length ws)%nat) as [Hx|Hx]; [|rewrite !lookup_ge_None_2; [done|lia|unfold exchange; rewrite !fmap_length, !seq_length; lia]].
      destruct (lookup_lt_is_Some_2 ws x) as [v Hv]; [done|]. rewrite Hv. unfold exchange at 1. rewrite list_lookup_fmap, lookup_seq_lt by lia. cbn [fmap option_fmap option_map].
      rewrite exchange_at by (rewrite Hl; apply pos8_lt; lia). rewrite Nat.add_0_l, pos8_pos8. by rewrite (list_lookup_total_correct _ _ _ Hv).
  Qed.
  Lemma exchange_NoDup ws : draws D (8 * n) ws → NoDup ws → NoDup (exchange a b ws).
  Proof using Ha Hb.
    intros [Hl _] Hnd. unfold exchange. apply NoDup_fmap_2_strong; [|apply NoDup_seq]. intros x y Hx Hy E. apply elem_of_seq in Hx, Hy.
    destruct (lookup_lt_is_Some_2 ws (pos8 a b x)) as [v Hv]; [rewrite Hl; apply pos8_lt; lia|]. destruct (lookup_lt_is_Some_2 ws (pos8 a b y)) as [v' Hv']; [rewrite Hl; apply pos8_lt; lia|].
    rewrite (list_lookup_total_correct _ _ _ Hv), (list_lookup_total_correct _ _ _ Hv') in E. subst v'. rewrite <-(pos8_pos8 a b x), <-(pos8_pos8 a b y). f_equal. by eapply NoDup_lookup.
  Qed.
End exchange.

(* ---------- the ring ---------- *)
Lemma answer_get_after h r ops key x : get_answer h r ops key = Some x ↔ get_after h r ops key x.
Proof.
  unfold get_answer, get_after. split.
  - destruct (run _ _ _) as [[rs s]| |]; [|done..]. intros E. exists rs, s. split; [done|]. destruct (last rs) as [[|y|]|]; try done. by injection E as ->.
  - intros (rs & s & -> & ->). done.
Qed.
Section share.
  Context (D : nat) (HD : Z.of_nat D = 2 ^ 64) (h : bytes → bytes) (Hh : ∀ d, length (h d) = 64%nat) (replicas : Z) (Hr : 1 <= replicas).
  Context (ns : list bytes) (Hns : NoDup ns) (ops : list kt_op) (Hops : ∀ o n, o ∈ ops → n ∈ mentioned o → n ∈ ns) (key : bytes) (Hkey : key ∉ ns).
  Notation n8 := (8 * length ns)%nat.
  Notation H := (drawn_hash h ns).
  Notation ring_of ws := (foldl (after (H ws) replicas) (∅ : ring) ops).
  Notation q := (point h key 0).
  Notation says ws n := (get_answer (H ws) replicas ops key = Some (Some n)).
  Lemma key_point ws : point (H ws) key 0 = q.
  Proof. unfold point. by rewrite drawn_other. Qed.
  Lemma says_owner ws n : draws D n8 ws → says ws n ↔ owner (ring_of ws) q n.
  Proof.
    intros Hd. rewrite answer_get_after, get_after_owner; [by rewrite key_point|intros d; by eapply drawn_length|lia].
  Qed.
  Lemma in_points ws i n p : draws D n8 ws → ns !! i = Some n → p ∈ points (H ws) replicas n ↔ ∃ c, (c < Z.to_nat replicas)%nat ∧ p = Z.to_N (ws !!! (8 * i + c mod 8)%nat).
  Proof.
    intros Hd Hi. unfold points. rewrite elem_of_list_fmap. split.
    - intros (c & -> & Hc). apply elem_of_seq in Hc. exists c. split; [lia|]. by eapply point_node.
    - intros (c & Hc & ->). exists c. split; [symmetry; by eapply point_node|]. apply elem_of_seq. lia.
  Qed.
  Lemma apart ws : draws D n8 ws → NoDup ws → no_collision (H ws) replicas ns.
  Proof.
    intros Hd Hnd n1 n2 p [i Hi]%elem_of_list_lookup [j Hj]%elem_of_list_lookup. rewrite (in_points ws i), (in_points ws j) by done. intros (c & Hc & ->) (c' & Hc' & E).
    apply lookup_lt_Some in Hi as Hil. apply lookup_lt_Some in Hj as Hjl. destruct Hd as [Hl Hf].
    pose proof (Nat.mod_upper_bound c 8 ltac:(lia)) as Hm. pose proof (Nat.mod_upper_bound c' 8 ltac:(lia)) as Hm'.
    destruct (lookup_lt_is_Some_2 ws (8 * i + c mod 8)%nat) as [v Hv]; [lia|]. destruct (lookup_lt_is_Some_2 ws (8 * j + c' mod 8)%nat) as [v' Hv']; [lia|].
    rewrite (list_lookup_total_correct _ _ _ Hv), (list_lookup_total_correct _ _ _ Hv') in E. pose proof (proj1 (Forall_lookup _ _) Hf _ _ Hv). pose proof (proj1 (Forall_lookup _ _) Hf _ _ Hv').
    cbn in *. assert (v = v') as <- by lia. pose proof (NoDup_lookup _ _ _ _ Hnd Hv Hv') as E'. assert (i = j) as <- by lia. congruence.
  Qed.
  Lemma ring_is ws p n : draws D n8 ws → NoDup ws → ring_of ws !! p = Some n ↔ n ∈ current ops ∧ p ∈ points (H ws) replicas n.
  Proof. intros Hd Hnd. eapply ring_exact; [by apply apart|done]. Qed.
  Lemma current_in n : n ∈ current ops → n ∈ ns.
  Proof.
    unfold current. assert (∀ ops cur, (∀ o n, o ∈ ops → n ∈ mentioned o → n ∈ ns) → (∀ n, n ∈ cur → n ∈ ns) → n ∈ foldl current_after cur ops → n ∈ ns) as Hg; [|apply Hg; [done|by intros ? ?%elem_of_nil]].
    clear. intros ops0. induction ops0 as [|o ops0 IH]; intros cur Ho Hc; cbn [foldl]; [apply Hc|]. apply IH; [intros o' m Ho'; apply Ho; by right|].
    intros m. destruct o as [nodes|nodes|k|]; cbn [current_after]; [|by intros [_ ?]%elem_of_list_filter; apply Hc|apply Hc|apply Hc]. intros [Hm|Hm]%elem_of_app; [|by apply Hc]. apply (Ho (KAdd nodes)); [by left|done].
  Qed.
  (** exchanging the digests of two nodes exchanges their roles *)
  Lemma exchange_says ws a b A B : draws D n8 ws → NoDup ws → ns !! a = Some A → ns !! b = Some B → A ∈ current ops → B ∈ current ops → says (exchange a b ws) A ↔ says ws B.
  Proof.
    intros Hd Hnd Ea Eb HA HB. apply lookup_lt_Some in Ea as Ha. apply lookup_lt_Some in Eb as Hb.
    destruct (exchange_draws D (length ns) a b Ha Hb ws Hd) as [Hd' _]. pose proof (exchange_NoDup D (length ns) a b Ha Hb ws Hd Hnd) as Hnd'. rewrite !says_owner by done.
    assert (∀ i n m p, ns !! i = Some n → ns !! tr a b i = Some m → p ∈ points (H (exchange a b ws)) replicas n ↔ p ∈ points (H ws) replicas m) as Hp.
    { intros i n m p Hi Hm. rewrite (in_points _ i) by done. rewrite (in_points _ (tr a b i)) by done. apply lookup_lt_Some in Hi as Hil. destruct Hd as [Hl _].
      assert (∀ c, exchange a b ws !!! (8 * i + c mod 8)%nat = ws !!! (8 * tr a b i + c mod 8)%nat) as Hx; [|by setoid_rewrite Hx].
      intros c. pose proof (Nat.mod_upper_bound c 8 ltac:(lia)). rewrite exchange_at by lia. by rewrite pos8_at. }
    assert (∀ p, is_Some (ring_of (exchange a b ws) !! p) ↔ is_Some (ring_of ws !! p)) as Hdom.
    { intros p. split; intros [n Hn]; apply ring_is in Hn as [Hc Hn]; try done; apply current_in in Hc as Hi; apply elem_of_list_lookup in Hi as [i Hi]; apply lookup_lt_Some in Hi as Hil.
      - destruct (lookup_lt_is_Some_2 ns (tr a b i)) as [m Hm]; [by apply tr_lt|]. exists m. apply ring_is; [done|done|]. split; [|by apply (Hp i n m)].
        unfold tr in Hm. repeat case_decide; subst; congruence.
      - destruct (lookup_lt_is_Some_2 ns (tr a b i)) as [m Hm]; [by apply tr_lt|]. exists m. apply ring_is; [done|done|]. split; [|apply (Hp (tr a b i) m n); [done|by rewrite tr_tr|done]].
        unfold tr in Hm. repeat case_decide; subst; congruence. }
    assert (∀ p, ring_of (exchange a b ws) !! p = Some A ↔ ring_of ws !! p = Some B) as HAB.
    { intros p. rewrite !ring_is by done. rewrite (Hp a A B) by (try done; unfold tr; by rewrite decide_True by done). tauto. }
    unfold owner. setoid_rewrite HAB. setoid_rewrite Hdom. done.
  Qed.
  (** some node is chosen *)
  Lemma says_one ws : draws D n8 ws → NoDup ws → current ops ≠ [] → ∃ n, n ∈ current ops ∧ ∀ m, says ws m ↔ m = n.
  Proof.
    intros Hd Hnd Hc. assert (∀ d, length (H ws d) = 64%nat) as HH by (intros d; by eapply drawn_length).
    destruct (get_total (H ws) HH replicas ltac:(lia) ops key) as [[n|] Hx].
    - exists n. split; [by eapply ketama_get_current; [| |exact Hx]; [done|lia]|]. intros m. apply answer_get_after in Hx. rewrite Hx. split; [by intros [= ->]|by intros ->].
    - exfalso. apply get_after_owner in Hx; [|done|lia]. destruct (current ops) as [|n cur] eqn:E; [done|]. assert (n ∈ current ops) as Hn by (rewrite E; by left). apply current_in in Hn as Hi. apply elem_of_list_lookup in Hi as [i Hi].
      assert (ring_of ws !! Z.to_N (ws !!! (8 * i + 0)%nat) = Some n) as Hl.
      { apply ring_is; [done|done|]. split; [done|]. apply (in_points ws i); [done|done|]. exists 0%nat. split; [lia|done]. }
      rewrite Hx in Hl. by rewrite lookup_empty in Hl.
  Qed.
  Notation free_says n := (total D n8 (λ ws, ind (NoDup ws ∧ says ws n))).
  Lemma free_equal A B : A ∈ current ops → B ∈ current ops → free_says A = free_says B.
  Proof.
    intros HA HB. apply current_in in HA as Ha. apply current_in in HB as Hb. apply elem_of_list_lookup in Ha as [a Ea], Hb as [b Eb]. apply lookup_lt_Some in Ea as Ha. apply lookup_lt_Some in Eb as Hb.
    rewrite <-(total_reorder D n8 (λ ws, ind (NoDup ws ∧ says ws A)) (exchange a b)); [|intros ws Hd; by apply (exchange_draws D (length ns))].
    apply total_ext. intros ws Hd. destruct (exchange_draws D (length ns) a b Ha Hb ws Hd) as [Hd' Hinv]. apply decide_ext. split; intros [Hnd Hs].
    - assert (NoDup ws) as Hnd0. { rewrite <-Hinv. by apply (exchange_NoDup D (length ns)). } split; [done|]. by apply (exchange_says ws a b A B).
    - split; [by apply (exchange_NoDup D (length ns))|]. by apply (exchange_says ws a b A B).
  Qed.
  Lemma free_share A : A ∈ current ops → free_says A * live ops = total D n8 (λ ws, ind (NoDup ws)).
  Proof.
    intros HA. unfold live. set (l := remove_dups (current ops)). assert (NoDup l) as Hl by apply NoDup_remove_dups. assert (∀ n, n ∈ l ↔ n ∈ current ops) as Hin by (intros n; apply elem_of_remove_dups).
    transitivity (total D n8 (λ ws, zsum ((λ n, ind (NoDup ws ∧ says ws n)) <$> l))).
    - rewrite total_zsum. rewrite (zsum_ext _ (λ _, free_says A)); [rewrite zsum_const; apply Z.mul_comm|]. intros B HB%Hin. by apply free_equal.
    - apply total_ext. intros ws Hd. destruct (decide (NoDup ws)) as [Hnd|Hnd].
      + destruct (says_one ws Hd Hnd) as (n & Hn & Hone); [by intros E; rewrite E in HA; apply elem_of_nil in HA|]. apply (zsum_one l (λ m, NoDup ws ∧ says ws m) n); [done|by apply Hin|]. intros m. rewrite Hone. tauto.
      + rewrite (zsum_ext _ (λ _, 0)); [rewrite zsum_const; lia|]. intros n _. rewrite decide_False; [done|]. tauto.
  Qed.
End share.
Lemma bounds D n (P Q : list Z → Prop) `{∀ ws, Decision (P ws)} `{∀ ws, Decision (Q ws)} L F : 1 <= L →
  total D n (λ ws, ind (NoDup ws ∧ P ws)) * L = total D n (λ ws, ind (NoDup ws)) → F = Z.of_nat n * Z.of_nat n → (∀ ws, draws D n ws → P ws ↔ Q ws) →
  Z.of_nat D ^ Z.of_nat n * (2 * Z.of_nat D - F) <= 2 * total D n (λ ws, ind (Q ws)) * L * Z.of_nat D <= Z.of_nat D ^ Z.of_nat n * (2 * Z.of_nat D + L * F).
Proof.
  intros HL Hfree HF HPQ. rewrite <-(total_ext D n (λ ws, ind (P ws)) (λ ws, ind (Q ws))) by (intros ws Hws; apply decide_ext, HPQ, Hws).
  pose proof (clash_rare D n n ltac:(lia)) as Hcol. rewrite <-HF in Hcol.
  rewrite (total_ext D n (λ ws, ind (¬ NoDup (take n ws))) (λ ws, ind (¬ NoDup ws))) in Hcol by (intros ws [Hl _]; by rewrite <-Hl, firstn_all).
  assert (total D n (λ ws, ind (NoDup ws)) + total D n (λ ws, ind (¬ NoDup ws)) = Z.of_nat D ^ Z.of_nat n) as Htot.
  { rewrite <-total_plus, <-(Z.mul_1_r (_ ^ _)), <-total_const. apply total_ext. intros ws _. destruct (decide (NoDup ws)), (decide (¬ NoDup ws)); try done; lia. }
  assert (total D n (λ ws, ind (NoDup ws ∧ P ws)) <= total D n (λ ws, ind (P ws))) as H1. { apply total_le. intros ws _. destruct (decide (NoDup ws ∧ P ws)) as [[? ?]|]; [by rewrite decide_True|case_decide; lia]. }
  assert (total D n (λ ws, ind (P ws)) <= total D n (λ ws, ind (NoDup ws ∧ P ws)) + total D n (λ ws, ind (¬ NoDup ws))) as H2.
  { rewrite <-total_plus. apply total_le. intros ws _. destruct (decide (P ws)); [|repeat case_decide; lia]. destruct (decide (NoDup ws)); [rewrite decide_True by done|rewrite (decide_True (P := ¬ _)) by done]; repeat case_decide; lia. }
  assert (0 <= total D n (λ ws, ind (¬ NoDup ws))) as H3. { transitivity (total D n (λ _, 0)); [rewrite total_const; lia|]. apply total_le. intros ws _. case_decide; lia. }
  set (T := Z.of_nat D ^ Z.of_nat n) in *. set (c := total D n (λ ws, ind (P ws))) in *. set (a := total D n (λ ws, ind (NoDup ws ∧ P ws))) in *. set (f := total D n (λ ws, ind (NoDup ws))) in *. set (b := total D n (λ ws, ind (¬ NoDup ws))) in *.
  assert (0 <= Z.of_nat D) as HD by lia. set (d := Z.of_nat D) in *. clearbody T c a f b d. clear HF HPQ.
  assert (a * L <= c * L) by nia. assert (c * L <= a * L + b * L) by nia. assert (0 <= b * d) by nia. assert (b * L * d <= b * L * d) by lia.
  assert (2 * (b * d) * L <= F * T * L) by nia. split; nia.
Qed.

Lemma words_Z : Z.of_nat words = 2 ^ 64.
Proof. apply Z2Nat.id. done. Qed.
Lemma live_pos ops A : A ∈ current ops → 1 <= live ops.
Proof. intros HA. unfold live. apply elem_of_remove_dups in HA. destruct (remove_dups (current ops)); [by apply elem_of_nil in HA|]. cbn [length]. lia. Qed.
Section final.
  Context (h : bytes → bytes) (Hh : ∀ d, length (h d) = 64%nat) (replicas : Z) (Hr : 1 <= replicas) (ns : list bytes) (Hns : NoDup ns) (key : bytes) (Hkey : key ∉ ns).
  Notation N := (Z.of_nat (length ns)).
  Notation draws_of := (8 * length ns)%nat.
  (** as many as there are lists of 64-bit words, eight for each node *)
  Notation all := ((2 ^ 64) ^ (8 * N)).
  Notation mentions_only ops := (∀ o n, o ∈ ops → n ∈ mentioned o → n ∈ ns).
  Notation answers ws ops := (get_answer (drawn_hash h ns ws) replicas ops key).
  (** leaving aside the draws in which some word occurs twice, every current node gets exactly its share *)
  Theorem ketama_equal_share ops A : mentions_only ops → A ∈ current ops →
    how_many draws_of (λ ws, NoDup ws ∧ answers ws ops = Some (Some A)) * live ops = how_many draws_of (λ ws, NoDup ws).
  Proof using Hh Hr Hns Hkey. intros Ho HA. exact (free_share words words_Z h Hh replicas Hr ns Hns ops Ho key Hkey A HA). Qed.
  Lemma share_of ops A (Q : list Z → Prop) `{∀ ws, Decision (Q ws)} : mentions_only ops → A ∈ current ops → (∀ ws, draws words draws_of ws → answers ws ops = Some (Some A) ↔ Q ws) →
    all * (2 ^ 64 - 32 * N * N) <= how_many draws_of Q * live ops * 2 ^ 64 <= all * (2 ^ 64 + live ops * (32 * N * N)).
  Proof using Hh Hr Hns Hkey.
    intros Ho HA HQ. pose proof (bounds words draws_of (λ ws, answers ws ops = Some (Some A)) Q (live ops) (64 * N * N) (live_pos ops A HA) (ketama_equal_share ops A Ho HA)) as B.
    unfold how_many. rewrite words_Z in B. assert (Z.of_nat draws_of = 8 * N) as E8 by lia. rewrite E8 in B. specialize (B ltac:(lia) HQ).
    set (c := total words draws_of (λ ws, ind (Q ws))) in *. clearbody c. set (T := all) in *. clearbody T. set (L := live ops) in *. clearbody L. set (d := 2 ^ 64) in *. clearbody d.
    set (F := N * N). replace (64 * N * N) with (64 * F) in B by (unfold F; lia). replace (32 * N * N) with (32 * F) by (unfold F; lia). clearbody F. clear -B. nia.
  Qed.
  (** over all draws the share of a node is 1 / live, up to the chance that two words are equal *)
  Theorem ketama_average_share ops A : mentions_only ops → A ∈ current ops →
    all * (2 ^ 64 - 32 * N * N) <= how_many draws_of (λ ws, answers ws ops = Some (Some A)) * live ops * 2 ^ 64 <= all * (2 ^ 64 + live ops * (32 * N * N)).
  Proof using Hh Hr Hns Hkey. intros Ho HA. by apply (share_of ops A). Qed.
  Lemma drawn_hash_length ws : draws words draws_of ws → ∀ d, length (drawn_hash h ns ws d) = 64%nat.
  Proof using Hh. intros Hd d. by apply (drawn_length words). Qed.
  Lemma answer_total ws ops : draws words draws_of ws → ∃ x, answers ws ops = Some x.
  Proof using Hh Hr. intros Hd. destruct (get_total (drawn_hash h ns ws) (drawn_hash_length ws Hd) replicas ltac:(clear -Hr; lia) ops key) as [x Hx]. exists x. by apply answer_get_after. Qed.
  (** adding a node sends this share of the keys elsewhere, and no more *)
  Theorem ketama_average_added ops n : mentions_only ops → n ∈ ns → n ∉ current ops →
    all * (2 ^ 64 - 32 * N * N) <= how_many draws_of (λ ws, answers ws (ops ++ [KAdd [n]]) ≠ answers ws ops) * (live ops + 1) * 2 ^ 64 <= all * (2 ^ 64 + (live ops + 1) * (32 * N * N)).
  Proof using Hh Hr Hns Hkey.
    intros Ho Hn Hc. assert (current (ops ++ [KAdd [n]]) = n :: current ops) as Ecur by (unfold current; rewrite foldl_app; done).
    assert (live (ops ++ [KAdd [n]]) = live ops + 1) as <-. { unfold live. rewrite Ecur. cbn [remove_dups]. destruct (decide_rel elem_of n (current ops)); [done|]. cbn [length]. lia. }
    apply (share_of (ops ++ [KAdd [n]]) n).
    - intros o m [Ho'|Ho'%elem_of_list_singleton]%elem_of_app; [by apply Ho|subst o]. cbn. intros ->%elem_of_list_singleton. done.
    - rewrite Ecur. by left.
    - intros ws Hd. destruct (answer_total ws ops Hd) as [x Ex]. destruct (answer_total ws (ops ++ [KAdd [n]]) Hd) as [y Ey]. rewrite Ex, Ey.
      pose proof (proj1 (answer_get_after _ _ _ _ _) Ex) as Gx. pose proof (proj1 (answer_get_after _ _ _ _ _) Ey) as Gy.
      destruct (ketama_add_redirects_to_new (drawn_hash h ns ws) (drawn_hash_length ws Hd) replicas ltac:(clear -Hr; lia) ops n key x y Gx Gy) as [-> | ->].
      + split; [|done]. intros [= ->]. exfalso. apply Hc. exact (ketama_get_current (drawn_hash h ns ws) (drawn_hash_length ws Hd) replicas ltac:(clear -Hr; lia) ops key n Gx).
      + split; [|done]. intros _ [= <-]. apply Hc. exact (ketama_get_current (drawn_hash h ns ws) (drawn_hash_length ws Hd) replicas ltac:(clear -Hr; lia) ops key n Gx).
  Qed.
  (** removing one likewise *)
  Theorem ketama_average_removed ops n : mentions_only ops → n ∈ current ops →
    all * (2 ^ 64 - 32 * N * N) <= how_many draws_of (λ ws, answers ws (ops ++ [KRemove [n]]) ≠ answers ws ops) * live ops * 2 ^ 64 <= all * (2 ^ 64 + live ops * (32 * N * N)).
  Proof using Hh Hr Hns Hkey.
    intros Ho Hn. apply (share_of ops n); [done|done|].
    intros ws Hd. destruct (answer_total ws ops Hd) as [x Ex]. destruct (answer_total ws (ops ++ [KRemove [n]]) Hd) as [y Ey]. rewrite Ex, Ey.
    pose proof (proj1 (answer_get_after _ _ _ _ _) Ex) as Gx. pose proof (proj1 (answer_get_after _ _ _ _ _) Ey) as Gy.
    assert (y ≠ Some n) as Hy. { intros ->. pose proof (ketama_get_current (drawn_hash h ns ws) (drawn_hash_length ws Hd) replicas ltac:(clear -Hr; lia) _ key n Gy) as Hc. unfold current in Hc. rewrite foldl_app in Hc. cbn [foldl current_after] in Hc. apply elem_of_list_filter in Hc as [Hc _]. apply Hc. by left. }
    destruct (ketama_remove_keeps_others (drawn_hash h ns ws) (drawn_hash_length ws Hd) replicas ltac:(clear -Hr; lia) ops n key x y Gx Gy) as [-> | ->].
    + split; [|done]. intros _ [= E]. done.
    + split; [|done]. intros [= ->]. done.
  Qed.
End final.
Print Assumptions ketama_equal_share.
Print Assumptions ketama_average_share.
Print Assumptions ketama_average_added.
Print Assumptions ketama_average_removed.

(** the hypotheses are met: three nodes, one of them removed again *)
Definition three : list bytes := [[97]; [98]; [99]]%N.
Definition three_ops : list kt_op := [KAdd [[97]; [98]]; KGet [120]; KAdd [[99]]; KRemove [[98]]]%N.
Example three_share h (Hh : ∀ d, length (h d) = 64%nat) :
  how_many 24 (λ ws, NoDup ws ∧ get_answer (drawn_hash h three ws) 10 three_ops [120%N] = Some (Some [99%N])) * 2 = how_many 24 (λ ws, NoDup ws).
Proof.
  apply (ketama_equal_share h Hh 10 ltac:(lia) three ltac:(by apply (bool_decide_unpack (NoDup three)); vm_compute) [120%N] ltac:(by apply (bool_decide_unpack ([120%N] ∉ three)); vm_compute) three_ops [99%N]).
  - intros o n. unfold three_ops. rewrite !elem_of_cons, elem_of_nil. intros Ho Hn. destruct_or!; subst; cbn in Hn; try by apply elem_of_nil in Hn; rewrite ?elem_of_cons, ?elem_of_nil in Hn.
    all: unfold three; rewrite !elem_of_cons; rewrite !elem_of_cons in Hn; naive_solver.
  - by apply (bool_decide_unpack ([99%N] ∈ current three_ops)); vm_compute.
Qed.
