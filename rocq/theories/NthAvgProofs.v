(** The average of nthElement over all arrangements of n distinct elements. *)
From Verif Require Import Base Wp ListLib IterModel IterSpec SortModel SortSpec SortProofs CountSpec SortCostProofs PermCostProofs SortAvgStep SortAvgCount SortAvgProofs NthAvgStep.
From Coq Require Import Factorial.
Open Scope nat_scope.
Ltac Zify.zify_post_hook ::= Z.div_mod_to_equations.

(** the arrangements of 0 .. n-1 that end with the largest *)
Definition PM (n : nat) : list (list nat) := (λ t : list nat, t ++ [n - 1]) <$> P (n - 1).
Lemma PM_spec n s : 1 <= n → s ∈ PM n ↔ s ≡ₚ seq 0 n ∧ last s = Some (n - 1).
Proof.
  intros Hn. assert (seq 0 n = seq 0 (n - 1) ++ [n - 1]) as E by (destruct n as [|k]; [lia|]; rewrite seq_S; cbn [Nat.sub]; rewrite Nat.sub_0_r; done). unfold PM. rewrite elem_of_list_fmap. split.
  - intros (t & -> & Ht%P_spec). split; [by rewrite E, Ht|]. apply last_snoc.
  - intros [Hs (t & ->)%last_Some]. exists t. split; [done|]. apply P_spec. rewrite E in Hs. by apply Permutation_app_inv_r in Hs.
Qed.
Lemma PM_nodup n : NoDup (PM n).
Proof. apply NoDup_fmap_2; [|apply P_nodup]. intros t t' E. by apply app_inj_tail in E as [? _]. Qed.
Lemma PM_length n : length (PM n) = fact (n - 1).
Proof. unfold PM. by rewrite fmap_length, P_length. Qed.
Definition TM (n p : nat) : list (list nat) := filter (λ s, pv s = p) (PM n).
Lemma TM_spec n p s : 1 <= n → s ∈ TM n p ↔ s ≡ₚ seq 0 n ∧ last s = Some (n - 1) ∧ pv s = p.
Proof. intros Hn. unfold TM. rewrite elem_of_list_filter, PM_spec by done. tauto. Qed.
Lemma round_at n s : 4 <= n → s ≡ₚ seq 0 n → (round cmpn s).2 = pv s ∧ lefts1 cmpn s = lefts cmpn s ++ [pv s].
Proof.
  intros Hn Hs. assert (length s = n) as Hl by (rewrite Hs; apply seq_length). destruct (sides n s Hn Hs) as (H1 & _ & _). destruct (round_facts cmpn s ltac:(lia)) as (F1 & F2 & F3). destruct (mid n s Hn Hs) as (u & v & B & _).
  split; [apply Permutation_length in H1; rewrite seq_length in H1; unfold lefts in H1; rewrite take_length in H1; lia|]. unfold lefts1, lefts. rewrite B in F3. by apply take_S_r.
Qed.
(** the largest stays behind *)
Lemma round_last n s : 4 <= n → s ≡ₚ seq 0 n → last s = Some (n - 1) → pv s < n - 1 ∧ last (rights cmpn s) = Some (n - 1).
Proof.
  intros Hn Hs Hla. assert (length s = n) as Hl by (rewrite Hs; apply seq_length).
  destruct (sample cmpn s ltac:(lia)) as (x & y & z & u & p & v & A1 & A2 & A3 & B1 & B2 & B3 & HP). destruct (mid n s Hn Hs) as (u' & v' & C1 & C2 & C3 & C4). rewrite C1 in B2. injection B2 as <-.
  rewrite last_lookup in Hla. replace (pred (length s)) with (length s - 1) in Hla by lia. rewrite A3 in Hla. injection Hla as ->.
  assert (∀ k w, piv cmpn s !! k = Some w → w < n) as Hlt. { intros k w Hw. apply elem_of_list_lookup_2 in Hw. rewrite piv_perm, Hs, elem_of_seq in Hw. lia. }
  destruct (piv_order cmpn cmpn_ok s ltac:(lia)) as (u2 & p2 & v2 & D1 & D2 & D3 & D4 & D5). rewrite B1 in D1. rewrite C1 in D2. rewrite B3 in D3. injection D1 as <-. injection D2 as <-. injection D3 as <-. unfold cmpn in D4, D5.
  assert (v = n - 1) as Ev. { pose proof (Hlt _ _ B3). assert (n - 1 ∈ [u; pv s; v]) as I by (rewrite HP; right; right; left). rewrite !elem_of_cons, elem_of_nil in I. lia. }
  split; [lia|]. destruct (round_facts cmpn s ltac:(lia)) as (F1 & F2 & F3).
  destruct (ploop_facts cmpn (length s - 3) (piv cmpn s) 1 (length s - 2) (length s - 2)) as (G1 & G2 & G3); [lia|lia|rewrite piv_length; lia|]. fold (parted cmpn s) in G1, G2, G3. rewrite piv_length in G1.
  assert ((round cmpn s).1 !! (n - 1) = Some (n - 1)) as E. { unfold round. cbn [fst]. rewrite swapl_lookup by lia. rewrite !decide_False by lia. rewrite G3 by lia. rewrite <-Hl at 1. rewrite B3. by rewrite Ev. }
  rewrite last_lookup. unfold rights. rewrite lookup_drop, drop_length, F1, Hl. rewrite <-E. f_equal. rewrite Hl in *. lia.
Qed.
Definition rights0 (s : list nat) : list nat := take (length (rights cmpn s) - 1) (rights cmpn s).
Lemma rights0_app n s : 4 <= n → s ≡ₚ seq 0 n → last s = Some (n - 1) → rights cmpn s = rights0 s ++ [n - 1] ∧ rights0 s ≡ₚ seq (S (pv s)) (n - 2 - pv s).
Proof.
  intros Hn Hs Hla. destruct (round_last n s Hn Hs Hla) as [Hp (t & E)%last_Some]. destruct (sides n s Hn Hs) as (_ & H2 & _).
  assert (rights0 s = t) as ->. { unfold rights0. rewrite E, app_length. cbn [length]. replace (length t + 1 - 1) with (length t) by lia. apply take_app. }
  split; [done|]. rewrite E in H2. replace (n - 1 - pv s) with (S (n - 2 - pv s)) in H2 by lia. rewrite seq_S in H2. replace (S (pv s) + (n - 2 - pv s)) with (n - 1) in H2 by lia. by apply Permutation_app_inv_r in H2.
Qed.

(* ---------- how often p is the pivot ---------- *)
Lemma pv_is n s x p y a b c : 4 <= n → s ≡ₚ seq 0 n → x < p < y → [a; b; c] ≡ₚ [x; p; y] → s !! 0 = Some a → s !! (n / 2) = Some b → s !! (n - 1) = Some c → pv s = p.
Proof.
  intros Hn HP Hxy HK R1 R2 R3. assert (length s = n) as Hl by (rewrite HP; apply seq_length).
  destruct (sample cmpn s ltac:(lia)) as (a' & b' & c' & u & p' & v & A1 & A2 & A3 & B1 & B2 & B3 & HQ). rewrite Hl in *. rewrite R1 in A1. rewrite R2 in A2. rewrite R3 in A3. injection A1 as <-. injection A2 as <-. injection A3 as <-.
  destruct (mid n s Hn HP) as (u' & v' & C1 & C2 & C3 & C4). rewrite Hl in *. rewrite C1 in B2. injection B2 as <-.
  destruct (piv_order cmpn cmpn_ok s ltac:(lia)) as (u2 & p2 & v2 & D1 & D2 & D3 & D4 & D5). rewrite Hl in *. rewrite B1 in D1. rewrite C1 in D2. rewrite B3 in D3. injection D1 as <-. injection D2 as <-. injection D3 as <-. unfold cmpn in D4, D5.
  rewrite HK in HQ. assert (NoDup [u; pv s; v]) as Hnd. { rewrite HQ. repeat constructor; rewrite ?elem_of_cons, ?elem_of_nil; lia. } apply NoDup_cons in Hnd as [G1 Hnd]. apply NoDup_cons in Hnd as [G2 _].
  assert (u ≠ pv s) as G3 by (clear -G1; set_solver). assert (u ≠ v) as G4 by (clear -G1; set_solver). assert (pv s ≠ v) as G5 by (clear -G2; set_solver). clear G1 G2.
  assert (u ∈ [x; p; y]) as I1 by (rewrite <-HQ; left). assert (pv s ∈ [x; p; y]) as I2 by (rewrite <-HQ; right; left). assert (v ∈ [x; p; y]) as I3 by (rewrite <-HQ; right; right; left). rewrite !elem_of_cons, elem_of_nil in I1, I2, I3. lia.
Qed.
Definition chosenM (n p : nat) : list (list nat) :=
  flat_map (λ x, flat_map (λ k, place (n / 2) k <$> perms (n - 3) (others n x p (n - 1))) [[x; p; n - 1]; [p; x; n - 1]]) (seq 0 p).
Lemma TM_large n p : 4 <= n → p < n - 1 → 2 * fact (n - 3) * p <= length (TM n p).
Proof.
  intros Hn Hp. assert (∀ x, x ∈ seq 0 p → length (others n x p (n - 1)) = n - 3) as Lo.
  { intros x Hx. apply elem_of_seq in Hx. pose proof (others_perm n x p (n - 1) ltac:(lia) ltac:(lia)) as Ho. apply Permutation_length in Ho. rewrite app_length, seq_length in Ho. cbn [length] in Ho. lia. }
  assert (length (chosenM n p) = 2 * fact (n - 3) * p) as <-.
  { unfold chosenM. rewrite (flat_length _ _ (2 * fact (n - 3))); [rewrite seq_length; lia|]. intros x Hx. rewrite (flat_length _ _ (fact (n - 3))); [done|]. intros k _. rewrite fmap_length. by apply perms_length, Lo. }
  assert (∀ x k s, x ∈ seq 0 p → k ∈ [[x; p; n - 1]; [p; x; n - 1]] → s ∈ place (n / 2) k <$> perms (n - 3) (others n x p (n - 1)) →
    s ≡ₚ seq 0 n ∧ ∃ a b, k = [a; b; n - 1] ∧ k ≡ₚ [x; p; n - 1] ∧ s !! 0 = Some a ∧ s !! (n / 2) = Some b ∧ s !! (n - 1) = Some (n - 1)) as Hin.
  { intros x k s Hx Hk Hs. apply elem_of_seq in Hx. assert (k ≡ₚ [x; p; n - 1]) as Hkp. { rewrite !elem_of_cons, elem_of_nil in Hk. destruct Hk as [->|[->|[]]]; [done|apply perm_swap]. }
    destruct (chosen_in n p x (n - 1) k s Hn ltac:(lia) ltac:(lia) ltac:(by apply perms_spec) Hs) as (H1 & a & b & c & -> & _ & R1 & R2 & R3). split; [done|]. assert (c = n - 1) as ->. { rewrite !elem_of_cons, elem_of_nil in Hk. destruct Hk as [Hk|[Hk|[]]]; congruence. } by exists a, b. }
  apply submseteq_length, NoDup_submseteq.
  - unfold chosenM. apply nodup_flat; [apply NoDup_seq| |].
    + intros x Hx. apply nodup_flat.
      * apply elem_of_seq in Hx. constructor; [|constructor; [by apply not_elem_of_nil|constructor]]. rewrite elem_of_list_singleton. intros [= ? ?]. lia.
      * intros k Hk. assert (length k = 3) as Lk. { rewrite !elem_of_cons, elem_of_nil in Hk. by destruct Hk as [->|[->|[]]]. }
        assert (NoDup (perms (n - 3) (others n x p (n - 1)))) as Hnd. { apply perms_nodup; [by apply Lo|]. apply NoDup_filter, NoDup_seq. }
        assert (∀ r, r ∈ perms (n - 3) (others n x p (n - 1)) → length r = n - 3) as Hlen. { intros r Hr. apply perms_spec in Hr; [|by apply Lo]. rewrite Hr. by apply Lo. }
        revert Hnd Hlen. generalize (perms (n - 3) (others n x p (n - 1))). intros q Hnd. induction Hnd as [|r q Hr Hnd IH]; intros Hlen; [constructor|]. rewrite fmap_cons. constructor.
        -- intros (r' & E & Hr')%elem_of_list_fmap. apply Hr. assert (r = r') as -> by (apply (place_inj (n / 2) k); [done|rewrite !Hlen; [done|by right|left]|done]). done.
        -- apply IH. intros r' Hr'. apply Hlen. by right.
      * intros k k' s Hk Hk' Hs Hs'. destruct (Hin x k s Hx Hk Hs) as (_ & a & b & -> & _ & R1 & R2 & R3). destruct (Hin x k' s Hx Hk' Hs') as (_ & a' & b' & -> & _ & R1' & R2' & R3'). congruence.
    + intros x x' s Hx Hx' Hs Hs'. apply elem_of_list_In, in_flat_map in Hs as (k & Hk%elem_of_list_In & Hs%elem_of_list_In). apply elem_of_list_In, in_flat_map in Hs' as (k' & Hk'%elem_of_list_In & Hs'%elem_of_list_In).
      destruct (Hin x k s Hx Hk Hs) as (_ & a & b & -> & Q & R1 & R2 & R3). destruct (Hin x' k' s Hx' Hk' Hs') as (_ & a' & b' & -> & Q' & R1' & R2' & R3'). rewrite R1 in R1'. rewrite R2 in R2'. injection R1' as <-. injection R2' as <-.
      apply elem_of_seq in Hx, Hx'. apply (same_sides x p (n - 1) x' (n - 1)); [lia|lia|]. by rewrite <-Q, Q'.
  - intros s Hs. unfold chosenM in Hs. apply elem_of_list_In, in_flat_map in Hs as (x & Hx%elem_of_list_In & Hs). apply in_flat_map in Hs as (k & Hk%elem_of_list_In & Hs%elem_of_list_In).
    destruct (Hin x k s Hx Hk Hs) as (HP & a & b & -> & Q & R1 & R2 & R3). apply elem_of_seq in Hx. assert (length s = n) as Hl by (rewrite HP; apply seq_length). apply TM_spec; [lia|]. split_and!; [done| |].
    + rewrite last_lookup. replace (pred (length s)) with (n - 1) by lia. done.
    + apply (pv_is n s x p (n - 1) a b (n - 1)); try done; lia.
Qed.

(* ---------- the average ---------- *)
Lemma shiftU a m (f : nat) k : Sm (λ s, nb cmpn f s k) (perms m (seq a m)) = Sm (λ s, nb cmpn f s k) (P m).
Proof. rewrite (Sm_perm _ _ _ (perms_shift a m)), Sm_map. apply Sm_ext. intros s _. apply nb_fmap. intros x y _ _. unfold keep, cmpn. lia. Qed.
Lemma shiftM a m (f : nat) k : Sm (λ s, nb cmpn f (s ++ [a + m]) k) (perms m (seq a m)) = Sm (λ s, nb cmpn f s k) (PM (S m)).
Proof.
  rewrite (Sm_perm _ _ _ (perms_shift a m)), Sm_map. unfold PM. replace (S m - 1) with m by lia. rewrite Sm_map. apply Sm_ext. intros s _. rewrite <-(nb_fmap cmpn cmpn (Nat.add a) f (s ++ [m])).
  - rewrite fmap_app. done.
  - intros x y _ _. unfold keep, cmpn. lia.
Qed.
(** from the classes to the whole *)
Lemma gather n (X : list (list nat)) (h : list nat → nat) : 4 <= n → (∀ s, s ∈ X → s ≡ₚ seq 0 n) →
  (∀ p, p < n → Sm h (filter (λ s, pv s = p) X) <= length (filter (λ s, pv s = p) X) * (60 * ((p + 1) `max` (n - 1 - p)))) →
  n * length X <= 6 * Sm (λ p, length (filter (λ s, pv s = p) X) * gain n p) (seq 0 n) →
  length X * (10 * n) + Sm h X <= length X * (60 * n).
Proof.
  intros Hn HX Hp Hg. assert (∀ s, s ∈ X → pv s < n) as Hpv by (intros s Hs; by destruct (sides n s Hn (HX s Hs)) as (_ & _ & ?)).
  assert (Sm (λ p, length (filter (λ s, pv s = p) X)) (seq 0 n) = length X) as Htot.
  { rewrite <-(Nat.mul_1_r (length X)), <-Sm_const. rewrite (Sm_classes pv (λ _, 1) n X Hpv). apply Sm_ext. intros p _. rewrite Sm_const. lia. }
  assert (Sm h X + 60 * Sm (λ p, length (filter (λ s, pv s = p) X) * gain n p) (seq 0 n) <= length X * (60 * n)) as H; [|lia].
  rewrite (Sm_classes pv h n X Hpv). rewrite <-Htot at 1. rewrite (Nat.mul_comm (Sm _ _)), <-!Sm_scale, <-Sm_plus. apply Sm_le. intros p Hin. apply elem_of_seq in Hin. specialize (Hp p ltac:(lia)).
  assert ((p + 1) `max` (n - 1 - p) + gain n p = n) as E by lia. etrans; [apply Nat.add_le_mono_r, Hp|]. clear -E. rewrite <-E at 3. generalize ((p + 1) `max` (n - 1 - p)), (gain n p), (length (filter (λ s, pv s = p) X)). intros. lia.
Qed.
Lemma nth_average n : (∀ k f, n <= f → Sm (λ s, nb cmpn f s k) (P n) <= fact n * (60 * n)) ∧ (1 <= n → ∀ k f, n <= f → Sm (λ s, nb cmpn f s k) (PM n) <= fact (n - 1) * (60 * n)).
Proof.
  induction n as [n IH] using lt_wf_ind. destruct (decide (n < 4)) as [Hs|Hs].
  { assert (∀ f k s, length s = n → nb cmpn f s k <= 60 * n) as H. { intros f k s Hl. destruct f as [|f]; [cbn; lia|]. cbn [nb]. rewrite Hl, decide_False by lia. lia. }
    split; [intros k f Hf; rewrite <-P_length, <-Sm_const; apply Sm_le; intros s Hs'%P_spec; apply H; rewrite Hs'; apply seq_length|].
    intros Hn k f Hf. rewrite <-PM_length, <-Sm_const. apply Sm_le. intros s [Hs' _]%PM_spec; [|done]. apply H. rewrite Hs'. apply seq_length. }
  assert (4 <= n) as Hn by lia. clear Hs.
  assert (∀ j, fact (S j) = S j * fact j) as Hfs by done.
  assert (fact (n - 1) = fact (n - 3) * ((n - 1) * (n - 2))) as Hf1. { destruct n as [|[|[|j]]]; [lia..|]. replace (S (S (S j)) - 3) with j by lia. replace (S (S (S j)) - 1) with (S (S j)) by lia. replace (S (S (S j)) - 2) with (S j) by lia. rewrite !Hfs. clear. generalize (fact j). intros. lia. }
  assert (fact n = n * fact (n - 1)) as Hf0. { destruct n as [|j]; [lia|]. replace (S j - 1) with j by lia. apply Hfs. }
  (* one class *)
  assert (∀ (X : list (list nat)) k f p, p < n → n <= S f → NoDup X → (∀ s, s ∈ X → s ≡ₚ seq 0 n ∧ pv s = p) →
    (∀ s t a m, s ∈ X → a + m < n → t ≡ₚ seq a m → put a m t <$> s ≡ₚ seq 0 n → pv (put a m t <$> s) = p → put a m t <$> s ∈ X) →
    (k <= Z.of_nat p)%Z → Sm (λ s, nb cmpn f (lefts1 cmpn s) k) X <= length X * (60 * (p + 1))) as HL.
  { intros X k f p Hp Hf HXn HX HXc Hk. apply (Nat.mul_le_mono_pos_l _ _ (fact p)); [apply lt_O_fact|].
    rewrite (Sm_ext _ (λ s, nb cmpn f (lefts cmpn s ++ [p]) k)). 2:{ intros s Hs. destruct (HX s Hs) as [H1 <-]. by destruct (round_at n s Hn H1) as [_ ->]. }
    rewrite (spreadX n p 0 p X (lefts cmpn) (λ t, nb cmpn f (t ++ [p]) k)); [|lia|lia|lia|done|done| | |].
    - pose proof (shiftM 0 p f k) as E. cbn [Nat.add] in E. rewrite E. destruct (decide (S p < n)) as [Hlt|Hlt].
      + destruct (IH (S p) Hlt) as [_ G]. specialize (G ltac:(lia) k f ltac:(lia)). replace (S p - 1) with p in G by lia. etrans; [apply Nat.mul_le_mono_l, G|]. lia.
      + destruct X as [|s X']; [cbn [length]; lia|]. exfalso. destruct (HX s ltac:(left)) as [H1 H2]. destruct (mid n s Hn H1) as (u & v & _ & G1 & G2 & _). lia.
    - intros s t Hs Ht. apply HXc; [done|lia|done].
    - intros s Hs. destruct (HX s Hs) as [H1 <-]. apply (sides n s Hn H1).
    - intros s g _ E. unfold lefts. rewrite E. cbn [fst snd]. by rewrite fmap_take. }
  split.
  - intros k f Hf. destruct f as [|f]; [lia|].
    rewrite (Sm_ext (λ s, nb cmpn (S f) s k) (λ s, 10 * n + (if (k <=? Z.of_nat (pv s))%Z then nb cmpn f (lefts1 cmpn s) k else nb cmpn f (rights cmpn s) (k - (Z.of_nat (pv s) + 1))))).
    2:{ intros s Hs%P_spec. assert (length s = n) as Hl by (rewrite Hs; apply seq_length). cbn [nb]. destruct (round_at n s Hn Hs) as [-> _]. by rewrite Hl, decide_True. }
    rewrite Sm_plus, Sm_const. rewrite <-P_length. apply (gather n (P n)); [done|by intros s Hs%P_spec| |].
    + intros p Hp. fold (Tp n p). destruct (Z.leb_spec k (Z.of_nat p)) as [Hk|Hk].
      * rewrite (Sm_ext _ (λ s, nb cmpn f (lefts1 cmpn s) k)). 2:{ intros s [_ ->]%Tp_spec. by rewrite (proj2 (Z.leb_le _ _)). }
        etrans; [apply (HL (Tp n p) k f p); [lia|lia|apply Tp_nodup|by intros s Hs%Tp_spec| |done]|apply Nat.mul_le_mono_l; lia]. intros s t a m _ _ _ H1 H2. by apply Tp_spec.
      * rewrite (Sm_ext _ (λ s, nb cmpn f (rights cmpn s) (k - (Z.of_nat p + 1)))). 2:{ intros s [_ ->]%Tp_spec. by rewrite (proj2 (Z.leb_gt _ _)). }
        transitivity (length (Tp n p) * (60 * (n - 1 - p))); [|apply Nat.mul_le_mono_l; lia]. apply (Nat.mul_le_mono_pos_l _ _ (fact (n - 1 - p))); [apply lt_O_fact|].
        rewrite (spread n p (S p) (n - 1 - p) (rights cmpn) (λ t, nb cmpn f t (k - (Z.of_nat p + 1)))); [|lia|lia|lia| |].
        -- rewrite shiftU. destruct (IH (n - 1 - p) ltac:(lia)) as [G _]. etrans; [apply Nat.mul_le_mono_l, G; lia|]. lia.
        -- intros s [Hs <-]%Tp_spec. apply (sides n s Hn Hs).
        -- intros s g _ E. unfold rights. rewrite E. cbn [fst snd]. by rewrite fmap_drop.
    + rewrite P_length. assert (6 * fact (n - 3) * Sm (λ p, pairs n p * gain n p) (seq 0 n) <= Sm (λ p, length (Tp n p) * gain n p) (seq 0 n)) as H1.
      { rewrite <-Sm_scale. apply Sm_le. intros p Hp. apply elem_of_seq in Hp. rewrite Nat.mul_assoc. apply Nat.mul_le_mono_r. apply Tp_large; lia. }
      pose proof (gainU n Hn) as H2. apply (Nat.mul_le_mono_l _ _ (fact (n - 3))) in H2. unfold Tp in H1. rewrite Hf0, Hf1. clear -H1 H2. lia.
  - intros _ k f Hf. destruct f as [|f]; [lia|].
    rewrite (Sm_ext (λ s, nb cmpn (S f) s k) (λ s, 10 * n + (if (k <=? Z.of_nat (pv s))%Z then nb cmpn f (lefts1 cmpn s) k else nb cmpn f (rights cmpn s) (k - (Z.of_nat (pv s) + 1))))).
    2:{ intros s [Hs _]%PM_spec; [|lia]. assert (length s = n) as Hl by (rewrite Hs; apply seq_length). cbn [nb]. destruct (round_at n s Hn Hs) as [-> _]. by rewrite Hl, decide_True. }
    rewrite Sm_plus, Sm_const. rewrite <-PM_length. apply (gather n (PM n)); [done|intros s Hs; apply PM_spec in Hs; [by apply Hs|lia]| |].
    + intros p Hp. fold (TM n p). assert (NoDup (TM n p)) as HTn by apply NoDup_filter, PM_nodup. assert (∀ s, s ∈ TM n p → s ≡ₚ seq 0 n ∧ pv s = p) as HT by (intros s Hs; apply TM_spec in Hs; [tauto|lia]).
      assert (∀ s t a m, s ∈ TM n p → a + m < n → t ≡ₚ seq a m → put a m t <$> s ≡ₚ seq 0 n → pv (put a m t <$> s) = p → put a m t <$> s ∈ TM n p) as HTc.
      { intros s t a m Hs Ham Ht H1 H2. apply TM_spec in Hs as (_ & Hla & _); [|lia]. apply TM_spec; [lia|]. split_and!; [done| |done]. rewrite fmap_last, Hla. cbn. f_equal. apply put_out. lia. }
      destruct (Z.leb_spec k (Z.of_nat p)) as [Hk|Hk].
      * rewrite (Sm_ext _ (λ s, nb cmpn f (lefts1 cmpn s) k)). 2:{ intros s [_ ->]%HT. by rewrite (proj2 (Z.leb_le _ _)). }
        etrans; [apply (HL (TM n p) k f p); [lia|lia|done|done|done|done]|apply Nat.mul_le_mono_l; lia].
      * rewrite (Sm_ext _ (λ s, nb cmpn f (rights0 s ++ [n - 1]) (k - (Z.of_nat p + 1)))).
        2:{ intros s Hs. destruct (HT s Hs) as [H1 H2]. rewrite H2, (proj2 (Z.leb_gt _ _)) by done. apply TM_spec in Hs as (_ & Hla & _); [|lia]. by destruct (rights0_app n s Hn H1 Hla) as [<- _]. }
        destruct (decide (p < n - 1)) as [Hpn|Hpn].
        2:{ destruct (TM n p) as [|s X'] eqn:EX; [cbn [length]; rewrite Sm_nil; lia|]. exfalso. assert (s ∈ TM n p) as Hs by (rewrite EX; left). apply TM_spec in Hs as (H1 & Hla & H2); [|lia]. destruct (round_last n s Hn H1 Hla). lia. }
        transitivity (length (TM n p) * (60 * (n - 1 - p))); [|apply Nat.mul_le_mono_l; lia]. apply (Nat.mul_le_mono_pos_l _ _ (fact (n - 2 - p))); [apply lt_O_fact|].
        rewrite (spreadX n p (S p) (n - 2 - p) (TM n p) rights0 (λ t, nb cmpn f (t ++ [n - 1]) (k - (Z.of_nat p + 1)))); [|lia|lia|lia|done|done| | |].
        -- pose proof (shiftM (S p) (n - 2 - p) f (k - (Z.of_nat p + 1))) as E. replace (S p + (n - 2 - p)) with (n - 1) in E by lia. replace (S (n - 2 - p)) with (n - 1 - p) in E by lia. rewrite E.
           destruct (IH (n - 1 - p) ltac:(lia)) as [_ G]. specialize (G ltac:(lia) (k - (Z.of_nat p + 1))%Z f ltac:(lia)). replace (n - 1 - p - 1) with (n - 2 - p) in G by lia. etrans; [apply Nat.mul_le_mono_l, G|]. lia.
        -- intros s t Hs Ht. apply HTc; [done|lia|done].
        -- intros s Hs. apply TM_spec in Hs as (H1 & Hla & <-); [|lia]. apply (rights0_app n s Hn H1 Hla).
        -- intros s g _ E. unfold rights0, rights. rewrite E. cbn [fst snd]. by rewrite <-fmap_drop, fmap_length, fmap_take.
    + rewrite PM_length. assert (2 * fact (n - 3) * Sm (λ p, p * gain n p) (seq 0 n) <= Sm (λ p, length (TM n p) * gain n p) (seq 0 n)) as H1.
      { rewrite <-Sm_scale. apply Sm_le. intros p Hp. apply elem_of_seq in Hp. destruct (decide (p < n - 1)) as [Hlt|Hlt]; [|replace (n - 1 - p) with 0 by lia; rewrite Nat.min_0_r; lia]. rewrite Nat.mul_assoc. apply Nat.mul_le_mono_r. apply TM_large; lia. }
      pose proof (gainM n Hn) as H2. apply (Nat.mul_le_mono_l _ _ (fact (n - 3))) in H2. unfold TM in H1. rewrite Hf1. clear -H1 H2. lia.
Qed.
