(** The average of quickSort over all arrangements of n distinct elements. *)
From Verif Require Import Base Wp ListLib IterModel IterSpec SortModel SortSpec SortProofs CountSpec SortCostProofs PermCostProofs SortAvgStep SortAvgCount.
From Coq Require Import Factorial.
Open Scope nat_scope.
Ltac Zify.zify_post_hook ::= Z.div_mod_to_equations.

Section any.
  Context {T : Type} (cmp : T → T → Z).
  Implicit Types s : list T.
  Lemma lefts_length s : 4 <= length s → length (lefts cmp s) < length s - 1.
  Proof. intros H. destruct (round_facts cmp s H) as (F1 & F2 & _). unfold lefts. rewrite take_length. lia. Qed.
  Lemma rights_length s : 4 <= length s → length (rights cmp s) < length s - 1.
  Proof. intros H. destruct (round_facts cmp s H) as (F1 & F2 & _). unfold rights. rewrite drop_length. lia. Qed.
  Lemma qb_nil f s : length s = 0 → qb cmp f s = 0.
  Proof. intros H. destruct f; [done|]. cbn [qb]. rewrite H. by rewrite decide_False by lia. Qed.
  Lemma qb_fuel f : ∀ g s, length s <= f → length s <= g → qb cmp f s = qb cmp g s.
  Proof.
    induction f as [|f IH]; intros g s Hf Hg; [rewrite !qb_nil by lia; done|]. destruct g as [|g]; [rewrite !qb_nil by lia; done|]. cbn [qb]. f_equal.
    destruct (decide (4 <= length s)) as [H|]; [|done]. pose proof (lefts_length s H). pose proof (rights_length s H). f_equal; apply IH; lia.
  Qed.
  Lemma cswap2 (l : list T) i j x y : i ≠ j → l !! i = Some x → l !! j = Some y →
    ∃ x' y', cswap cmp l i j !! i = Some x' ∧ cswap cmp l i j !! j = Some y' ∧ [x'; y'] ≡ₚ [x; y] ∧ ∀ k, k ≠ i → k ≠ j → cswap cmp l i j !! k = l !! k.
  Proof.
    intros Hij Hx Hy. unfold cswap. rewrite Hx, Hy. destruct (0 <? cmp x y)%Z; [|by exists x, y].
    pose proof (lookup_lt_Some _ _ _ Hx). pose proof (lookup_lt_Some _ _ _ Hy). exists y, x. rewrite !swapl_lookup by done.
    rewrite (decide_False (P := i = j)) by done. rewrite !decide_True by done. split_and!; [done|done|apply perm_swap|]. intros k Hki Hkj. rewrite swapl_lookup by done. by rewrite !decide_False.
  Qed.
  (** the three elements the pivot is chosen from *)
  Lemma sample s : 3 <= length s → ∃ x y z u p v, s !! 0 = Some x ∧ s !! (length s / 2) = Some y ∧ s !! (length s - 1) = Some z ∧
    piv cmp s !! 0 = Some u ∧ piv cmp s !! (length s - 2) = Some p ∧ piv cmp s !! (length s - 1) = Some v ∧ [u; p; v] ≡ₚ [x; y; z].
  Proof.
    intros Hn. unfold piv. set (m := length s / 2). set (b := length s - 1). assert (0 < m < b ∧ b < length s ∧ m <= length s - 2) as (Hm & Hb & Hm2) by lia.
    destruct (lookup_lt_is_Some_2 s 0 ltac:(lia)) as [x Hx]. destruct (lookup_lt_is_Some_2 s m ltac:(lia)) as [y Hy]. destruct (lookup_lt_is_Some_2 s b ltac:(lia)) as [z Hz].
    destruct (cswap2 s 0 m x y ltac:(lia) Hx Hy) as (x1 & y1 & A1 & A2 & A3 & A4). pose proof (A4 b ltac:(lia) ltac:(lia)) as A5. rewrite Hz in A5.
    destruct (cswap2 _ 0 b x1 z ltac:(lia) A1 A5) as (x2 & z2 & B1 & B2 & B3 & B4). pose proof (B4 m ltac:(lia) ltac:(lia)) as B5. rewrite A2 in B5.
    destruct (cswap2 _ m b y1 z2 ltac:(lia) B5 B2) as (y3 & z3 & C1 & C2 & C3 & C4). pose proof (C4 0 ltac:(lia) ltac:(lia)) as C5. rewrite B1 in C5.
    exists x, y, z, x2, y3, z3. rewrite !swapl_lookup by (rewrite !cswap_len; lia). split_and!; [done..| | | |].
    - by rewrite !decide_False by lia.
    - by rewrite decide_True by done.
    - rewrite !decide_False by lia. done.
    - rewrite C3. rewrite (perm_swap x2), B3 at 1 || idtac. transitivity (y1 :: [x2; z2]); [apply perm_swap|]. rewrite B3. transitivity ([x1; y1] ++ [z]); [apply perm_swap|]. rewrite A3. done.
  Qed.
End any.
Lemma qb_fmap {T T'} (cmp : T → T → Z) (cmp' : T' → T' → Z) (h : T → T') (s : list T) f : (∀ x y, x ∈ s → y ∈ s → keep cmp cmp' h x y) → qb cmp' f (h <$> s) = qb cmp f s.
Proof.
  revert s. induction f as [|f IH]; intros s Hk; [done|]. cbn [qb]. rewrite fmap_length. f_equal. destruct (decide (4 <= length s)) as [H|]; [|done].
  destruct (lookup_lt_is_Some_2 (piv cmp s) (length s - 2)) as [p Hp]; [rewrite piv_length; lia|].
  assert (round cmp' (h <$> s) = (h <$> (round cmp s).1, (round cmp s).2)) as E.
  { apply (round_fmap cmp cmp' h s s p); [done| |done|done|].
    - intros k x _ Hx. by eapply elem_of_list_lookup_2.
    - intros x Hx. apply Hk; [by rewrite piv_perm in Hx|]. apply elem_of_list_lookup_2 in Hp. by rewrite piv_perm in Hp. }
  unfold lefts, rights. rewrite E. cbn [fst snd]. rewrite <-fmap_take, <-fmap_drop. f_equal; apply IH; intros x y Hx Hy; apply Hk; rewrite <-(round_perm cmp s).
  all: match goal with H : ?x ∈ take ?n ?l |- ?x ∈ _ => rewrite <-(take_drop n l); apply elem_of_app; by left | H : ?x ∈ drop ?n ?l |- ?x ∈ _ => rewrite <-(take_drop n l); apply elem_of_app; by right end.
Qed.

(* ---------- the numbers 0 .. n-1 ---------- *)
Definition cmpn (x y : nat) : Z := (Z.of_nat x - Z.of_nat y)%Z.
Lemma cmpn_ok : CmpOK cmpn.
Proof. split; unfold cmpn; intros; lia. Qed.
Definition P (n : nat) : list (list nat) := perms n (seq 0 n).
Lemma P_spec n s : s ∈ P n ↔ s ≡ₚ seq 0 n.
Proof. apply perms_spec, seq_length. Qed.
Lemma P_nodup n : NoDup (P n).
Proof. apply perms_nodup; [apply seq_length|apply NoDup_seq]. Qed.
Lemma P_length n : length (P n) = fact n.
Proof. apply perms_length, seq_length. Qed.
Definition pv (s : list nat) : nat := piv cmpn s !!! (length s - 2).
Definition Tp (n p : nat) : list (list nat) := filter (λ s, pv s = p) (P n).
Lemma Tp_spec n p s : s ∈ Tp n p ↔ s ≡ₚ seq 0 n ∧ pv s = p.
Proof. unfold Tp. rewrite elem_of_list_filter, P_spec. tauto. Qed.
Lemma Tp_nodup n p : NoDup (Tp n p).
Proof. apply NoDup_filter, P_nodup. Qed.
Lemma mid n s : 4 <= n → s ≡ₚ seq 0 n → ∃ u v, piv cmpn s !! (length s - 2) = Some (pv s) ∧ u < pv s < v ∧ v < n ∧ at3 s 0 (length s / 2) (length s - 1) [u; pv s; v].
Proof.
  intros Hn Hs. assert (length s = n) as Hl by (rewrite Hs; apply seq_length).
  destruct (sample cmpn s ltac:(lia)) as (x & y & z & u & p & v & A1 & A2 & A3 & B1 & B2 & B3 & HP).
  destruct (piv_order cmpn cmpn_ok s ltac:(lia)) as (u' & p' & v' & C1 & C2 & C3 & D1 & D2). rewrite B1 in C1. rewrite B2 in C2. rewrite B3 in C3. injection C1 as <-. injection C2 as <-. injection C3 as <-.
  assert (pv s = p) as Ep. { unfold pv. rewrite list_lookup_total_alt, B2. done. } rewrite Ep. exists u, v.
  assert (NoDup (piv cmpn s)) as Hnd. { rewrite piv_perm, Hs. apply NoDup_seq. }
  assert (u ≠ p) as H1. { intros ->. pose proof (NoDup_lookup _ _ _ _ Hnd B1 B2). lia. }
  assert (p ≠ v) as H2. { intros ->. pose proof (NoDup_lookup _ _ _ _ Hnd B2 B3). lia. }
  assert (v ∈ seq 0 n) as H3. { apply elem_of_list_lookup_2 in B3. by rewrite piv_perm, Hs in B3. } apply elem_of_seq in H3. unfold cmpn in D1, D2.
  split_and!; [done|lia|lia|lia|]. intros k w Hk Hw. rewrite HP. destruct Hk as [->|[->| ->]]; [rewrite A1 in Hw|rewrite A2 in Hw|rewrite A3 in Hw]; injection Hw as <-; set_solver.
Qed.
(** renaming the elements on either side of the pivot *)
Lemma round_rename n s (f : nat → nat) : 4 <= n → s ≡ₚ seq 0 n → f (pv s) = pv s → (∀ x, x < pv s → f x < pv s) → (∀ x, pv s < x → pv s < f x) →
  round cmpn (f <$> s) = (f <$> (round cmpn s).1, (round cmpn s).2) ∧ piv cmpn (f <$> s) = f <$> piv cmpn s.
Proof.
  intros Hn Hs Hp Hlo Hhi. assert (length s = n) as Hl by (rewrite Hs; apply seq_length). destruct (mid n s Hn Hs) as (u & v & B & Hu & Hv & H3). pose proof (Hlo u ltac:(lia)) as Lu. pose proof (Hhi v ltac:(lia)) as Lv.
  assert (∀ x y, x ∈ [u; pv s; v] → y ∈ [u; pv s; v] → keep cmpn cmpn f x y) as Hk.
  { intros x y Hx Hy. unfold keep, cmpn. rewrite !elem_of_cons, elem_of_nil in Hx, Hy. destruct Hx as [->|[->|[->|[]]]], Hy as [->|[->|[->|[]]]]; rewrite ?Hp; lia. }
  split; [|by apply (piv_fmap cmpn cmpn f s [u; pv s; v])]. apply (round_fmap cmpn cmpn f s [u; pv s; v] (pv s)); [lia|done|done|done|].
  intros x _. unfold keep, cmpn. rewrite Hp. destruct (decide (x < pv s)) as [Hx|]; [pose proof (Hlo x Hx); lia|]. destruct (decide (pv s < x)) as [Hx|]; [pose proof (Hhi x Hx); lia|]. replace x with (pv s) by lia. rewrite Hp. lia.
Qed.
Lemma sides n s : 4 <= n → s ≡ₚ seq 0 n → lefts cmpn s ≡ₚ seq 0 (pv s) ∧ rights cmpn s ≡ₚ seq (S (pv s)) (n - 1 - pv s) ∧ pv s < n.
Proof.
  intros Hn Hs. assert (length s = n) as Hl by (rewrite Hs; apply seq_length). destruct (round_order cmpn cmpn_ok s ltac:(lia)) as (p & Hp & E & Hle & Hge).
  assert (pv s = p) as Ep. { unfold pv. rewrite list_lookup_total_alt, Hp. done. } rewrite Ep. unfold cmpn in Hle, Hge.
  assert (lefts cmpn s ++ p :: rights cmpn s ≡ₚ seq 0 n) as HP by (rewrite <-E, round_perm; done). assert (NoDup (lefts cmpn s ++ p :: rights cmpn s)) as Hnd by (rewrite HP; apply NoDup_seq).
  apply NoDup_app in Hnd as (N1 & N2 & N3). apply NoDup_cons in N3 as (N4 & N5).
  assert (∀ x, x ∈ lefts cmpn s ∨ x = p ∨ x ∈ rights cmpn s ↔ x < n) as Hin. { intros x. assert (x ∈ lefts cmpn s ++ p :: rights cmpn s ↔ x ∈ seq 0 n) as H by (by rewrite HP). rewrite elem_of_app, elem_of_cons, elem_of_seq in H. rewrite H. lia. }
  assert (p < n) as Hpn by (apply Hin; tauto).
  split_and!; [| |done]; apply NoDup_Permutation; [done|apply NoDup_seq| |done|apply NoDup_seq|]; intros x; rewrite elem_of_seq; split.
  - intros Hx. pose proof (Hle x Hx). assert (x ≠ p) by (intros ->; apply (N2 p Hx); left). lia.
  - intros Hx. destruct (proj2 (Hin x) ltac:(lia)) as [H|[->|H]]; [done|lia|]. pose proof (Hge x H). lia.
  - intros Hx. pose proof (Hge x Hx). assert (x ≠ p) by (intros ->; done). pose proof (proj1 (Hin x) ltac:(tauto)). lia.
  - intros Hx. destruct (proj2 (Hin x) ltac:(lia)) as [H|[->|H]]; [|lia|done]. pose proof (Hle x H). lia.
Qed.

(* ---------- either side of the pivot is equally likely in every arrangement ---------- *)
Definition put (a m : nat) (t : list nat) (v : nat) : nat := if decide (a <= v < a + m) then t !!! (v - a) else v.
Section put.
  Context (a m : nat) (t : list nat) (Ht : t ≡ₚ seq a m).
  Lemma put_in v : a <= v < a + m → t !! (v - a) = Some (put a m t v) ∧ a <= put a m t v < a + m.
  Proof.
    intros Hv. unfold put. rewrite decide_True by done. assert (length t = m) as Hl by (rewrite Ht; apply seq_length). destruct (lookup_lt_is_Some_2 t (v - a) ltac:(lia)) as [x Hx]. rewrite list_lookup_total_alt, Hx. cbn. split; [done|].
    apply elem_of_list_lookup_2 in Hx. rewrite Ht, elem_of_seq in Hx. lia.
  Qed.
  Lemma put_out v : ¬ a <= v < a + m → put a m t v = v.
  Proof. intros Hv. unfold put. by rewrite decide_False. Qed.
  Lemma put_inj : Inj (=) (=) (put a m t).
  Proof.
    intros x y E. assert (NoDup t) as Hnd by (rewrite Ht; apply NoDup_seq).
    destruct (decide (a <= x < a + m)) as [Hx|Hx], (decide (a <= y < a + m)) as [Hy|Hy].
    - destruct (put_in x Hx) as [Ex _], (put_in y Hy) as [Ey _]. rewrite E in Ex. pose proof (NoDup_lookup _ _ _ _ Hnd Ex Ey). lia.
    - destruct (put_in x Hx) as [_ Ex]. rewrite E, (put_out y Hy) in Ex. lia.
    - destruct (put_in y Hy) as [_ Ey]. rewrite <-E, (put_out x Hx) in Ey. lia.
    - by rewrite (put_out x Hx), (put_out y Hy) in E.
  Qed.
  Lemma put_range k n : (∀ v, a <= v < a + m → k <= v < k + n) → put a m t <$> seq k n ≡ₚ seq k n.
  Proof.
    intros H. apply inj_onto; [apply NoDup_seq| |intros; by apply put_inj]. intros v Hv. apply elem_of_seq in Hv. apply elem_of_seq. destruct (decide (a <= v < a + m)) as [Hx|Hx]; [destruct (put_in v Hx) as [_ G]; exact (H _ G)|by rewrite put_out].
  Qed.
End put.
Lemma spreadX n p a m (X : list (list nat)) (Hd : list nat → list nat) (g : list nat → nat) : 4 <= n → p < a ∨ a + m <= p → a + m <= n →
  NoDup X → (∀ s, s ∈ X → s ≡ₚ seq 0 n ∧ pv s = p) →
  (∀ s t, s ∈ X → t ≡ₚ seq a m → put a m t <$> s ≡ₚ seq 0 n → pv (put a m t <$> s) = p → put a m t <$> s ∈ X) →
  (∀ s, s ∈ X → Hd s ≡ₚ seq a m) →
  (∀ s f, s ∈ X → round cmpn (f <$> s) = (f <$> (round cmpn s).1, (round cmpn s).2) → Hd (f <$> s) = f <$> Hd s) →
  fact m * Sm (λ s, g (Hd s)) (X) = length (X) * Sm g (perms m (seq a m)).
Proof.
  intros Hn Hpa Ham HXn HX HXc Hseq Hren. assert (∀ t, t ∈ perms m (seq a m) ↔ t ≡ₚ seq a m) as HPm by (apply perms_spec, seq_length).
  transitivity (Sm (λ t, Sm (λ s, g (put a m t <$> Hd s)) (X)) (perms m (seq a m))).
  - rewrite (Sm_ext (λ t, Sm (λ s, g (put a m t <$> Hd s)) (X)) (λ _, Sm (λ s, g (Hd s)) (X))); [by rewrite Sm_const, perms_length by apply seq_length|].
    intros t Ht. apply HPm in Ht.
    assert (∀ s, s ∈ X → put a m t <$> s ∈ X ∧ round cmpn (put a m t <$> s) = (put a m t <$> (round cmpn s).1, (round cmpn s).2)) as HT.
    { intros s HsX. destruct (HX s HsX) as [Hs Hp]. assert (put a m t p = p) as Epp by (apply put_out; lia).
      destruct (round_rename n s (put a m t) Hn Hs) as [E1 E2].
      - by rewrite Hp.
      - rewrite Hp. intros x Hx. destruct (decide (a <= x < a + m)) as [Hy|Hy]; [destruct (put_in a m t Ht x Hy); lia|by rewrite put_out].
      - rewrite Hp. intros x Hx. destruct (decide (a <= x < a + m)) as [Hy|Hy]; [destruct (put_in a m t Ht x Hy); lia|by rewrite put_out].
      - split; [|done]. apply HXc; [done|done|rewrite Hs; apply put_range; [done|lia]|]. unfold pv. rewrite fmap_length, E2. destruct (mid n s Hn Hs) as (u & v & B & _). rewrite list_lookup_total_alt, list_lookup_fmap, B. cbn. by rewrite Hp. }
    rewrite <-(Sm_onto (fmap (put a m t)) (X) (λ s, g (Hd s))).
    + apply Sm_ext. intros s Hs. destruct (HT s Hs) as [_ E]. by rewrite (Hren s _ Hs E).
    + done.
    + intros s Hs. by apply HT.
    + intros s s' _ _ E. pose proof (put_inj a m t Ht) as HI. by apply (inj (fmap (put a m t))) in E.
  - rewrite Sm_swap. rewrite <-Sm_const. apply Sm_ext. intros s Hs. specialize (Hseq s Hs). apply (Sm_onto (λ t, put a m t <$> Hd s) (perms m (seq a m)) g).
    + apply perms_nodup; [apply seq_length|apply NoDup_seq].
    + intros t Ht. apply HPm in Ht. apply HPm. rewrite Hseq. by apply put_range.
    + intros t t' Ht Ht' E. apply HPm in Ht, Ht'. assert (∀ v, v ∈ Hd s → put a m t v = put a m t' v) as Hv.
      { intros v [k Hk]%elem_of_list_lookup. assert ((put a m t <$> Hd s) !! k = (put a m t' <$> Hd s) !! k) as G by (by rewrite E). rewrite !list_lookup_fmap, Hk in G. cbn in G. by injection G. }
      assert (length t = m) as L1 by (rewrite Ht; apply seq_length). assert (length t' = m) as L2 by (rewrite Ht'; apply seq_length).
      apply list_eq. intros k. destruct (decide (k < m)) as [Hk|Hk]; [|rewrite !lookup_ge_None_2 by lia; done].
      assert (a + k ∈ Hd s) as Hin by (rewrite Hseq; apply elem_of_seq; lia). destruct (put_in a m t Ht (a + k) ltac:(lia)) as [G1 _], (put_in a m t' Ht' (a + k) ltac:(lia)) as [G2 _].
      replace (a + k - a) with k in * by lia. rewrite G1, G2. f_equal. by apply Hv.
Qed.

Lemma spread n p a m (Hd : list nat → list nat) (g : list nat → nat) : 4 <= n → p < a ∨ a + m <= p → a + m <= n →
  (∀ s, s ∈ Tp n p → Hd s ≡ₚ seq a m) →
  (∀ s f, s ∈ Tp n p → round cmpn (f <$> s) = (f <$> (round cmpn s).1, (round cmpn s).2) → Hd (f <$> s) = f <$> Hd s) →
  fact m * Sm (λ s, g (Hd s)) (Tp n p) = length (Tp n p) * Sm g (perms m (seq a m)).
Proof.
  intros Hn Hpa Ham. apply (spreadX n p); [done|done|done|apply Tp_nodup|by intros s Hs%Tp_spec|]. intros s t _ _ H1 H2. by apply Tp_spec.
Qed.

(* ---------- how often p is the pivot ---------- *)
Definition place (m : nat) (k r : list nat) : list nat := match k with [a; b; c] => a :: take (m - 1) r ++ b :: drop (m - 1) r ++ [c] | _ => [] end.
Lemma place_at n a b c r : 4 <= n → length r = n - 3 → place (n / 2) [a; b; c] r ≡ₚ [a; b; c] ++ r ∧ length (place (n / 2) [a; b; c] r) = n ∧
  place (n / 2) [a; b; c] r !! 0 = Some a ∧ place (n / 2) [a; b; c] r !! (n / 2) = Some b ∧ place (n / 2) [a; b; c] r !! (n - 1) = Some c.
Proof.
  intros Hn Hr. assert (1 <= n / 2 <= n - 2) as Hm by lia. set (m := n / 2) in *. cbn [place]. assert (length (take (m - 1) r) = m - 1) as Lt by (rewrite take_length; lia).
  assert (a :: take (m - 1) r ++ b :: drop (m - 1) r ++ [c] ≡ₚ [a; b; c] ++ r) as HP.
  { cbn [app]. f_equiv. rewrite <-Permutation_middle. f_equiv. rewrite app_assoc, take_drop. symmetry. apply Permutation_cons_append. }
  split_and!; [done|rewrite HP; cbn [app length]; lia|done| |].
  - rewrite app_comm_cons, lookup_app_r by (cbn [length]; lia). cbn [length]. by replace (m - S (length (take (m - 1) r))) with 0 by lia.
  - rewrite app_comm_cons, cons_middle, !app_assoc. rewrite lookup_app_r by (rewrite !app_length; cbn [length]; rewrite drop_length; lia). rewrite !app_length. cbn [length]. rewrite drop_length. by replace (n - 1 - _) with 0 by lia.
Qed.
Lemma place_inj m k r r' : length k = 3 → length r = length r' → place m k r = place m k r' → r = r'.
Proof.
  intros Hk Hl E. destruct k as [|a [|b [|c [|? ?]]]]; try done. cbn [place] in E. injection E as E. apply app_inj_1 in E as [E1 E2]; [|by rewrite !take_length, Hl]. injection E2 as E2. apply app_inj_tail in E2 as [E2 _].
  by rewrite <-(take_drop (m - 1) r), E1, E2, take_drop.
Qed.
Definition others (n x p y : nat) : list nat := filter (λ v, v ∉ [x; p; y]) (seq 0 n).
Lemma others_perm n x p y : x < p < y → y < n → [x; p; y] ++ others n x p y ≡ₚ seq 0 n.
Proof.
  intros H1 H2. apply NoDup_Permutation; [|apply NoDup_seq|].
  - apply NoDup_app. split_and!.
    + repeat constructor; rewrite ?elem_of_cons, ?elem_of_nil; lia.
    + intros v Hv [Hv' _]%elem_of_list_filter. done.
    + apply NoDup_filter, NoDup_seq.
  - intros v. unfold others. rewrite elem_of_app, elem_of_list_filter, elem_of_seq. destruct (decide (v ∈ [x; p; y])) as [Hv|Hv]; [|tauto]. split; [|tauto]. intros _. rewrite !elem_of_cons, elem_of_nil in Hv. lia.
Qed.
Lemma same_sides x p y x' y' : x < p < y → x' < p < y' → [x; p; y] ≡ₚ [x'; p; y'] → x = x' ∧ y = y'.
Proof.
  intros H1 H2 HP. assert (x ∈ [x'; p; y']) as Hx by (rewrite <-HP; left). assert (y ∈ [x'; p; y']) as Hy by (rewrite <-HP; right; right; left). rewrite !elem_of_cons, elem_of_nil in Hx, Hy. lia.
Qed.
Definition chosen (n p : nat) : list (list nat) :=
  flat_map (λ x, flat_map (λ y, flat_map (λ k, place (n / 2) k <$> perms (n - 3) (others n x p y)) (perms 3 [x; p; y])) (seq (S p) (n - 1 - p))) (seq 0 p).
Lemma chosen_in n p x y k s : 4 <= n → x < p < y → y < n → k ∈ perms 3 [x; p; y] → s ∈ place (n / 2) k <$> perms (n - 3) (others n x p y) →
  s ≡ₚ seq 0 n ∧ ∃ a b c, k = [a; b; c] ∧ k ≡ₚ [x; p; y] ∧ s !! 0 = Some a ∧ s !! (n / 2) = Some b ∧ s !! (n - 1) = Some c.
Proof.
  intros Hn H1 H2 Hk (r & -> & Hr)%elem_of_list_fmap. pose proof (others_perm n x p y H1 H2) as Ho. assert (length (others n x p y) = n - 3) as Lo. { apply Permutation_length in Ho. rewrite app_length, seq_length in Ho. cbn [length] in Ho. lia. }
  apply perms_spec in Hk; [|done]. apply perms_spec in Hr; [|done]. pose proof (Permutation_length Hk) as Lk. destruct k as [|a [|b [|c [|? ?]]]]; try done.
  destruct (place_at n a b c r Hn ltac:(rewrite Hr; done)) as (P1 & P2 & P3 & P4 & P5). split; [rewrite P1, Hk, Hr; exact Ho|]. by exists a, b, c.
Qed.
Lemma chosen_nodup n p : 4 <= n → p < n → NoDup (chosen n p).
Proof.
  intros Hn Hp. unfold chosen.
  assert (∀ x y, x ∈ seq 0 p → y ∈ seq (S p) (n - 1 - p) → x < p < y ∧ y < n) as Hxy by (intros x y [? ?]%elem_of_seq [? ?]%elem_of_seq; lia).
  assert (∀ x y s, x ∈ seq 0 p → y ∈ seq (S p) (n - 1 - p) → s ∈ flat_map (λ k, place (n / 2) k <$> perms (n - 3) (others n x p y)) (perms 3 [x; p; y]) → ∃ a b c, [a; b; c] ≡ₚ [x; p; y] ∧ s !! 0 = Some a ∧ s !! (n / 2) = Some b ∧ s !! (n - 1) = Some c) as Hin.
  { intros x y s Hx Hy Hs. destruct (Hxy x y Hx Hy) as [Q1 Q2]. apply elem_of_list_In, in_flat_map in Hs as (k & Hk%elem_of_list_In & Hs%elem_of_list_In). destruct (chosen_in n p x y k s Hn Q1 Q2 Hk Hs) as (_ & a & b & c & -> & HP & R1 & R2 & R3). by exists a, b, c. }
  assert (∀ x y x' y' s, x ∈ seq 0 p → y ∈ seq (S p) (n - 1 - p) → x' ∈ seq 0 p → y' ∈ seq (S p) (n - 1 - p) →
    s ∈ flat_map (λ k, place (n / 2) k <$> perms (n - 3) (others n x p y)) (perms 3 [x; p; y]) → s ∈ flat_map (λ k, place (n / 2) k <$> perms (n - 3) (others n x' p y')) (perms 3 [x'; p; y']) → x = x' ∧ y = y') as Hdis.
  { intros x y x' y' s Hx Hy Hx' Hy' Hs Hs'. destruct (Hin x y s Hx Hy Hs) as (a & b & c & HP & R1 & R2 & R3). destruct (Hin x' y' s Hx' Hy' Hs') as (a' & b' & c' & HP' & R1' & R2' & R3').
    rewrite R1 in R1'. rewrite R2 in R2'. rewrite R3 in R3'. injection R1' as <-. injection R2' as <-. injection R3' as <-. destruct (Hxy x y Hx Hy), (Hxy x' y' Hx' Hy'). apply (same_sides x p y x' y'); [done..|]. by rewrite <-HP, HP'. }
  apply nodup_flat; [apply NoDup_seq| |].
  - intros x Hx. apply nodup_flat; [apply NoDup_seq| |].
    + intros y Hy. destruct (Hxy x y Hx Hy) as [Q1 Q2]. apply nodup_flat.
      * apply perms_nodup; [done|]. repeat constructor; rewrite ?elem_of_cons, ?elem_of_nil; lia.
      * intros k Hk. apply perms_spec in Hk; [|done]. pose proof (others_perm n x p y Q1 Q2) as Ho. assert (length (others n x p y) = n - 3) as Lo. { apply Permutation_length in Ho. rewrite app_length, seq_length in Ho. cbn [length] in Ho. lia. }
        assert (NoDup (perms (n - 3) (others n x p y))) as Hnd. { apply perms_nodup; [done|]. apply NoDup_filter, NoDup_seq. }
        assert (∀ r, r ∈ perms (n - 3) (others n x p y) → length r = n - 3) as Hlen. { intros r Hr. apply perms_spec in Hr; [|done]. by rewrite Hr. }
        revert Hnd Hlen. generalize (perms (n - 3) (others n x p y)). intros q Hnd. induction Hnd as [|r q Hr Hnd IH]; intros Hlen; [constructor|]. rewrite fmap_cons. constructor.
        -- intros (r' & E & Hr')%elem_of_list_fmap. apply Hr. assert (r = r') as -> by (apply (place_inj (n / 2) k); [by rewrite Hk|rewrite !Hlen; [done|by right|left]|done]). done.
        -- apply IH. intros r' Hr'. apply Hlen. by right.
      * intros k k' s Hk Hk' Hs Hs'. destruct (chosen_in n p x y k s Hn Q1 Q2 Hk Hs) as (_ & a & b & c & -> & _ & R1 & R2 & R3). destruct (chosen_in n p x y k' s Hn Q1 Q2 Hk' Hs') as (_ & a' & b' & c' & -> & _ & R1' & R2' & R3'). congruence.
    + intros y y' s Hy Hy' Hs Hs'. by apply (Hdis x y x y' s).
  - intros x x' s Hx Hx' Hs Hs'. apply elem_of_list_In, in_flat_map in Hs as (y & Hy%elem_of_list_In & Hs%elem_of_list_In). apply elem_of_list_In, in_flat_map in Hs' as (y' & Hy'%elem_of_list_In & Hs'%elem_of_list_In). by apply (Hdis x y x' y' s).
Qed.
Lemma Tp_large n p : 4 <= n → p < n → 6 * fact (n - 3) * pairs n p <= length (Tp n p).
Proof.
  intros Hn Hp. assert (length (chosen n p) = 6 * fact (n - 3) * pairs n p) as <-.
  { unfold chosen, pairs. rewrite (flat_length _ _ ((n - 1 - p) * (6 * fact (n - 3)))); [rewrite seq_length; lia|]. intros x Hx. rewrite (flat_length _ _ (6 * fact (n - 3))); [by rewrite seq_length|]. intros y Hy. apply elem_of_seq in Hx, Hy.
    pose proof (others_perm n x p y ltac:(lia) ltac:(lia)) as Ho. rewrite (flat_length _ _ (fact (n - 3))); [by rewrite perms_length|]. intros k _. rewrite fmap_length. apply perms_length. apply Permutation_length in Ho. rewrite app_length, seq_length in Ho. cbn [length] in Ho. lia. }
  apply submseteq_length, NoDup_submseteq; [by apply chosen_nodup|]. intros s Hs. unfold chosen in Hs.
  apply elem_of_list_In, in_flat_map in Hs as (x & Hx%elem_of_list_In & Hs). apply in_flat_map in Hs as (y & Hy%elem_of_list_In & Hs). apply in_flat_map in Hs as (k & Hk%elem_of_list_In & Hs%elem_of_list_In). apply elem_of_seq in Hx, Hy.
  destruct (chosen_in n p x y k s Hn ltac:(lia) ltac:(lia) Hk Hs) as (HP & a & b & c & -> & HK & R1 & R2 & R3). apply Tp_spec. split; [done|]. assert (length s = n) as Hl by (rewrite HP; apply seq_length).
  destruct (sample cmpn s ltac:(lia)) as (a' & b' & c' & u & p' & v & A1 & A2 & A3 & B1 & B2 & B3 & HQ). rewrite Hl in *. rewrite R1 in A1. rewrite R2 in A2. rewrite R3 in A3. injection A1 as <-. injection A2 as <-. injection A3 as <-.
  destruct (mid n s Hn HP) as (u' & v' & C1 & C2 & C3 & C4). rewrite Hl in *. rewrite C1 in B2. injection B2 as <-.
  destruct (piv_order cmpn cmpn_ok s ltac:(lia)) as (u2 & p2 & v2 & D1 & D2 & D3 & D4 & D5). rewrite Hl in *. rewrite B1 in D1. rewrite C1 in D2. rewrite B3 in D3. injection D1 as <-. injection D2 as <-. injection D3 as <-. unfold cmpn in D4, D5.
  rewrite HK in HQ. assert (NoDup [u; pv s; v]) as Hnd. { rewrite HQ. repeat constructor; rewrite ?elem_of_cons, ?elem_of_nil; lia. } apply NoDup_cons in Hnd as [G1 Hnd]. apply NoDup_cons in Hnd as [G2 _]. assert (u ≠ pv s) as G3 by (clear -G1; set_solver). assert (u ≠ v) as G4 by (clear -G1; set_solver). assert (pv s ≠ v) as G5 by (clear -G2; set_solver). clear G1 G2.
  assert (u ∈ [x; p; y]) as I1 by (rewrite <-HQ; left). assert (pv s ∈ [x; p; y]) as I2 by (rewrite <-HQ; right; left). assert (v ∈ [x; p; y]) as I3 by (rewrite <-HQ; right; right; left). rewrite !elem_of_cons, elem_of_nil in I1, I2, I3. lia.
Qed.

(* ---------- the average ---------- *)
Lemma perms_shift a m : perms m (seq a m) ≡ₚ (λ t : list nat, Nat.add a <$> t) <$> P m.
Proof.
  symmetry. apply submseteq_Permutation_length_eq; [by rewrite fmap_length, P_length, perms_length by apply seq_length|]. apply NoDup_submseteq.
    - apply NoDup_fmap_2; [intros t t' E; assert (Inj (=) (=) (Nat.add a)) as HI by (intros ? ? ?; lia); by apply (inj (fmap (Nat.add a))) in E|apply P_nodup].
    - intros s (t & -> & Ht)%elem_of_list_fmap. apply P_spec in Ht. apply perms_spec; [apply seq_length|]. rewrite Ht. clear. replace (Nat.add a <$> seq 0 m) with (seq a m); [done|]. rewrite fmap_add_seq. f_equal. lia.
Qed.
Lemma shift_sum a m (f : nat) : Sm (qb cmpn f) (perms m (seq a m)) = Sm (qb cmpn f) (P m).
Proof. rewrite (Sm_perm _ _ _ (perms_shift a m)), Sm_map. apply Sm_ext. intros s _. apply qb_fmap. intros x y _ _. unfold keep, cmpn. lia. Qed.
Lemma average n : ∀ f, n <= f → Sm (qb cmpn f) (P n) <= fact n * (60 * (n * lam n)).
Proof.
  induction n as [n IH] using lt_wf_ind. intros f Hf. destruct (decide (n < 4)) as [Hs|Hs].
  { rewrite (Sm_le _ (λ _, 10 * n)); [rewrite Sm_const, P_length; nia|]. intros s Hs'%P_spec. assert (length s = n) as Hl by (rewrite Hs'; apply seq_length). destruct f as [|f]; [cbn; lia|]. cbn [qb]. rewrite Hl, decide_False by lia. lia. }
  assert (4 <= n) as Hn by lia. clear Hs. destruct f as [|f]; [lia|].
  rewrite (Sm_ext (qb cmpn (S f)) (λ s, 10 * n + (qb cmpn f (lefts cmpn s) + qb cmpn f (rights cmpn s)))).
  2:{ intros s Hs%P_spec. assert (length s = n) as Hl by (rewrite Hs; apply seq_length). cbn [qb]. by rewrite Hl, decide_True. }
  rewrite Sm_plus, Sm_const, P_length.
  rewrite (Sm_classes pv (λ s, qb cmpn f (lefts cmpn s) + qb cmpn f (rights cmpn s)) n). 2:{ intros s Hs%P_spec. by destruct (sides n s Hn Hs) as (_ & _ & ?). }
  assert (Sm (λ p, length (Tp n p)) (seq 0 n) = fact n) as Htot.
  { rewrite <-P_length. rewrite <-(Nat.mul_1_r (length (P n))), <-Sm_const. rewrite (Sm_classes pv (λ _, 1) n). 2:{ intros s Hs%P_spec. by destruct (sides n s Hn Hs) as (_ & _ & ?). } apply Sm_ext. intros p _. rewrite Sm_const. unfold Tp. lia. }
  assert (Sm (λ p, Sm (λ s, qb cmpn f (lefts cmpn s) + qb cmpn f (rights cmpn s)) (filter (λ s, pv s = p) (P n))) (seq 0 n) + 60 * Sm (λ p, length (Tp n p) * (p `min` (n - 1 - p))) (seq 0 n) <= 60 * (fact n * ((n - 1) * lam n))) as Hmain.
  { rewrite <-Htot, <-Sm_scale. rewrite (Nat.mul_comm (Sm _ _)), <-Sm_scale, <-Sm_scale, <-Sm_plus. apply Sm_le. intros p Hp. apply elem_of_seq in Hp. fold (Tp n p). rewrite Sm_plus.
    assert (Sm (λ s, qb cmpn f (lefts cmpn s)) (Tp n p) <= length (Tp n p) * (60 * (p * lam p))) as HL.
    { apply (Nat.mul_le_mono_pos_l _ _ (fact p)); [apply lt_O_fact|]. rewrite (spread n p 0 p (lefts cmpn) (qb cmpn f)); [|lia|lia|lia| |].
      - etrans; [apply Nat.mul_le_mono_l, (IH p); lia|]. lia.
      - intros s [Hs <-]%Tp_spec. apply (sides n s Hn Hs).
      - intros s g _ E. unfold lefts. rewrite E. cbn [fst snd]. by rewrite fmap_take. }
    assert (Sm (λ s, qb cmpn f (rights cmpn s)) (Tp n p) <= length (Tp n p) * (60 * ((n - 1 - p) * lam (n - 1 - p)))) as HR.
    { apply (Nat.mul_le_mono_pos_l _ _ (fact (n - 1 - p))); [apply lt_O_fact|]. rewrite (spread n p (S p) (n - 1 - p) (rights cmpn) (qb cmpn f)); [|lia|lia|lia| |].
      - rewrite shift_sum. etrans; [apply Nat.mul_le_mono_l, (IH (n - 1 - p)); lia|]. lia.
      - intros s [Hs <-]%Tp_spec. apply (sides n s Hn Hs).
      - intros s g _ E. unfold rights. rewrite E. cbn [fst snd]. by rewrite fmap_drop. }
    pose proof (lam_split p (n - 1 - p)) as HS. replace (S (p + (n - 1 - p))) with n in HS by lia. replace (p + (n - 1 - p)) with (n - 1) in HS by lia.
    apply (Nat.mul_le_mono_l _ _ (60 * length (Tp n p))) in HS. clear -HL HR HS. lia. }
  assert (n * fact n <= 6 * Sm (λ p, length (Tp n p) * (p `min` (n - 1 - p))) (seq 0 n) + 2 * fact n) as Hmin.
  { assert (6 * fact (n - 3) * Sm (λ p, pairs n p * (p `min` (n - 1 - p))) (seq 0 n) <= Sm (λ p, length (Tp n p) * (p `min` (n - 1 - p))) (seq 0 n)) as H1.
    { rewrite <-Sm_scale. apply Sm_le. intros p Hp. apply elem_of_seq in Hp. rewrite Nat.mul_assoc. apply Nat.mul_le_mono_r. apply Tp_large; lia. }
    pose proof (sum_min n Hn) as H2. pose proof (sum_pairs n ltac:(lia)) as H3.
    assert (fact n = fact (n - 3) * (6 * Sm (pairs n) (seq 0 n))) as H4. { rewrite H3. destruct n as [|[|[|k]]]; [lia..|]. replace (S (S (S k)) - 3) with k by lia. cbn [Nat.sub]. assert (∀ j, fact (S j) = S j * fact j) as Hfs by done. rewrite !Hfs. clear. generalize (fact k). intros. rewrite ?Nat.sub_0_r. lia. }
    apply (Nat.mul_le_mono_l _ _ (6 * fact (n - 3))) in H2.
    assert ((n - 2) * fact n <= 6 * (6 * fact (n - 3) * Sm (λ p, pairs n p * (p `min` (n - 1 - p))) (seq 0 n))) as H5 by (rewrite H4 at 1; clear -H2; lia).
    assert (n * fact n = (n - 2) * fact n + 2 * fact n) by nia. clear -H1 H5 H. lia. }
  pose proof (lam_mono 4 n Hn) as Hl4. change (lam 4) with 3 in Hl4.
  assert (fact n * (60 * (n * lam n)) = 60 * (fact n * ((n - 1) * lam n)) + 60 * (fact n * lam n)) as ->. { destruct n as [|k]; [lia|]. cbn [Nat.sub]. rewrite Nat.sub_0_r. lia. }
  assert (fact n * 3 <= fact n * lam n) as H6 by (apply Nat.mul_le_mono_l; done). clear -Hmain Hmin H6. lia.
Qed.
