(** Finite sums, bijections and the arithmetic behind the average over all arrangements. *)
From Verif Require Import Base ListLib PermCostProofs.
From Coq Require Import Factorial Sorting.
Open Scope nat_scope.

Section sums.
  Context {A : Type}.
  Implicit Types (f g : A → nat) (l : list A).
  Definition Sm f l : nat := sum_list_with f l.
  Lemma Sm_nil f : Sm f [] = 0. Proof. done. Qed.
  Lemma Sm_cons f x l : Sm f (x :: l) = f x + Sm f l. Proof. done. Qed.
  Lemma Sm_app f l k : Sm f (l ++ k) = Sm f l + Sm f k.
  Proof. induction l as [|x l IH]; [done|]. rewrite <-app_comm_cons, !Sm_cons, IH. lia. Qed.
  Lemma Sm_perm f l k : l ≡ₚ k → Sm f l = Sm f k.
  Proof. induction 1; rewrite ?Sm_cons; lia. Qed.
  Lemma Sm_ext f g l : (∀ x, x ∈ l → f x = g x) → Sm f l = Sm g l.
  Proof. induction l as [|x l IH]; intros H; [done|]. rewrite !Sm_cons, H by left. rewrite IH; [done|]. intros y Hy. apply H. by right. Qed.
  Lemma Sm_le f g l : (∀ x, x ∈ l → f x <= g x) → Sm f l <= Sm g l.
  Proof. induction l as [|x l IH]; intros H; [done|]. rewrite !Sm_cons. pose proof (H x ltac:(left)). assert (Sm f l <= Sm g l) by (apply IH; intros y Hy; apply H; by right). lia. Qed.
  Lemma Sm_plus f g l : Sm (λ x, f x + g x) l = Sm f l + Sm g l.
  Proof. induction l as [|x l IH]; [done|]. rewrite !Sm_cons, IH. lia. Qed.
  Lemma Sm_scale c f l : Sm (λ x, c * f x) l = c * Sm f l.
  Proof. induction l as [|x l IH]; [by rewrite !Sm_nil, Nat.mul_0_r|]. rewrite !Sm_cons, IH. lia. Qed.
  Lemma Sm_const c l : Sm (λ _, c) l = length l * c.
  Proof. induction l as [|x l IH]; [done|]. rewrite Sm_cons, IH. cbn [length]. lia. Qed.
  Lemma Sm_map {B} (h : B → A) f (l : list B) : Sm f (h <$> l) = sum_list_with (λ x, f (h x)) l.
  Proof. induction l as [|x l IH]; [done|]. rewrite fmap_cons, Sm_cons, IH. done. Qed.
End sums.
Lemma Sm_swap {A B} (f : A → B → nat) (l : list A) (k : list B) : Sm (λ x, Sm (f x) k) l = Sm (λ y, Sm (λ x, f x y) l) k.
Proof.
  induction l as [|x l IH]. { rewrite Sm_nil. symmetry. rewrite (Sm_ext _ (λ _, 0)) by done. rewrite Sm_const. lia. }
  rewrite Sm_cons, IH, <-Sm_plus. by apply Sm_ext.
Qed.
(** a one-to-one map of a duplicate-free list into itself only rearranges it *)
Lemma inj_onto {A} (h : A → A) (l : list A) : NoDup l → (∀ x, x ∈ l → h x ∈ l) → (∀ x y, x ∈ l → y ∈ l → h x = h y → x = y) → h <$> l ≡ₚ l.
Proof.
  intros Hn Hin Hi. apply submseteq_Permutation_length_eq; [by rewrite fmap_length|]. apply NoDup_submseteq.
  - clear Hin. induction Hn as [|x l Hx Hn IH]; [constructor|]. rewrite fmap_cons. constructor.
    + intros (y & E & Hy)%elem_of_list_fmap. apply Hx. assert (x = y) as -> by (apply Hi; [left|by right|done]). done.
    + apply IH. intros y z Hy Hz. apply Hi; by right.
  - intros x (y & -> & Hy)%elem_of_list_fmap. by apply Hin.
Qed.
Lemma Sm_onto {A} (h : A → A) (l : list A) (f : A → nat) : NoDup l → (∀ x, x ∈ l → h x ∈ l) → (∀ x y, x ∈ l → y ∈ l → h x = h y → x = y) → Sm (λ x, f (h x)) l = Sm f l.
Proof. intros Hn Hin Hi. rewrite <-(Sm_perm f _ _ (inj_onto h l Hn Hin Hi)). by rewrite Sm_map. Qed.
(** a sum taken class by class *)
Lemma Sm_classes {A} (k : A → nat) (f : A → nat) n (l : list A) : (∀ x, x ∈ l → k x < n) → Sm f l = Sm (λ p, Sm f (filter (λ x, k x = p) l)) (seq 0 n).
Proof.
  intros H. induction l as [|x l IH].
  - rewrite Sm_nil. rewrite (Sm_ext _ (λ _, 0)) by done. rewrite Sm_const. lia.
  - rewrite Sm_cons, IH by (intros y Hy; apply H; by right). pose proof (H x ltac:(left)) as Hx.
    rewrite (Sm_ext (λ p, Sm f (filter (λ y, k y = p) (x :: l))) (λ p, (if decide (k x = p) then f x else 0) + Sm f (filter (λ y, k y = p) l))).
    2:{ intros p _. rewrite filter_cons. destruct (decide (k x = p)); [by rewrite Sm_cons|done]. }
    rewrite Sm_plus. f_equal. clear -Hx. revert Hx. induction n as [|n IHn]; intros Hx; [lia|]. rewrite seq_S, Sm_app, Sm_cons, Sm_nil. cbn [Nat.add].
    destruct (decide (k x = n)) as [E|].
    + rewrite (Sm_ext _ (λ _, 0)); [rewrite Sm_const; lia|]. intros p Hp. apply elem_of_seq in Hp. rewrite decide_False by lia. done.
    + rewrite <-IHn by lia. lia.
Qed.
Lemma nodup_flat {A B} (f : A → list B) (l : list A) : NoDup l → (∀ a, a ∈ l → NoDup (f a)) → (∀ a a' b, a ∈ l → a' ∈ l → b ∈ f a → b ∈ f a' → a = a') → NoDup (flat_map f l).
Proof.
  induction 1 as [|a l Ha Hn IH]; intros Hf Hd; [constructor|]. cbn [flat_map]. apply NoDup_app. split_and!.
  - apply Hf. left.
  - intros b Hb Hb'. apply elem_of_list_In, in_flat_map in Hb' as (a' & Ha' & Hba'). apply elem_of_list_In in Ha', Hba'. apply Ha. by rewrite (Hd a a' b); [|left|right|..].
  - apply IH; [intros; apply Hf; by right|]. intros a1 a2 b H1 H2. apply Hd; by right.
Qed.
Lemma flat_length {A B} (f : A → list B) (l : list A) c : (∀ a, a ∈ l → length (f a) = c) → length (flat_map f l) = length l * c.
Proof. induction l as [|a l IH]; intros H; [done|]. cbn [flat_map length]. rewrite app_length, IH by (intros; apply H; by right). rewrite H by left. lia. Qed.

(* ---------- arithmetic ---------- *)
Notation lam n := (Nat.log2 n + 1).
Lemma lam_mono a b : a <= b → lam a <= lam b.
Proof. intros H. pose proof (Nat.log2_le_mono a b H). lia. Qed.
Lemma lam_half a n : 1 <= a → 2 * a <= n → lam a + 1 <= lam n.
Proof. intros Ha H. pose proof (Nat.log2_le_mono (2 * a) n H) as G. rewrite Nat.log2_double in G by lia. lia. Qed.
Lemma lam_split p q : p * lam p + q * lam q + p `min` q <= (p + q) * lam (S (p + q)).
Proof.
  assert (∀ a b, a <= b → a * lam a + b * lam b + a <= (a + b) * lam (S (a + b))) as H.
  { intros a b Hab. pose proof (lam_mono b (S (a + b)) ltac:(lia)) as H1. destruct (decide (a = 0)) as [->|Ha]; [cbn [Nat.add Nat.mul] in *; nia|].
    pose proof (lam_half a (S (a + b)) ltac:(lia) ltac:(lia)) as H2. nia. }
  destruct (decide (p <= q)) as [Hc|Hc]; [rewrite Nat.min_l by done; by apply H|]. rewrite Nat.min_r by lia. specialize (H q p ltac:(lia)). rewrite (Nat.add_comm q p) in H. lia.
Qed.
Lemma sum_id n : 2 * Sm (λ p, p) (seq 0 n) = n * (n - 1).
Proof. induction n as [|n IH]; [done|]. rewrite seq_S, Sm_app, Sm_cons, Sm_nil. cbn [Nat.add]. nia. Qed.
Lemma sum_sq n : 6 * Sm (λ p, p * p) (seq 0 n) = n * (n - 1) * (2 * n - 1).
Proof. induction n as [|n IH]; [done|]. rewrite seq_S, Sm_app, Sm_cons, Sm_nil. cbn [Nat.add]. destruct n as [|n]; [done|]. cbn [Nat.sub] in *. nia. Qed.
(** below p and above p *)
Definition pairs (n p : nat) : nat := p * (n - 1 - p).
Lemma sum_pairs n : 2 <= n → 6 * Sm (pairs n) (seq 0 n) = n * ((n - 1) * (n - 2)).
Proof.
  intros Hn. assert (Sm (pairs n) (seq 0 n) + Sm (λ p, p * p) (seq 0 n) = (n - 1) * Sm (λ p, p) (seq 0 n)) as H.
  { rewrite <-Sm_plus, <-Sm_scale. apply Sm_ext. intros p Hp. apply elem_of_seq in Hp. unfold pairs. nia. }
  pose proof (sum_id n). pose proof (sum_sq n). destruct n as [|[|n]]; [lia..|]. cbn [Nat.sub] in *. nia.
Qed.
Lemma pairs_min n p : p < n → pairs n p <= (n - 1) * (p `min` (n - 1 - p)).
Proof. intros H. unfold pairs. destruct (Nat.min_spec p (n - 1 - p)) as [[? ->]|[? ->]]; nia. Qed.
Lemma sum_min n : 4 <= n → (n - 2) * Sm (pairs n) (seq 0 n) <= 6 * Sm (λ p, pairs n p * (p `min` (n - 1 - p))) (seq 0 n).
Proof.
  intros Hn. set (A := Sm (pairs n) (seq 0 n)). set (M := Sm (λ p, pairs n p * (p `min` (n - 1 - p))) (seq 0 n)). set (S2 := Sm (λ p, pairs n p * pairs n p) (seq 0 n)). set (t := (n - 1) * (n - 2)).
  assert (6 * A = n * t) as HA by (apply sum_pairs; lia).
  assert (S2 <= (n - 1) * M) as HM. { unfold S2, M. rewrite <-Sm_scale. apply Sm_le. intros p Hp. apply elem_of_seq in Hp. pose proof (pairs_min n p ltac:(lia)). nia. }
  assert (12 * t * A <= 36 * S2 + n * (t * t)) as HC.
  { unfold A, S2. rewrite <-!Sm_scale. replace (n * (t * t)) with (Sm (λ _, t * t) (seq 0 n)) by (by rewrite Sm_const, seq_length). rewrite <-Sm_plus. apply Sm_le. intros p _. generalize (pairs n p). intros a.
    clear. generalize t. clear. intros t. pose proof (Z.square_nonneg (6 * Z.of_nat a - Z.of_nat t)) as Hz. apply Nat2Z.inj_le. rewrite Nat2Z.inj_add, !Nat2Z.inj_mul. lia. }
  assert (t * A <= 6 * S2) as HD. { assert (n * (t * t) = 6 * (t * A)) as E. { rewrite (Nat.mul_comm t A), !Nat.mul_assoc, HA. done. } rewrite E in HC. clear -HC. lia. }
  assert ((n - 1) * ((n - 2) * A) <= (n - 1) * (6 * M)) as HE. { unfold t in HD. clear -HD HM. etrans; [|etrans; [exact (Nat.mul_le_mono_l _ _ 6 HM)|lia]]. lia. } apply Nat.mul_le_mono_pos_l in HE; lia.
Qed.
