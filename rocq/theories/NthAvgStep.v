(** The accesses of nthElement as a function on lists, and the sums behind its average. *)
From Verif Require Import Base Wp ListLib IterModel IterSpec SortModel SortSpec SortProofs CountSpec SortCostProofs PermCostProofs SortAvgStep SortAvgCount SortAvgProofs.
From Coq Require Import Factorial.
Open Scope nat_scope.
Ltac Zify.zify_post_hook ::= Z.div_mod_to_equations.

Section pure.
  Context {T : Type} (cmp : T → T → Z).
  Implicit Types s : list T.
  (** the left part together with the pivot behind it *)
  Definition lefts1 s : list T := take (S (round cmp s).2) (round cmp s).1.
  Fixpoint nb (fuel : nat) s (k : Z) : nat :=
    match fuel with
    | 0 => 0
    | S f => 10 * length s + (if decide (4 <= length s) then
        if (k <=? Z.of_nat (round cmp s).2)%Z then nb f (lefts1 s) k else nb f (rights cmp s) (k - (Z.of_nat (round cmp s).2 + 1)) else 0)
    end.
  Lemma lefts1_length s : 4 <= length s → length (lefts1 s) = S (round cmp s).2 ∧ S (round cmp s).2 < length s.
  Proof. intros H. destruct (round_facts cmp s H) as (F1 & F2 & _). unfold lefts1. rewrite take_length. lia. Qed.
  Lemma nb_worst fuel : ∀ s k, nb fuel s k <= 5 * (length s * (length s + 1)).
  Proof.
    induction fuel as [|f IH]; intros s k; cbn [nb]; [lia|]. destruct (decide (4 <= length s)) as [H|H]; [|nia].
    destruct (lefts1_length s H) as [H1 H2]. pose proof (rights_length cmp s H) as H3. destruct (k <=? Z.of_nat (round cmp s).2)%Z.
    - etrans; [apply Nat.add_le_mono_l, IH|]. rewrite H1. nia.
    - etrans; [apply Nat.add_le_mono_l, IH|]. nia.
  Qed.
End pure.
Lemma nb_fmap {T T'} (cmp : T → T → Z) (cmp' : T' → T' → Z) (h : T → T') f : ∀ (s : list T) k, (∀ x y, x ∈ s → y ∈ s → keep cmp cmp' h x y) → nb cmp' f (h <$> s) k = nb cmp f s k.
Proof.
  induction f as [|f IH]; intros s k Hk; [done|]. cbn [nb]. rewrite fmap_length. f_equal. destruct (decide (4 <= length s)) as [H|]; [|done].
  destruct (lookup_lt_is_Some_2 (piv cmp s) (length s - 2)) as [p Hp]; [rewrite piv_length; lia|].
  assert (round cmp' (h <$> s) = (h <$> (round cmp s).1, (round cmp s).2)) as E.
  { apply (round_fmap cmp cmp' h s s p); [done| |done|done|].
    - intros j x _ Hx. by eapply elem_of_list_lookup_2.
    - intros x Hx. apply Hk; [by rewrite piv_perm in Hx|]. apply elem_of_list_lookup_2 in Hp. by rewrite piv_perm in Hp. }
  unfold lefts1, rights. rewrite E. cbn [fst snd]. rewrite <-fmap_take, <-fmap_drop. destruct (k <=? _)%Z; apply IH; intros x y Hx Hy; apply Hk; rewrite <-(round_perm cmp s).
  all: match goal with H : ?x ∈ take ?n ?l |- ?x ∈ _ => rewrite <-(take_drop n l); apply elem_of_app; by left | H : ?x ∈ drop ?n ?l |- ?x ∈ _ => rewrite <-(take_drop n l); apply elem_of_app; by right end.
Qed.

Section run.
  Context {W T : Type} (csize : nat → M W Z) (cat : nat → Z → M W T) (cset : nat → Z → T → M W unit).
  Context (o : nat) (R : W → list T → Prop) (L : ra_law csize cat cset o R) (cmp : T → T → Z) (OK : CmpOK cmp).
  Implicit Types (s pre post : list T).
  Notation csz := (csize_c csize). Notation ct := (cat_c cat). Notation cs := (cset_c cset).
  Notation it p := (MkIter o p).
  Notation at_ p := (MkIter o (Z.of_nat p)).
  Lemma sim_nth fuel : ∀ w pre s post k, R w (pre ++ s ++ post) → length s <= fuel →
    sim (nb cmp fuel s k) (nth_element_ csize cat cset cmp fuel (at_ (length pre)) (it (Z.of_nat (length pre + length s) - 1)) k) (nth_element_ csz ct cs cmp fuel (at_ (length pre)) (it (Z.of_nat (length pre + length s) - 1)) k) w.
  Proof using L OK.
    induction fuel as [|f IH]; intros w pre s post k H Hf; cbn [nth_element_ nb]; unfold it_position; cbn [it_pos].
    { destruct (Z.leb_spec (Z.of_nat (length pre + length s) - 1) (Z.of_nat (length pre) + 1)); [|lia]. apply sim_ret. }
    destruct (Z.leb_spec (Z.of_nat (length pre + length s) - 1) (Z.of_nat (length pre) + 1)); [eapply sim_mono; [apply sim_ret|apply Nat.le_0_l]|].
    destruct (Z.ltb_spec (Z.of_nat (length pre + length s) - 1 - Z.of_nat (length pre) + 1) 3); [lia|].
    unfold it_at. cbn [it_obj].
    replace (Z.of_nat (length pre) + Z.quot (Z.of_nat (length pre + length s) - 1 - Z.of_nat (length pre) + 1) 2)%Z with (Z.of_nat (length pre + length s / 2)) by (rewrite Z.quot_div_nonneg by lia; lia).
    replace (Z.of_nat (length pre + length s) - 1 - 1)%Z with (Z.of_nat (length pre + (length s - 2))) by lia. replace (Z.of_nat (length pre + length s) - 1)%Z with (Z.of_nat (length pre + (length s - 1))) by lia.
    destruct (run_pivot csize cat cset o R L cmp OK w pre s post ltac:(lia) H) as (w1 & w2 & E1 & E2 & H2).
    destruct (decide (4 <= length s)) as [H4|H4].
    2:{ eapply sim_mono; [apply (sim_bind 18 4); [apply sim_pivot|]|lia]. intros [] w1' E1'. apply (sim_bind 4 0); [apply sim_swap|]. intros [] w2' _. destruct (Z.eqb_spec (Z.of_nat (length pre + (length s - 1)) - Z.of_nat (length pre) + 1) 3); [apply sim_ret|lia]. }
    destruct (run_partition csize cat cset o R L cmp OK w2 pre s post H4 H2) as (w3 & E3 & H3). destruct (round_facts cmp s H4) as (F1 & F2 & F3).
    set (rest := if (k <=? Z.of_nat (round cmp s).2)%Z then _ else _).
    eapply sim_mono; [apply (sim_bind 18 (4 + (8 * (length s - 3) + 4 + rest))); [apply sim_pivot|]|lia]. intros [] w1' E1'. rewrite E1 in E1'. injection E1' as <-.
    apply sim_bind; [apply sim_swap|]. intros [] w2' E2'. rewrite E2 in E2'. injection E2' as <-. destruct (Z.eqb_spec (Z.of_nat (length pre + (length s - 1)) - Z.of_nat (length pre) + 1) 3); [lia|].
    apply sim_bind; [eapply sim_mono; [apply sim_partition|cbn [it_pos]; lia]|]. intros mz w3' E3'. rewrite E3 in E3'. assert (mz = Z.of_nat (length pre + (round cmp s).2) ∧ w3' = w3) as [-> ->] by (by split; congruence). clear E3'.
    unfold rest, lefts1, rights. clear rest. set (l2 := (round cmp s).1) in *. set (r := (round cmp s).2) in *.
    replace (Z.of_nat (length pre + r) - Z.of_nat (length pre))%Z with (Z.of_nat r) by lia. destruct (k <=? Z.of_nat r)%Z.
    - assert (length (take (S r) l2) = S r) as Ltk by (rewrite take_length; lia). replace (Z.of_nat (length pre + r)) with (Z.of_nat (length pre + length (take (S r) l2)) - 1)%Z by lia.
      apply (IH w3 pre (take (S r) l2) (drop (S r) l2 ++ post)); [|rewrite Ltk; lia]. rewrite app_assoc, app_assoc, <-(app_assoc pre), take_drop, <-app_assoc. done.
    - assert (length (pre ++ l2 ++ post) = length pre + length s + length post) as Lall by (rewrite !app_length; lia).
      apply (sim_bind 0); [apply sim_next|]. intros nx w5 E5. rewrite (next_ok _ _ _ o R L w3 _ (length pre + r) H3 ltac:(lia)) in E5. injection E5 as <- <-.
      assert (length (pre ++ take (S r) l2) = S (length pre + r)) as Lt by (rewrite app_length, take_length; lia).
      assert (R w3 ((pre ++ take (S r) l2) ++ drop (S r) l2 ++ post)) as H3'. { rewrite app_assoc, <-(app_assoc pre), take_drop, <-app_assoc. done. }
      pose proof (IH w3 _ _ _ (k - (Z.of_nat r + 1))%Z H3' ltac:(rewrite drop_length; lia)) as G. rewrite Lt, drop_length in G. replace (S (length pre + r) + (length l2 - S r)) with (length pre + length s) in G by lia.
      replace (Z.of_nat (length pre + (length s - 1))) with (Z.of_nat (length pre + length s) - 1)%Z by lia. exact G.
  Qed.
End run.

(* ---------- sums ---------- *)
Lemma sumM N k : k <= N + 1 → (12 * Z.of_nat (Sm (λ p, p * (p + 1) * (N - p)) (seq 0 k))%nat =
  let z := Z.of_nat k in let n := Z.of_nat N in -3 * z * z * (z - 1) * (z - 1) + 2 * (n - 1) * z * (z - 1) * (2 * z - 1) + 6 * n * z * (z - 1))%Z.
Proof.
  induction k as [|k IH]; intros Hk; [cbv zeta; change (seq 0 0) with (@nil nat); rewrite Sm_nil; change (Z.of_nat 0) with 0%Z; ring|]. rewrite seq_S, Sm_app, Sm_cons, Sm_nil. cbn [Nat.add]. rewrite Nat.add_0_r, Nat2Z.inj_add, Z.mul_add_distr_l, IH by lia. cbv zeta. rewrite !Nat2Z.inj_mul, Nat2Z.inj_add, Nat2Z.inj_sub, !Nat2Z.inj_succ by lia. change (Z.of_nat 0) with 0%Z. unfold Z.succ. ring.
Qed.
Lemma sumU N k : k <= N + 1 → (60 * Z.of_nat (Sm (λ p, p * (N - p) * ((p + 1) * (N - p))) (seq 0 k))%nat =
  let z := Z.of_nat k in let n := Z.of_nat N in 2 * z * (z - 1) * (2 * z - 1) * (3 * z * z - 3 * z - 1) + 15 * (1 - 2 * n) * z * z * (z - 1) * (z - 1) + 10 * (n * n - 2 * n) * z * (z - 1) * (2 * z - 1) + 30 * n * n * z * (z - 1))%Z.
Proof.
  induction k as [|k IH]; intros Hk; [cbv zeta; change (seq 0 0) with (@nil nat); rewrite Sm_nil; change (Z.of_nat 0) with 0%Z; ring|]. rewrite seq_S, Sm_app, Sm_cons, Sm_nil. cbn [Nat.add]. rewrite Nat.add_0_r, Nat2Z.inj_add, Z.mul_add_distr_l, IH by lia. cbv zeta. rewrite !Nat2Z.inj_mul, Nat2Z.inj_add, Nat2Z.inj_sub, !Nat2Z.inj_succ by lia. change (Z.of_nat 0) with 0%Z. unfold Z.succ. ring.
Qed.
(** the size of the part that is left out *)
Notation gain n p := ((p + 1) `min` (n - 1 - p)).
Lemma gain_mul n p : p < n → (p + 1) * (n - 1 - p) <= n * gain n p.
Proof. intros H. destruct (Nat.min_spec (p + 1) (n - 1 - p)) as [[? ->]|[? ->]]; nia. Qed.
Lemma gainM n : 4 <= n → (n + 1) * ((n - 1) * (n - 2)) <= 12 * Sm (λ p, p * gain n p) (seq 0 n).
Proof.
  intros Hn. assert (Sm (λ p, p * (p + 1) * (n - 1 - p)) (seq 0 n) <= n * Sm (λ p, p * gain n p) (seq 0 n)) as H1.
  { rewrite <-Sm_scale. apply Sm_le. intros p Hp. apply elem_of_seq in Hp. pose proof (gain_mul n p ltac:(lia)) as G. apply (Nat.mul_le_mono_l _ _ p) in G. lia. }
  pose proof (sumM (n - 1) n ltac:(lia)) as H2. cbv zeta in H2. rewrite Nat2Z.inj_sub in H2 by lia.
  apply (Nat.mul_le_mono_pos_l _ _ n); [lia|]. assert (n * ((n + 1) * ((n - 1) * (n - 2))) = 12 * Sm (λ p, p * (p + 1) * (n - 1 - p)) (seq 0 n)) as ->; [|lia].
  apply Nat2Z.inj. rewrite (Nat2Z.inj_mul 12). change (Z.of_nat 12) with 12%Z. rewrite H2. rewrite !Nat2Z.inj_mul, Nat2Z.inj_add, !Nat2Z.inj_sub by lia. change (Z.of_nat 1) with 1%Z. change (Z.of_nat 2) with 2%Z. ring.
Qed.
Lemma gainU n : 4 <= n → n * (n * ((n - 1) * (n - 2))) <= 36 * Sm (λ p, pairs n p * gain n p) (seq 0 n).
Proof.
  intros Hn. assert (Sm (λ p, p * (n - 1 - p) * ((p + 1) * (n - 1 - p))) (seq 0 n) <= n * Sm (λ p, pairs n p * gain n p) (seq 0 n)) as H1.
  { rewrite <-Sm_scale. apply Sm_le. intros p Hp. apply elem_of_seq in Hp. pose proof (gain_mul n p ltac:(lia)) as G. unfold pairs. apply (Nat.mul_le_mono_l _ _ (p * (n - 1 - p))) in G. lia. }
  pose proof (sumU (n - 1) n ltac:(lia)) as H2. cbv zeta in H2. rewrite Nat2Z.inj_sub in H2 by lia.
  apply (Nat.mul_le_mono_pos_l _ _ (5 * n)); [lia|]. transitivity (3 * (60 * Sm (λ p, p * (n - 1 - p) * ((p + 1) * (n - 1 - p))) (seq 0 n))); [|lia]. clear H1.
  assert (60 * Sm (λ p, p * (n - 1 - p) * ((p + 1) * (n - 1 - p))) (seq 0 n) = n * ((n + 1) * ((n - 1) * ((n - 2) * (2 * n - 1))))) as ->.
  { apply Nat2Z.inj. rewrite (Nat2Z.inj_mul 60). change (Z.of_nat 60) with 60%Z. rewrite H2. rewrite !Nat2Z.inj_mul, Nat2Z.inj_add, !Nat2Z.inj_sub, Nat2Z.inj_mul by lia. change (Z.of_nat 1) with 1%Z. change (Z.of_nat 2) with 2%Z. ring. }
  transitivity (n * ((n - 1) * (n - 2)) * (5 * (n * n))); [lia|]. transitivity (n * ((n - 1) * (n - 2)) * (3 * ((n + 1) * (2 * n - 1)))); [|lia]. apply Nat.mul_le_mono_l. nia.
Qed.
