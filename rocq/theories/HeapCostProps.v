(** Property C74: heap operations make logarithmically many comparisons, Init linearly many. *)
From Verif Require Import Base ListLib HeapModel HeapGenModel HeapSpec HeapProofs CountSpec.
Open Scope nat_scope.
Ltac Zify.zify_post_hook ::= Z.div_mod_to_equations.

(** the generic code with the repository's holder is the code of HeapModel.v *)
Section inst.
  Context {T : Type} (cmp : T → T → Z).
  Lemma gen_push x : g_push h_len (h_less cmp) h_swap h_push x = heap_push cmp x. Proof. reflexivity. Qed.
  Lemma gen_pop : g_pop h_len (h_less cmp) h_swap h_pop = heap_pop cmp. Proof. reflexivity. Qed.
  Lemma gen_remove i : g_remove h_len (h_less cmp) h_swap h_pop i = heap_remove cmp i. Proof. reflexivity. Qed.
  Lemma gen_fix i : g_fix h_len (h_less cmp) h_swap i = heap_fix cmp i. Proof. reflexivity. Qed.
  Lemma gen_init l : g_init h_len (h_less cmp) h_swap l = h_init cmp l. Proof. unfold g_init, h_init, mbind_, h_len. by rewrite Nat2Z.id. Qed.
End inst.

(** the same code with a holder that counts the calls of Less *)
Section counted.
  Context {T : Type} (cmp : T → T → Z).
  Definition c_len : M (list T * nat) Z := counting 0 h_len.
  Definition c_less (i j : Z) : M (list T * nat) bool := counting 1 (h_less cmp i j).
  Definition c_swap (i j : Z) : M (list T * nat) unit := counting 0 (h_swap i j).
  Definition c_push (x : T) : M (list T * nat) unit := counting 0 (h_push x).
  Definition c_pop : M (list T * nat) T := counting 0 h_pop.
End counted.

Section proofs.
  Context {T : Type} (cmp : T → T → Z).
  Implicit Types l : list T.
  (** a counted run follows the plain run, with at most k comparisons more *)
  Definition costs {A} (k : nat) (l : list T) (m : M (list T) A) (mc : M (list T * nat) A) : Prop :=
    ∃ a l', m l = Ok (a, l') ∧ ∀ c, ∃ d, mc (l, c) = Ok (a, (l', c + d)) ∧ d <= k.
  Lemma less_c l i j : i < length l → j < length l → ∃ b, h_less cmp (Z.of_nat i) (Z.of_nat j) l = Ok (b, l).
  Proof. intros Hi Hj. destruct (lookup_lt_is_Some_2 l i Hi) as [x Hx], (lookup_lt_is_Some_2 l j Hj) as [y Hy]. unfold h_less. rewrite (idx_nat _ _ _ Hx), (idx_nat _ _ _ Hy). eauto. Qed.
  Lemma swap_c l i j : i < length l → j < length l → ∃ l', h_swap (Z.of_nat i) (Z.of_nat j) l = Ok (tt, l') ∧ length l' = length l.
  Proof. intros Hi Hj. exists (swapl l i j). split; [unfold h_swap; by rewrite swap_res_ok|]. unfold swapl. destruct (l !! i); [|done]. destruct (l !! j); [|done]. by rewrite !insert_length. Qed.
  Lemma up_c fuel j l : j < length l → j <= fuel → ∃ l', up cmp fuel (Z.of_nat j) l = Ok (tt, l') ∧ length l' = length l ∧ ∀ c, ∃ d, g_up (c_less cmp) c_swap fuel (Z.of_nat j) (l, c) = Ok (tt, (l', c + d)) ∧ d <= Nat.log2 (j + 1).
  Proof.
    revert j l. induction fuel as [|f IH]; intros j l Hj Hf; cbn [up g_up].
    { assert (j = 0) as -> by lia. cbn. exists l. split_and!; [done|done|]. intros c. exists 0. split; [by rewrite Nat.add_0_r|lia]. }
    destruct (Z.eqb_spec (Z.quot (Z.of_nat j - 1) 2) (Z.of_nat j)) as [E|E].
    { exists l. split_and!; [done|done|]. intros c. exists 0. split; [by rewrite Nat.add_0_r|lia]. }
    assert (0 < j) as Hj0. { destruct j; [|lia]. by cbn in E. }
    assert (Z.quot (Z.of_nat j - 1) 2 = Z.of_nat ((j - 1) / 2)) as ->. { rewrite Z.quot_div_nonneg by lia. lia. }
    set (i := (j - 1) / 2). assert (i < j ∧ 2 * (i + 1) <= j + 1) as [Hi1 Hi2] by (unfold i; lia).
    destruct (less_c l j i ltac:(lia) ltac:(lia)) as (b & Eb). unfold mbind_ at 1. rewrite Eb.
    pose proof (Nat.log2_le_mono (2 * (i + 1)) (j + 1) Hi2) as Hlog. rewrite Nat.log2_double in Hlog by lia.
    destruct b; cbn [negb].
    - destruct (swap_c l i j ltac:(lia) ltac:(lia)) as (l1 & E1 & Hl1). destruct (IH i l1 ltac:(lia) ltac:(lia)) as (l' & E2 & Hl' & Hc). exists l'. unfold mbind_. rewrite E1. split_and!; [done|lia|]. intros c. destruct (Hc (c + 1)) as (d & E3 & Hd).
      exists (1 + d). unfold c_less, c_swap, counting in *. cbn [fst snd]. rewrite Eb. cbn [fst snd negb]. rewrite E1. rewrite Nat.add_0_r. cbn [fst snd]. rewrite E3. split; [by rewrite Nat.add_assoc|lia].
    - exists l. split_and!; [done|done|]. intros c. exists 1. unfold mbind_, c_less, counting. cbn [fst snd]. rewrite Eb. cbn. split; [done|lia].
  Qed.
  Lemma down_c fuel i n l : n <= length l → n - i <= fuel → ∃ k l', down_loop cmp fuel (Z.of_nat i) (Z.of_nat n) l = Ok (Z.of_nat k, l') ∧ length l' = length l ∧ i <= k
    ∧ (2 * i + 1 < n → k < n) ∧ ∀ c, ∃ d, g_down_loop (c_less cmp) c_swap fuel (Z.of_nat i) (Z.of_nat n) (l, c) = Ok (Z.of_nat k, (l', c + d)) ∧ d <= 2 * Nat.log2 (n / (i + 1)).
  Proof.
    intros Hn. revert i l Hn. induction fuel as [|f IH]; intros i l Hn Hf; cbn [down_loop g_down_loop].
    - destruct (Z.leb_spec (Z.of_nat n) (2 * Z.of_nat i + 1)); [|lia]. cbn [orb]. exists i, l. split_and!; [done|done|lia|lia|]. intros c. exists 0. split; [by rewrite Nat.add_0_r|lia].
    - destruct (Z.leb_spec (Z.of_nat n) (2 * Z.of_nat i + 1)); cbn [orb].
      { exists i, l. split_and!; [done|done|lia|lia|]. intros c. exists 0. split; [by rewrite Nat.add_0_r|lia]. }
      destruct (Z.ltb_spec (2 * Z.of_nat i + 1) 0); [lia|].
      assert (∃ (b : bool) e, (if (2 * Z.of_nat i + 1 + 1 <? Z.of_nat n)%Z then h_less cmp (2 * Z.of_nat i + 1 + 1) (2 * Z.of_nat i + 1) else mret_ false) l = Ok (b, l) ∧ e <= 1
        ∧ (b = true → 2 * i + 2 < n) ∧ ∀ c, (if (2 * Z.of_nat i + 1 + 1 <? Z.of_nat n)%Z then c_less cmp (2 * Z.of_nat i + 1 + 1) (2 * Z.of_nat i + 1) else mret_ false) (l, c) = Ok (b, (l, c + e))) as (b & e & E1 & He & Hb & E2).
      { destruct (Z.ltb_spec (2 * Z.of_nat i + 1 + 1) (Z.of_nat n)).
        - destruct (less_c l (2 * i + 2) (2 * i + 1) ltac:(lia) ltac:(lia)) as (b & Eb). replace (Z.of_nat (2 * i + 2)) with (2 * Z.of_nat i + 1 + 1)%Z in Eb by lia. replace (Z.of_nat (2 * i + 1)) with (2 * Z.of_nat i + 1)%Z in Eb by lia. exists b, 1. split_and!; [done|lia|lia|]. intros c. unfold c_less, counting. cbn [fst snd]. by rewrite Eb.
        - exists false, 0. split_and!; [done|lia|done|]. intros c. by rewrite Nat.add_0_r. }
      unfold mbind_ at 1. rewrite E1. set (j := if b then 2 * i + 2 else 2 * i + 1). assert ((if b then (2 * Z.of_nat i + 1 + 1)%Z else (2 * Z.of_nat i + 1)%Z) = Z.of_nat j) as Ej by (unfold j; destruct b; lia).
      assert (i < j ∧ j < n ∧ 2 * (i + 1) <= j + 1) as (H1 & H2 & H3) by (unfold j; destruct b; [specialize (Hb eq_refl)|]; lia). rewrite Ej.
      assert (1 <= Nat.log2 (n / (i + 1))) as Hl1. { apply (Nat.log2_le_mono 2). apply Nat.div_le_lower_bound; lia. }
      destruct (less_c l j i ltac:(lia) ltac:(lia)) as (b2 & Eb2). unfold mbind_ at 1. rewrite Eb2. destruct b2; cbn [negb].
      + destruct (swap_c l i j ltac:(lia) ltac:(lia)) as (l1 & E3 & Hl). destruct (IH j l1 ltac:(lia) ltac:(lia)) as (k & l' & E4 & Hl' & Hk & Hk2 & Hc). exists k, l'. unfold mbind_. rewrite E3. split_and!; [done|lia|lia| |].
        { intros _. destruct (decide (2 * j + 1 < n)); [by apply Hk2|]. clear IH. assert (k = j) as ->; [|done]. revert E4. destruct f; cbn [down_loop]; (destruct (Z.leb_spec (Z.of_nat n) (2 * Z.of_nat j + 1)); [|lia]); cbn [orb]; unfold mret_; intros [= E4 _]; lia. }
        intros c. destruct (Hc (c + e + 1)) as (d & E5 & Hd). exists (e + 1 + d). rewrite E2, Ej. unfold c_less, c_swap, counting in *. cbn [fst snd]. rewrite Eb2. cbn [fst snd negb]. rewrite E3. cbn [fst snd]. rewrite Nat.add_0_r. rewrite E5. split; [do 3 f_equal; lia|].
        assert (2 * (n / (j + 1)) <= n / (i + 1)) as Hq. { rewrite <-(Nat.div_mul_cancel_r n (i + 1) 2) by lia. transitivity (n / (i + 1)); [|by rewrite Nat.div_mul_cancel_r by lia]. apply Nat.div_le_lower_bound; [lia|]. transitivity ((j + 1) * (n / (j + 1))); [nia|]. apply Nat.mul_div_le. lia. }
        assert (0 < n / (j + 1)) as Hp by (apply Nat.div_str_pos; lia). apply Nat.log2_le_mono in Hq. rewrite Nat.log2_double in Hq by done. lia.
      + exists i, l. split_and!; [done|done|lia|lia|]. intros c. exists (e + 1). unfold mbind_. rewrite E2, Ej. unfold c_less, counting. cbn [fst snd]. rewrite Eb2. cbn [fst snd negb]. split; [by rewrite Nat.add_assoc|lia].
  Qed.
  (** sum of log2(n/m) for m = 1 .. k *)
  Fixpoint logs (n k : nat) : nat := match k with 0 => 0 | S k => Nat.log2 (n / (k + 1)) + logs n k end.
  Lemma log2_step q : 2 <= q → Nat.log2 q = S (Nat.log2 (q / 2)).
  Proof.
    intros H. pose proof (Nat.div_mod q 2 ltac:(lia)) as E. pose proof (Nat.mod_upper_bound q 2 ltac:(lia)). assert (0 < q / 2) by lia. rewrite E at 1. assert (q mod 2 = 0 ∨ q mod 2 = 1) as [-> | ->] by lia.
    - rewrite Nat.add_0_r. by apply Nat.log2_double.
    - by apply Nat.log2_succ_double.
  Qed.
  Lemma logs_half n k : k <= n / 2 → logs n k = k + logs (n / 2) k.
  Proof.
    induction k as [|k IH]; intros Hk; [done|]. cbn [logs]. rewrite IH by lia.
    assert (n / 2 / (k + 1) = n / (k + 1) / 2) as -> by (rewrite !Nat.div_div by lia; f_equal; lia).
    assert (2 <= n / (k + 1)) as H2 by (apply Nat.div_le_lower_bound; lia). rewrite (log2_step _ H2). lia.
  Qed.
  Lemma logs_top n k : n / 2 <= k → k <= n → logs n k = logs n (n / 2).
  Proof.
    induction k as [|k IH]; intros H1 H2; [by replace (n / 2) with 0 by lia|]. destruct (decide (n / 2 = S k)) as [-> |]; [done|]. cbn [logs]. rewrite IH by lia.
    assert (n / (k + 1) <= 1) as Hq. { apply Nat.lt_succ_r, Nat.div_lt_upper_bound; lia. } apply Nat.log2_null in Hq. lia.
  Qed.
  Lemma logs_le n : logs n (n / 2) <= n.
  Proof.
    induction n as [n IH] using lt_wf_ind. destruct (decide (n / 2 = 0)) as [->|Hn]; [cbn; lia|]. rewrite logs_half by done. rewrite logs_top by lia. specialize (IH (n / 2) ltac:(lia)). lia.
  Qed.
  Lemma init_c fuel k n l : n <= length l → n <= fuel → ∃ l', init_loop cmp fuel k (Z.of_nat n) l = Ok (tt, l') ∧ length l' = length l ∧ ∀ c, ∃ d, g_init_loop (c_less cmp) c_swap fuel k (Z.of_nat n) (l, c) = Ok (tt, (l', c + d)) ∧ d <= 2 * logs n k.
  Proof.
    intros Hn Hf. revert l Hn. induction k as [|k IH]; intros l Hn; cbn [init_loop g_init_loop]. { exists l. split_and!; [done|done|]. intros c. exists 0. split; [by rewrite Nat.add_0_r|lia]. }
    destruct (down_c fuel k n l Hn ltac:(lia)) as (r & l1 & E1 & Hl1 & _ & _ & Hc). destruct (IH l1 ltac:(lia)) as (l' & E2 & Hl' & Hc'). exists l'. unfold mbind_, down, g_down, mbind_. rewrite E1. unfold mret_. split_and!; [done|lia|]. intros c.
    destruct (Hc c) as (d & E3 & Hd). destruct (Hc' (c + d)) as (d' & E4 & Hd'). exists (d + d'). rewrite E3, E4. cbn [logs]. split; [by rewrite Nat.add_assoc|lia].
  Qed.
End proofs.

Section props.
  Context {T : Type} (cmp : T → T → Z).
  Implicit Types l : list T.
  (** C74: on n elements, whatever they are and however cmp answers: Push compares at most
      log2(n+1) times, Pop at most 2 log2(n), Remove and Fix at most 3 log2(n), Init at most 2n.
      The results are those of the plain operations (C38, C39). *)
  Theorem heap_push_cost l x : ∃ l' c, heap_push cmp x l = Ok (tt, l') ∧ g_push c_len (c_less cmp) c_swap c_push x (l, 0) = Ok (tt, (l', c)) ∧ c <= Nat.log2 (length l + 1).
  Proof.
    destruct (up_c cmp (length l + 1) (length l) (l ++ [x]) ltac:(rewrite app_length; cbn; lia) ltac:(lia)) as (l' & E1 & _ & Hc). destruct (Hc 0) as (d & E2 & Hd). exists l', d.
    unfold heap_push, g_push, c_push, c_len, counting, h_push, h_len, mbind_. cbn [fst snd]. rewrite app_length. cbn [length]. replace (Z.of_nat (length l + 1) - 1)%Z with (Z.of_nat (length l)) by lia. rewrite Nat2Z.id. split_and!; [done|done|done].
  Qed.
  Lemma pop_c l c : 0 < length l → ∃ x l', h_pop l = Ok (x, l') ∧ c_pop (l, c) = Ok (x, (l', c)).
  Proof. intros Hl. destruct (lookup_lt_is_Some_2 l (length l - 1) ltac:(lia)) as [x Hx]. exists x, (take (length l - 1) l). unfold c_pop, counting. cbn [fst snd]. assert (h_pop l = Ok (x, take (length l - 1) l)) as ->; [|by rewrite Nat.add_0_r]. unfold h_pop. destruct (Nat.eqb_spec (length l) 0); [lia|]. replace (Z.of_nat (length l) - 1)%Z with (Z.of_nat (length l - 1)) by lia. by rewrite (idx_nat _ _ _ Hx). Qed.
  Lemma len_c l c : c_len (l, c) = Ok (Z.of_nat (length l), (l, c)). Proof. unfold c_len, counting, h_len. cbn. by rewrite Nat.add_0_r. Qed.
  Lemma swp_c l l' c i j : h_swap i j l = Ok (tt, l') → c_swap i j (l, c) = Ok (tt, (l', c)). Proof. intros E. unfold c_swap, counting. cbn. rewrite E. by rewrite Nat.add_0_r. Qed.
  Theorem heap_pop_cost l : l ≠ [] → ∃ x l' c, heap_pop cmp l = Ok (x, l') ∧ g_pop c_len (c_less cmp) c_swap c_pop (l, 0) = Ok (x, (l', c)) ∧ c <= 2 * Nat.log2 (length l).
  Proof.
    intros Hl. assert (0 < length l) as Hl0 by (destruct l; [done|cbn; lia]). destruct (swap_c l 0 (length l - 1) ltac:(lia) ltac:(lia)) as (l1 & E1 & Hl1). change (Z.of_nat 0) with 0%Z in E1.
    destruct (down_c cmp (length l) 0 (length l - 1) l1 ltac:(lia) ltac:(lia)) as (k & l2 & E2 & Hl2 & _ & _ & Hc). destruct (Hc 0) as (d & E3 & Hd). destruct (pop_c l2 d ltac:(lia)) as (x & l' & E4 & E5). change (Z.of_nat 0) with 0%Z in *.
    exists x, l', d. unfold heap_pop, g_pop, down, g_down, mbind_, h_len. rewrite len_c. rewrite Nat2Z.id. replace (Z.of_nat (length l) - 1)%Z with (Z.of_nat (length l - 1)) by lia. rewrite E1, (swp_c _ _ _ _ _ E1). rewrite E2, E3. cbn [Nat.add]. unfold mret_. split_and!; [done|done|].
    rewrite Nat.div_1_r in Hd. pose proof (Nat.log2_le_mono (length l - 1) (length l) ltac:(lia)). lia.
  Qed.
  Theorem heap_remove_cost l i : i < length l → ∃ x l' c, heap_remove cmp (Z.of_nat i) l = Ok (x, l') ∧ g_remove c_len (c_less cmp) c_swap c_pop (Z.of_nat i) (l, 0) = Ok (x, (l', c)) ∧ c <= 3 * Nat.log2 (length l).
  Proof.
    intros Hi. unfold heap_remove, g_remove, down, g_down. unfold mbind_, h_len. rewrite len_c. replace (Z.of_nat (length l) - 1)%Z with (Z.of_nat (length l - 1)) by lia. rewrite Nat2Z.id.
    destruct (Z.eqb_spec (Z.of_nat (length l - 1)) (Z.of_nat i)) as [E|E]; cbn [negb].
    { destruct (pop_c l 0 ltac:(lia)) as (x & l' & E4 & E5). exists x, l', 0. split_and!; [done|done|lia]. }
    destruct (swap_c l i (length l - 1) ltac:(lia) ltac:(lia)) as (l1 & E1 & Hl1). destruct (down_c cmp (length l) i (length l - 1) l1 ltac:(lia) ltac:(lia)) as (k & l2 & E2 & Hl2 & _ & _ & Hc). destruct (Hc 0) as (d & E3 & Hd).
    assert (Nat.log2 ((length l - 1) / (i + 1)) <= Nat.log2 (length l)) as Hlog. { apply Nat.log2_le_mono. transitivity (length l - 1); [|lia]. apply Nat.div_le_upper_bound; nia. }
    rewrite E1, (swp_c _ _ _ _ _ E1), E2, E3. unfold mret_. cbn [Nat.add]. destruct (Z.ltb_spec (Z.of_nat i) (Z.of_nat k)).
    - destruct (pop_c l2 d ltac:(lia)) as (x & l' & E4 & E5). exists x, l', d. unfold mret_. cbn [Nat.add]. split_and!; [done|done|lia].
    - destruct (up_c cmp (length l) i l2 ltac:(lia) ltac:(lia)) as (l3 & E6 & Hl3 & Hc3). destruct (Hc3 d) as (d' & E7 & Hd'). destruct (pop_c l3 (d + d') ltac:(lia)) as (x & l' & E4 & E5). exists x, l', (d + d'). rewrite E6, E7. split_and!; [done|done|].
      assert (Nat.log2 (i + 1) <= Nat.log2 (length l)) by (apply Nat.log2_le_mono; lia). lia.
  Qed.
  Theorem heap_fix_cost l i : i < length l → ∃ l' c, heap_fix cmp (Z.of_nat i) l = Ok (tt, l') ∧ g_fix c_len (c_less cmp) c_swap (Z.of_nat i) (l, 0) = Ok (tt, (l', c)) ∧ c <= 3 * Nat.log2 (length l).
  Proof.
    intros Hi. unfold heap_fix, g_fix, down, g_down. unfold mbind_, h_len. rewrite len_c. rewrite Nat2Z.id.
    destruct (down_c cmp (length l) i (length l) l ltac:(lia) ltac:(lia)) as (k & l2 & E2 & Hl2 & _ & _ & Hc). destruct (Hc 0) as (d & E3 & Hd).
    assert (Nat.log2 (length l / (i + 1)) <= Nat.log2 (length l)) as Hlog. { apply Nat.log2_le_mono. apply Nat.div_le_upper_bound; nia. }
    rewrite E2, E3. unfold mret_. cbn [Nat.add]. destruct (Z.ltb_spec (Z.of_nat i) (Z.of_nat k)).
    - exists l2, d. unfold mret_. split_and!; [done|done|lia].
    - destruct (up_c cmp (length l) i l2 ltac:(lia) ltac:(lia)) as (l3 & E6 & Hl3 & Hc3). destruct (Hc3 d) as (d' & E7 & Hd'). exists l3, (d + d'). rewrite E6, E7. split_and!; [done|done|].
      assert (Nat.log2 (i + 1) <= Nat.log2 (length l)) by (apply Nat.log2_le_mono; lia). lia.
  Qed.
  Theorem heap_init_cost l : ∃ l' c, h_init cmp l = Ok (tt, l') ∧ g_init c_len (c_less cmp) c_swap (l, 0) = Ok (tt, (l', c)) ∧ c <= 2 * length l.
  Proof.
    destruct (init_c cmp (length l) (length l / 2) (length l) l ltac:(lia) ltac:(lia)) as (l' & E1 & _ & Hc). destruct (Hc 0) as (d & E2 & Hd). exists l', d. unfold h_init, g_init, c_len, counting, h_len, mbind_. cbn [fst snd]. rewrite Nat2Z.id. split_and!; [done|done|]. pose proof (logs_le (length l)). lia.
  Qed.
End props.
Print Assumptions heap_push_cost. Print Assumptions heap_pop_cost. Print Assumptions heap_remove_cost. Print Assumptions heap_fix_cost. Print Assumptions heap_init_cost.
(** eight elements *)
Example heap_cost_demo : match g_init c_len (c_less Z.sub) c_swap ([8; 7; 6; 5; 4; 3; 2; 1]%Z, 0) with Ok (_, (l, c)) => l = [1; 4; 2; 5; 8; 3; 6; 7]%Z ∧ c = 10
    ∧ match g_pop c_len (c_less Z.sub) c_swap c_pop (l, 0) with Ok (x, (l', c)) => x = 1%Z ∧ length l' = 7 ∧ c = 4 | _ => False end
    ∧ match g_push c_len (c_less Z.sub) c_swap c_push 0%Z (l, 0) with Ok (_, (l', c)) => c = 3 | _ => False end | _ => False end.
Proof. by vm_compute. Qed.
