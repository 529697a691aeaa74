(** Heap operations with an arbitrary comparison function (no law assumed). *)
From Verif Require Import Base ListLib HeapModel.
Open Scope nat_scope.
Ltac Zify.zify_post_hook ::= Z.div_mod_to_equations.
Arguments Nat.div : simpl never.
Arguments Z.mul : simpl never.

Section heap.
  Context {T : Type} (cmp : T → T → Z).
  Implicit Types l : list T.
  Lemma less_any l i j : i < length l → j < length l → ∃ b, h_less cmp (Z.of_nat i) (Z.of_nat j) l = Ok (b, l).
  Proof.
    intros Hi Hj. destruct (lookup_lt_is_Some_2 l i Hi) as [x Hx]. destruct (lookup_lt_is_Some_2 l j Hj) as [y Hy].
    unfold h_less. rewrite (idx_nat _ _ _ Hx), (idx_nat _ _ _ Hy). by eexists.
  Qed.
  Lemma h_swap_any l i j : i < length l → j < length l → h_swap (Z.of_nat i) (Z.of_nat j) l = Ok (tt, swapl l i j).
  Proof. intros. unfold h_swap. by rewrite swap_res_ok. Qed.
  Definition rearr (n : nat) l l' : Prop := l' ≡ₚ l ∧ ∀ k, n <= k → l' !! k = l !! k.
  Lemma rearr_length n l l' : rearr n l l' → length l' = length l.
  Proof. intros [H _]. by apply Permutation_length. Qed.
  Lemma rearr_trans n l1 l2 l3 : rearr n l1 l2 → rearr n l2 l3 → rearr n l1 l3.
  Proof. intros [H1 H2] [H3 H4]. split; [by etrans|]. intros k Hk. rewrite H4 by done. by apply H2. Qed.
  Lemma rearr_swap n l i j : i < n → j < n → n <= length l → rearr n l (swapl l i j).
  Proof. intros. split; [apply swapl_perm|]. intros k Hk. rewrite swapl_lookup by lia. by rewrite !decide_False by lia. Qed.
  Lemma up_any fuel n j l : n <= length l → j < n → j <= fuel → ∃ l', up cmp fuel (Z.of_nat j) l = Ok (tt, l') ∧ rearr n l l'.
  Proof.
    revert j l. induction fuel as [|f IH]; intros j l Hn Hj Hf; cbn [up].
    { assert (j = 0) as -> by lia. exists l. by split. }
    destruct (decide (j = 0)) as [->|Hj0]. { exists l. by split. }
    set (i := (j - 1) / 2). replace (Z.of_nat j - 1)%Z with (Z.of_nat (j - 1)) by lia.
    replace (Z.quot (Z.of_nat (j - 1)) 2) with (Z.of_nat i) by (rewrite Z.quot_div_nonneg by lia; lia).
    destruct (Z.eqb_spec (Z.of_nat i) (Z.of_nat j)); [lia|]. destruct (less_any l j i ltac:(lia) ltac:(lia)) as (b & Eb). unfold mbind_. rewrite Eb.
    destruct b; cbn [negb]; [|by exists l]. rewrite h_swap_any by lia. destruct (IH i (swapl l i j)) as (l' & E' & R'); [rewrite swapl_length; lia|lia|lia|].
    exists l'. split; [done|]. eapply rearr_trans; [|exact R']. apply rearr_swap; lia.
  Qed.
  Lemma down_loop_any fuel n i l : n <= length l → i < n → n - i <= fuel → ∃ i' l', down_loop cmp fuel (Z.of_nat i) (Z.of_nat n) l = Ok (Z.of_nat i', l') ∧ rearr n l l'.
  Proof.
    revert i l. induction fuel as [|f IH]; intros i l Hn Hi Hf; [lia|]. cbn [down_loop].
    destruct (Z.leb_spec (Z.of_nat n) (2 * Z.of_nat i + 1)); [|destruct (Z.ltb_spec (2 * Z.of_nat i + 1) 0); [lia|]]; cbn [orb]. { by exists i, l. }
    set (j1 := 2 * i + 1). set (j2 := 2 * i + 2). replace (2 * Z.of_nat i + 1)%Z with (Z.of_nat j1) by lia. replace (Z.of_nat j1 + 1)%Z with (Z.of_nat j2) by lia.
    assert (∃ j, (if (Z.of_nat j2 <? Z.of_nat n)%Z then h_less cmp (Z.of_nat j2) (Z.of_nat j1) else mret_ false) l = Ok (bool_decide (j = j2), l) ∧ (j = j1 ∨ j = j2) ∧ j < n) as (j & Ej & Hj & Hjn).
    { destruct (Z.ltb_spec (Z.of_nat j2) (Z.of_nat n)); [|exists j1; rewrite bool_decide_eq_false_2 by lia; split_and!; [done|by left|lia]].
      destruct (less_any l j2 j1 ltac:(lia) ltac:(lia)) as ([] & Eb); [exists j2|exists j1]; rewrite Eb; [rewrite bool_decide_eq_true_2 by done|rewrite bool_decide_eq_false_2 by lia]; split_and!; [done|by right|lia|done|by left|lia]. }
    unfold mbind_ at 1. rewrite Ej. replace (if bool_decide (j = j2) then Z.of_nat j2 else Z.of_nat j1) with (Z.of_nat j) by (case_bool_decide; lia).
    destruct (less_any l j i ltac:(lia) ltac:(lia)) as (b & Eb). unfold mbind_. rewrite Eb. destruct b; cbn [negb]; [|by exists i, l].
    rewrite h_swap_any by lia. destruct (IH j (swapl l i j)) as (i' & l' & E' & R'); [rewrite swapl_length; lia|lia|lia|]. exists i', l'. split; [done|]. eapply rearr_trans; [|exact R']. apply rearr_swap; lia.
  Qed.
  Lemma down_any fuel n i l : n <= length l → (i < n ∨ n <= 2 * i + 1) → n - i <= fuel → ∃ b l', down cmp fuel (Z.of_nat i) (Z.of_nat n) l = Ok (b, l') ∧ rearr n l l'.
  Proof.
    intros Hn Hi Hf. unfold down, mbind_. destruct (decide (i < n)) as [Hlt|].
    - destruct (down_loop_any fuel n i l Hn Hlt Hf) as (i' & l' & -> & R'). by eexists _, l'.
    - exists false, l. split; [|done]. destruct fuel; cbn [down_loop]; (destruct (Z.leb_spec (Z.of_nat n) (2 * Z.of_nat i + 1)); [|lia]); cbn [orb]; unfold mret_; by rewrite Z.ltb_irrefl.
  Qed.
  Lemma init_any l : ∃ l', h_init cmp l = Ok (tt, l') ∧ l' ≡ₚ l.
  Proof.
    unfold h_init. assert (∀ c l0, length l0 = length l → c <= length l / 2 → ∃ l', init_loop cmp (length l) c (Z.of_nat (length l)) l0 = Ok (tt, l') ∧ l' ≡ₚ l0) as H.
    { induction c as [|c IH]; intros l0 Hlen Hc; cbn [init_loop]; [by exists l0|]. destruct (down_any (length l) (length l) c l0) as (b & l1 & E1 & R1); [lia|left; lia|lia|].
      unfold mbind_. rewrite E1. destruct (IH l1) as (l' & E' & P'); [rewrite (rearr_length _ _ _ R1); lia|lia|]. exists l'. split; [done|]. rewrite P'. apply R1. }
    by apply H.
  Qed.
  Lemma push_any l x : ∃ l', heap_push cmp x l = Ok (tt, l') ∧ l' ≡ₚ x :: l.
  Proof.
    unfold heap_push, h_push, h_len, mbind_. rewrite app_length. cbn [length]. replace (Z.of_nat (length l + 1) - 1)%Z with (Z.of_nat (length l)) by lia.
    destruct (up_any (Z.to_nat (Z.of_nat (length l + 1))) (length l + 1) (length l) (l ++ [x])) as (l' & E' & R'); [rewrite app_length; cbn; lia|lia|lia|].
    exists l'. split; [done|]. destruct R' as [-> _]. by rewrite Permutation_app_comm.
  Qed.
  Lemma pop_last_any l x n : length l = S n → l !! n = Some x → h_pop l = Ok (x, take n l) ∧ l ≡ₚ x :: take n l.
  Proof.
    intros Hl Hx. split.
    - unfold h_pop. rewrite Hl. cbn [Nat.eqb]. replace (Z.of_nat (S n) - 1)%Z with (Z.of_nat n) by lia. rewrite (idx_nat _ _ _ Hx). do 3 f_equal. lia.
    - rewrite <-(take_drop n l) at 1. rewrite (drop_S l x n Hx). rewrite drop_ge by lia. by rewrite Permutation_app_comm.
  Qed.
  Lemma remove_any l i x : l !! i = Some x → ∃ l', heap_remove cmp (Z.of_nat i) l = Ok (x, l') ∧ l ≡ₚ x :: l'.
  Proof.
    intros Hx. pose proof (lookup_lt_Some _ _ _ Hx) as Hi. unfold heap_remove, h_len, mbind_.
    destruct (length l) as [|n] eqn:Hlen; [lia|]. replace (Z.of_nat (S n) - 1)%Z with (Z.of_nat n) by lia. replace (Z.to_nat (Z.of_nat (S n))) with (S n) by lia.
    destruct (Z.eqb_spec (Z.of_nat n) (Z.of_nat i)) as [Heq|Hne]; cbn [negb].
    - assert (i = n) as -> by lia. destruct (pop_last_any l x n Hlen Hx) as [-> P]. by eexists.
    - rewrite h_swap_any by lia. assert (swapl l i n !! n = Some x) as Hx1 by (rewrite swapl_lookup by lia; by rewrite decide_True).
      destruct (down_any (S n) n i (swapl l i n)) as (b & l2 & -> & R2); [rewrite swapl_length; lia|left; lia|lia|]. pose proof (rearr_length _ _ _ R2) as L2. rewrite swapl_length in L2.
      assert (∃ l3, (if b then mret_ tt else up cmp (S n) (Z.of_nat i)) l2 = Ok (tt, l3) ∧ rearr n l2 l3) as (l3 & -> & R3) by (destruct b; [by exists l2|apply up_any; lia]).
      pose proof (rearr_length _ _ _ R3) as L3. destruct (pop_last_any l3 x n) as [-> P]; [lia| |].
      { destruct R3 as [_ ->]; [|lia]. destruct R2 as [_ ->]; [done|lia]. }
      eexists. split; [done|]. rewrite <-P. destruct R3 as [-> _]. destruct R2 as [-> _]. by rewrite swapl_perm.
  Qed.
  Lemma pop_any x t : ∃ l', heap_pop cmp (x :: t) = Ok (x, l') ∧ l' ≡ₚ t.
  Proof.
    set (l := x :: t). assert (l !! 0 = Some x) as Hx by done. unfold heap_pop, h_len, mbind_. destruct (length l) as [|n] eqn:Hlen; [done|].
    replace (Z.of_nat (S n) - 1)%Z with (Z.of_nat n) by lia. replace (Z.to_nat (Z.of_nat (S n))) with (S n) by lia. change 0%Z with (Z.of_nat 0). rewrite h_swap_any by lia.
    assert (swapl l 0 n !! n = Some x) as Hx1 by (rewrite swapl_lookup by lia; by rewrite decide_True).
    destruct (down_any (S n) n 0 (swapl l 0 n)) as (b & l2 & -> & R2); [rewrite swapl_length; lia|lia|lia|]. pose proof (rearr_length _ _ _ R2) as L2. rewrite swapl_length in L2.
    destruct (pop_last_any l2 x n) as [-> P]; [lia|destruct R2 as [_ ->]; [done|lia]|]. eexists. split; [done|]. apply (Permutation_cons_inv (a := x)). rewrite <-P. destruct R2 as [-> _]. apply swapl_perm.
  Qed.
  Lemma fix_any l i : i < length l → ∃ l', heap_fix cmp (Z.of_nat i) l = Ok (tt, l') ∧ l' ≡ₚ l.
  Proof.
    intros Hi. unfold heap_fix, h_len, mbind_. rewrite Nat2Z.id. destruct (down_any (length l) (length l) i l) as (b & l2 & -> & R2); [lia|by left|lia|]. pose proof (rearr_length _ _ _ R2) as L2.
    destruct b; [exists l2; split; [done|apply R2]|]. destruct (up_any (length l) (length l) i l2) as (l3 & -> & R3); [lia|lia|lia|]. exists l3. split; [done|]. destruct R3 as [-> _]. apply R2.
  Qed.
End heap.
