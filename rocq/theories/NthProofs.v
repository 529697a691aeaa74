From Verif Require Import Base Wp ListLib IterModel IterSpec SortModel SortSpec SortProofs.
Open Scope nat_scope.
Ltac Zify.zify_post_hook ::= Z.div_mod_to_equations.

Section nth.
  Context {W T : Type} (csize : nat → M W Z) (cat : nat → Z → M W T) (cset : nat → Z → T → M W unit).
  Context (o : nat) (R : W → list T → Prop) (L : ra_law csize cat cset o R).
  Context (cmp : T → T → Z) (OK : CmpOK cmp).
  Set Default Proof Using "Type*".
  Implicit Types l : list T.
  Notation it p := (MkIter o p).
  Notation at_ p := (MkIter o (Z.of_nat p)).
  Notation le_at := (le_at cmp).

  (** everything before c is <= everything from c on *)
  Definition cut_at a e c l : Prop := ∀ i j, a <= i < c → c <= j < e → le_at l i j.
  Definition window a e n l : Prop := ∃ c d, a <= c <= n ∧ n < d <= e ∧ d <= c + 2 ∧ cut_at a e c l ∧ cut_at a e d l.

  Lemma cut_ends a e l : cut_at a e a l ∧ cut_at a e e l.
  Proof. split; intros i j ? ?; lia. Qed.

  Lemma nth_ok fuel w l a e n : R w l → a <= e <= length l → e - a <= fuel →
    wp (nth_element_ csize cat cset cmp fuel (at_ a) (it (Z.of_nat e - 1)) (n - Z.of_nat a))
       (λ _ w', ∃ l', R w' l' ∧ perm_in a e l l' ∧ (∀ k, Z.of_nat k = n → a <= k < e → window a e k l')) w.
  Proof.
    revert w l a e. induction fuel as [|f IH]; intros w l a e HR He Hf; cbn [nth_element_]; unfold it_position; cbn [it_pos].
    { destruct (Z.leb_spec (Z.of_nat e - 1) (Z.of_nat a + 1)); [|lia]. apply wp_ret. exists l. split_and!; [done..|].
      intros. lia. }
    destruct (Z.leb_spec (Z.of_nat e - 1) (Z.of_nat a + 1)).
    { apply wp_ret. exists l. split_and!; [done..|]. intros k _ Hk. exists a, e. pose proof (cut_ends a e l) as [? ?]. split_and!; done || lia. }
    replace (Z.of_nat e - 1)%Z with (Z.of_nat (e - 1)) by lia. set (b := e - 1).
    destruct (Z.ltb_spec (Z.of_nat b - Z.of_nat a + 1) 3); [lia|].
    unfold it_at. cbn [it_obj]. set (mid := a + (b - a + 1) / 2).
    replace (Z.of_nat a + Z.quot (Z.of_nat b - Z.of_nat a + 1) 2)%Z with (Z.of_nat mid).
    2:{ rewrite Z.quot_div_nonneg by lia. lia. }
    replace (Z.of_nat b - 1)%Z with (Z.of_nat (b - 1)) by lia.
    pose proof (pivot_ok _ _ _ o R L cmp OK w l a b mid HR ltac:(lia) ltac:(lia)) as Hpiv. apply wp_Ok in Hpiv as (u & w1 & E1 & l1 & HR1 & Hp1 & Hpv1).
    assert (length l1 = length l) as Hl1 by (by eapply perm_in_length).
    unfold mbind_ in E1. destruct (do_pivot cat cset cmp (at_ a) (at_ mid) (at_ b) w) as [[u' w0]| |] eqn:E0; try done.
    wp_step E0. wp_step E1.
    destruct (Z.eqb_spec (Z.of_nat b - Z.of_nat a + 1) 3).
    { apply wp_ret. exists l1. split_and!; [done|eapply perm_in_mono; [done|lia|lia]|].
      intros k _ Hk. destruct Hpv1 as [G1 G2].
      assert (∀ i j, a <= i < j → j < e → le_at l1 i j) as Hs.
      { intros i j Hi Hj. assert ((i = a ∧ j = b - 1) ∨ (i = b - 1 ∧ j = b) ∨ (i = a ∧ j = b)) as [[-> ->]|[[-> ->]|[-> ->]]] by lia; [done|done|].
        apply (le_at_trans _ _ _ _ _ L _ OK _ _ (b - 1)); [lia|done|done]. }
      exists k, (S k). split_and!; try lia; intros i j ? ?; apply Hs; lia. }
    apply wp_bind. eapply wp_mono; [apply (partition_ok _ _ _ o R L cmp OK w1 l1 a b); try done; lia|].
    intros ret w2 (l2 & m & x & -> & HR2 & Hm & Hp2 & Hx & Hle & Hge).
    assert (length l2 = length l) as Hl2 by (rewrite <-Hl1; by eapply perm_in_length).
    destruct (Z.leb_spec (n - Z.of_nat a) (Z.of_nat m - Z.of_nat a)).
    - replace (Z.of_nat m) with (Z.of_nat (S m) - 1)%Z by lia.
      eapply wp_mono; [apply (IH w2 l2 a (S m)); [done|lia|lia]|].
      intros _ w3 (l3 & HR3 & Hp3 & Hw3). exists l3. split_and!; [done| |].
      { eapply perm_in_trans; [eapply perm_in_mono; [exact Hp1|lia|lia]|].
        eapply perm_in_trans; [eapply perm_in_mono; [exact Hp2|lia|lia]|].
        eapply perm_in_mono; [exact Hp3|lia|lia]. }
      intros k Hk Hk'. destruct (Hw3 k Hk) as (c & d & ? & ? & ? & Hc & Hd); [lia|].
      assert (∀ i, a <= i < S m → ∀ y, l3 !! i = Some y → (cmp y x <= 0)%Z) as Hle3.
      { intros i Hi y Hy. revert Hy. revert Hi. revert i y. 
        refine (perm_in_forall (λ y, (cmp y x <= 0)%Z) a (S m) l2 l3 _ Hp3 _); [lia|]. intros i y Hi Hy.
        destruct (decide (i = m)) as [->|]; [simplify_eq; rewrite (cmp_refl _ OK); lia|]. eapply (Hle i); [lia|done]. }
      assert (∀ j, S m <= j < e → ∀ y, l3 !! j = Some y → (cmp x y <= 0)%Z) as Hge3.
      { intros j Hj y Hy. destruct Hp3 as [_ Ho3]. rewrite Ho3 in Hy by lia. eapply (Hge j); [lia|done]. }
      assert (∀ c, c <= S m → cut_at a (S m) c l3 → cut_at a e c l3) as Hext.
      { intros c' Hc' H' i j Hi Hj. destruct (decide (j < S m)); [apply H'; lia|]. intros y z Hy Hz.
        eapply (cmp_le_trans _ OK _ x); [eapply (Hle3 i); [lia|done]|eapply (Hge3 j); [lia|done]]. }
      exists c, d. split_and!; try lia; apply Hext; done || lia.
    - wp_step (next_ok _ _ _ o R L w2 l2 m HR2 ltac:(lia)). replace (Z.of_nat b) with (Z.of_nat e - 1)%Z by lia.
      replace (n - Z.of_nat a - (Z.of_nat m - Z.of_nat a + 1))%Z with (n - Z.of_nat (S m))%Z by lia.
      eapply wp_mono; [apply (IH w2 l2 (S m) e); [done|lia|lia]|].
      intros _ w3 (l3 & HR3 & Hp3 & Hw3). exists l3. split_and!; [done| |].
      { eapply perm_in_trans; [eapply perm_in_mono; [exact Hp1|lia|lia]|].
        eapply perm_in_trans; [eapply perm_in_mono; [exact Hp2|lia|lia]|].
        eapply perm_in_mono; [exact Hp3|lia|lia]. }
      intros k Hk Hk'. destruct (Hw3 k Hk) as (c & d & ? & ? & ? & Hc & Hd); [lia|].
      assert (∀ i, a <= i < S m → ∀ y, l3 !! i = Some y → (cmp y x <= 0)%Z) as Hle3.
      { intros i Hi y Hy. destruct Hp3 as [_ Ho3]. rewrite Ho3 in Hy by lia.
        destruct (decide (i = m)) as [->|]; [simplify_eq; rewrite (cmp_refl _ OK); lia|]. eapply (Hle i); [lia|done]. }
      assert (∀ j, S m <= j < e → ∀ y, l3 !! j = Some y → (cmp x y <= 0)%Z) as Hge3.
      { intros i Hi y Hy. revert Hy. revert Hi. revert i y.
        refine (perm_in_forall (λ y, (cmp x y <= 0)%Z) (S m) e l2 l3 _ Hp3 _); [lia|]. intros i y Hi Hy.
        eapply (Hge i); [lia|done]. }
      assert (∀ c, S m <= c → cut_at (S m) e c l3 → cut_at a e c l3) as Hext.
      { intros c' Hc' H' i j Hi Hj. destruct (decide (S m <= i)); [apply H'; lia|]. intros y z Hy Hz.
        eapply (cmp_le_trans _ OK _ x); [eapply (Hle3 i); [lia|done]|eapply (Hge3 j); [lia|done]]. }
      exists c, d. split_and!; try lia; apply Hext; done || lia.
  Qed.
End nth.
