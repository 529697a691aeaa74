From Verif Require Import Base Wp ListLib IterModel IterSpec SortModel SortSpec.
From Verif Require IterProofs.
From Coq Require Import Sorted.
Open Scope nat_scope.
Ltac Zify.zify_post_hook ::= Z.div_mod_to_equations.

Section sort.
  Context {W T : Type} (csize : nat → M W Z) (cat : nat → Z → M W T) (cset : nat → Z → T → M W unit).
  Context (o : nat) (R : W → list T → Prop) (L : ra_law csize cat cset o R).
  Set Default Proof Using "Type*".
  Implicit Types l : list T.
  Notation it p := (MkIter o p).
  Notation at_ p := (MkIter o (Z.of_nat p)).

  Lemma value_ok w l p x : R w l → l !! p = Some x → it_value cat (at_ p) w = Ok (x, w).
  Proof.
    intros H Hx. unfold it_value. cbn [it_obj it_pos]. rewrite (ra_at _ _ _ _ _ L _ _ _ H).
    rewrite bool_decide_eq_true_2 by lia. by rewrite Nat2Z.id, Hx.
  Qed.
  Lemma value_get w l p : R w l → p < length l → ∃ x, l !! p = Some x ∧ it_value cat (at_ p) w = Ok (x, w).
  Proof. intros H Hp. destruct (lookup_lt_is_Some_2 l p Hp) as [x Hx]. exists x. split; [done|by eapply value_ok]. Qed.
  Lemma set_ok w l p x : R w l → ∃ w', it_set cset (at_ p) x w = Ok (tt, w') ∧ R w' (<[p := x]> l).
  Proof.
    intros H. unfold it_set. cbn [it_obj it_pos]. destruct (ra_set _ _ _ _ _ L _ _ (Z.of_nat p) x H) as (w' & E & H').
    exists w'. split; [done|]. rewrite bool_decide_eq_true_2 in H' by lia. by rewrite Nat2Z.id in H'.
  Qed.
  Lemma next_ok w l p : R w l → p < length l → it_next csize (at_ p) w = Ok (at_ (S p), w).
  Proof.
    intros H Hp. rewrite (IterProofs.next_ok _ _ _ _ _ L _ _ _ H). destruct (Z.ltb_spec (Z.of_nat p) (Z.of_nat (length l))); [|lia].
    do 3 f_equal. lia.
  Qed.
  Lemma prev_ok (w : W) p : it_prev (at_ p) w = Ok (it (Z.of_nat p - 1), w).
  Proof using. clear. unfold it_prev. cbn [it_obj it_pos]. destruct (Z.leb_spec 0 (Z.of_nat p)); [done|lia]. Qed.

  Lemma swap_ok w l i j : R w l → i < length l → j < length l →
    ∃ w', swap_value cat cset (at_ i) (at_ j) w = Ok (tt, w') ∧ R w' (swapl l i j).
  Proof.
    intros H Hi Hj. destruct (value_get w l i H Hi) as (x & Hx & Ex). destruct (value_get w l j H Hj) as (y & Hy & Ey).
    unfold swap_value, mbind_. rewrite Ex, Ey. destruct (set_ok w l i y H) as (w1 & -> & HR1).
    destruct (set_ok w1 _ j x HR1) as (w2 & -> & HR2). exists w2. split; [done|]. unfold swapl. by rewrite Hx, Hy.
  Qed.

  Context (cmp : T → T → Z) (OK : CmpOK cmp).

  Definition le_at l (i j : nat) : Prop := ∀ x y, l !! i = Some x → l !! j = Some y → (cmp x y <= 0)%Z.
  Lemma le_at_trans l i j k : j < length l → le_at l i j → le_at l j k → le_at l i k.
  Proof.
    intros Hj HR1 HR2 x z Hx Hz. destruct (lookup_lt_is_Some_2 l j Hj) as [y Hy].
    eapply (cmp_le_trans _ OK _ y); eauto.
  Qed.
  (** result of the conditional swap *)
  Definition cswap l (i j : nat) : list T :=
    match l !! i, l !! j with
    | Some x, Some y => if (0 <? cmp x y)%Z then swapl l i j else l
    | _, _ => l
    end.
  Lemma swap_if_ok w l i j : R w l → i < length l → j < length l →
    ∃ w', swap_if_gt cat cset cmp (at_ i) (at_ j) w = Ok (tt, w') ∧ R w' (cswap l i j).
  Proof.
    intros H Hi Hj. destruct (value_get w l i H Hi) as (x & Hx & Ex). destruct (value_get w l j H Hj) as (y & Hy & Ey).
    unfold swap_if_gt, mbind_, cswap. rewrite Ex, Ey, Hx, Hy. destruct (0 <? cmp x y)%Z; [by apply swap_ok|by exists w].
  Qed.
  Lemma cswap_length l i j : length (cswap l i j) = length l.
  Proof. unfold cswap. destruct (l !! i), (l !! j); try done. destruct (0 <? _)%Z; [apply swapl_length|done]. Qed.
  (** after the conditional swap the two are in order; others unchanged *)
  Lemma cswap_spec l i j x y : l !! i = Some x → l !! j = Some y → i ≠ j →
    ∃ x' y', cswap l i j !! i = Some x' ∧ cswap l i j !! j = Some y' ∧ (cmp x' y' <= 0)%Z ∧
      ((x' = x ∧ y' = y) ∨ (x' = y ∧ y' = x ∧ (0 < cmp x y)%Z)) ∧
      (∀ k, k ≠ i → k ≠ j → cswap l i j !! k = l !! k) ∧ cswap l i j ≡ₚ l.
  Proof.
    intros Hx Hy Hne. pose proof (lookup_lt_Some _ _ _ Hx). pose proof (lookup_lt_Some _ _ _ Hy).
    unfold cswap. rewrite Hx, Hy. destruct (Z.ltb_spec 0 (cmp x y)).
    - exists y, x. rewrite !swapl_lookup by done. rewrite (decide_True (P := j = j)) by done.
      rewrite (decide_False (P := i = j)) by done. rewrite (decide_True (P := i = i)) by done.
      split_and!; [done|done| |by right| |apply swapl_perm].
      + pose proof (cmp_flip_gt _ OK x y). lia.
      + intros k ? ?. rewrite swapl_lookup by done. by rewrite !decide_False.
    - exists x, y. split_and!; [done|done|lia|by left|done|done].
  Qed.

  (** doPivot and the move of the median to last-1 *)
  Definition pivoted l a b : Prop := le_at l a (b - 1) ∧ le_at l (b - 1) b.
  Lemma pivot_ok w l a b m : R w l → a < m < b → b < length l →
    wp (do_pivot cat cset cmp (at_ a) (at_ m) (at_ b) ;; swap_value cat cset (at_ m) (at_ (b - 1)))%go
       (λ _ w', ∃ l', R w' l' ∧ perm_in a (S b) l l' ∧ pivoted l' a b) w.
  Proof.
    intros H Hm Hb. unfold do_pivot.
    destruct (swap_if_ok w l a m H) as (w1 & E1 & HR1); [lia|lia|].
    destruct (lookup_lt_is_Some_2 l a ltac:(lia)) as [xa Ha]. destruct (lookup_lt_is_Some_2 l m ltac:(lia)) as [xm Hxm].
    destruct (lookup_lt_is_Some_2 l b ltac:(lia)) as [xb Hxb].
    destruct (cswap_spec l a m xa xm Ha Hxm ltac:(lia)) as (x1 & y1 & A1 & M1 & C1 & D1 & O1 & P1).
    set (l1 := cswap l a m) in *. assert (length l1 = length l) as N1 by apply cswap_length.
    destruct (swap_if_ok w1 l1 a b HR1) as (w2 & E2 & HR2); [lia|lia|].
    assert (l1 !! b = Some xb) as B1 by (rewrite O1 by lia; done).
    destruct (cswap_spec l1 a b x1 xb A1 B1 ltac:(lia)) as (x2 & z2 & A2 & B2 & C2 & D2 & O2 & P2).
    set (l2 := cswap l1 a b) in *. assert (length l2 = length l) as N2 by (unfold l2; rewrite cswap_length; done).
    destruct (swap_if_ok w2 l2 m b HR2) as (w3 & E3 & HR3); [lia|lia|].
    assert (l2 !! m = Some y1) as M2 by (rewrite O2 by lia; done).
    destruct (cswap_spec l2 m b y1 z2 M2 B2 ltac:(lia)) as (y3 & z3 & M3 & B3 & C3 & D3 & O3 & P3).
    set (l3 := cswap l2 m b) in *. assert (length l3 = length l) as N3 by (unfold l3; rewrite cswap_length; done).
    assert (l3 !! a = Some x2) as A3 by (rewrite O3 by lia; done).
    destruct (swap_ok w3 l3 m (b - 1) HR3) as (w4 & E4 & HR4); [lia|lia|].
    eapply wp_eq. { unfold mbind_. rewrite E1, E2, E3, E4. reflexivity. }
    exists (swapl l3 m (b - 1)). split_and!; [done| |].
    - split; [by rewrite swapl_perm, P3, P2, P1|]. intros k Hk. rewrite swapl_lookup by lia. rewrite !decide_False by lia.
      rewrite O3, O2, O1 by lia. done.
    - (* the median is between *)
      assert ((cmp x2 y3 <= 0)%Z) as F1.
      { assert ((cmp x2 y1 <= 0)%Z) as G1.
        { destruct D2 as [[-> ->]|(-> & -> & ?)]; [done|]. eapply (cmp_le_trans _ OK _ x1); [|done].
          pose proof (cmp_flip_gt _ OK x1 xb). lia. }
        destruct D3 as [[-> ->]|(-> & -> & ?)]; done. }
      assert (∀ x, swapl l3 m (b - 1) !! (b - 1) = Some x → x = y3) as Fm.
      { intros x. rewrite swapl_lookup by lia. rewrite decide_True by done. congruence. }
      assert (∀ x, swapl l3 m (b - 1) !! a = Some x → x = x2) as Fa.
      { intros x. rewrite swapl_lookup by lia. rewrite decide_False by lia. rewrite decide_False by lia. congruence. }
      assert (∀ x, swapl l3 m (b - 1) !! b = Some x → x = z3) as Fb.
      { intros x. rewrite swapl_lookup by lia. rewrite decide_False by lia. rewrite decide_False by lia. congruence. }
      split.
      + intros x y Hx Hy. apply Fa in Hx as ->. apply Fm in Hy as ->. done.
      + intros x y Hx Hy. apply Fm in Hx as ->. apply Fb in Hy as ->. done.
  Qed.

  Definition all_le l i j (x : T) : Prop := ∀ k y, i <= k < j → l !! k = Some y → (cmp y x <= 0)%Z.
  Definition all_ge l i j (x : T) : Prop := ∀ k y, i <= k < j → l !! k = Some y → (cmp x y <= 0)%Z.

  Lemma part_loop_ok fuel w l a b i r x : R w l → b < length l → a < i <= r → r < b → r - i <= fuel →
    l !! (b - 1) = Some x → all_le l (S a) i x → all_ge l r (b - 1) x →
    wp (part_loop csize cat cset cmp fuel (at_ i) (it (Z.of_nat r - 1)) (at_ (b - 1)))
       (λ ret w', ∃ l' m, ret = it (Z.of_nat m - 1) ∧ R w' l' ∧ a < m < b ∧ perm_in (S a) (b - 1) l l' ∧
          l' !! (b - 1) = Some x ∧ all_le l' (S a) m x ∧ all_ge l' m (b - 1) x) w.
  Proof.
    revert w l i r. induction fuel as [|f IH]; intros w l i r H Hb Hi Hr Hf Hx Hle Hge; cbn [part_loop]; unfold it_position; cbn [it_pos].
    { destruct (Z.leb_spec (Z.of_nat i) (Z.of_nat r - 1)); [lia|]. apply wp_ret. exists l, r. split_and!; try done; try lia.
      assert (i = r) as <- by lia. done. }
    destruct (Z.leb_spec (Z.of_nat i) (Z.of_nat r - 1)).
    2:{ apply wp_ret. exists l, r. split_and!; try done; try lia. assert (i = r) as <- by lia. done. }
    destruct (value_get w l i H ltac:(lia)) as (y & Hy & Ey). wp_step Ey.
    wp_step (value_ok _ _ _ _ H Hx). destruct (Z.leb_spec (cmp y x) 0).
    - wp_step (next_ok w l i H ltac:(lia)). apply IH; try done; try lia.
      intros k z Hk Hz. destruct (decide (k = i)) as [->|]; [by simplify_eq|]. eapply Hle; [|done]. lia.
    - replace (Z.of_nat r - 1)%Z with (Z.of_nat (r - 1)) by lia.
      destruct (value_get w l (r - 1) H ltac:(lia)) as (z & Hz & Ez). wp_step Ez.
      wp_step (value_ok _ _ _ _ H Hx). destruct (Z.ltb_spec 0 (cmp z x)).
      + wp_step (prev_ok w (r - 1)). apply IH; try done; try lia.
        intros k u Hk Hu. destruct (decide (k = r - 1)) as [->|]; [simplify_eq; pose proof (cmp_flip_gt _ OK z x); lia|].
        eapply Hge; [|done]. lia.
      + destruct (swap_ok w l i (r - 1) H) as (w1 & E1 & HR1); [lia|lia|]. wp_step E1.
        assert (i ≠ r - 1) by (intros ->; simplify_eq; lia).
        wp_step (next_ok w1 _ i HR1 ltac:(rewrite swapl_length; lia)). wp_step (prev_ok w1 (r - 1)).
        eapply wp_mono; [apply IH; try done; try lia|].
        * rewrite swapl_length. lia.
        * rewrite swapl_lookup by lia. by rewrite !decide_False by lia.
        * intros k u Hk. rewrite swapl_lookup by lia. rewrite decide_False by lia. case_decide; [intros; simplify_eq; done|].
          apply Hle. lia.
        * intros k u Hk. rewrite swapl_lookup by lia. case_decide.
          { intros; simplify_eq. pose proof (cmp_flip_gt _ OK y x). lia. }
          rewrite decide_False by lia. apply Hge. lia.
        * intros ret w' (l' & m & -> & H' & Hm & Hp & Hx' & Hle' & Hge'). exists l', m. split_and!; try done; try lia.
          eapply perm_in_trans; [|exact Hp]. apply perm_in_swap; lia.
  Qed.

  Lemma partition_ok w l a b : R w l → a + 2 < b → b < length l → pivoted l a b →
    wp (partition csize cat cset cmp (at_ a) (at_ b))
       (λ ret w', ∃ l' m x, ret = Z.of_nat m ∧ R w' l' ∧ a < m < b ∧ perm_in a (S b) l l' ∧ l' !! m = Some x ∧
          all_le l' a m x ∧ all_ge l' (S m) (S b) x) w.
  Proof.
    intros H Hab Hb [P1 P2]. destruct (lookup_lt_is_Some_2 l (b - 1) ltac:(lia)) as [x Hx].
    unfold partition. unfold it_position, it_at. cbn [it_pos it_obj].
    replace (Z.of_nat b - 1)%Z with (Z.of_nat (b - 1)) by lia. replace (Z.of_nat a + 1)%Z with (Z.of_nat (S a)) by lia.
    replace (Z.of_nat b - 2)%Z with (Z.of_nat (b - 1) - 1)%Z by lia.
    apply wp_bind. eapply wp_mono; [apply (part_loop_ok _ w l a b (S a) (b - 1) x); try done; try lia|].
    - intros k y Hk. lia.
    - intros k y Hk. lia.
    - intros r w1 (l1 & m & -> & HR1 & Hm & Hp1 & Hx1 & Hle1 & Hge1).
      assert (length l1 = length l) as Hl1 by (by eapply perm_in_length).
      assert (it_next csize (it (Z.of_nat m - 1)) w1 = Ok (at_ m, w1)) as En.
      { replace (Z.of_nat m - 1)%Z with (Z.of_nat (m - 1)) by lia. rewrite (next_ok w1 l1) by (done || lia). do 3 f_equal. lia. }
      wp_step En. destruct (swap_ok w1 l1 (b - 1) m HR1) as (w2 & E2 & HR2); [lia|lia|]. wp_step E2. apply wp_ret.
      exists (swapl l1 (b - 1) m), m, x. cbn [it_pos].
      assert (∀ k, swapl l1 (b - 1) m !! k = if decide (k = m) then Some x else if decide (k = b - 1) then l1 !! m else l1 !! k) as Hs.
      { intros k. rewrite swapl_lookup by lia. by rewrite Hx1. }
      destruct Hp1 as [Hp1 Ho1]. split_and!; [done|done|lia|lia| | | |].
      + split; [by rewrite swapl_perm|]. intros k Hk. rewrite Hs. rewrite !decide_False by lia. apply Ho1. lia.
      + rewrite Hs. by rewrite decide_True.
      + intros k y Hk. rewrite Hs. rewrite !decide_False by lia. intros Hy. destruct (decide (k = a)) as [->|].
        * rewrite Ho1 in Hy by lia. by apply (P1 y x).
        * eapply Hle1; [|done]. lia.
      + intros k y Hk. rewrite Hs. rewrite decide_False by lia. destruct (decide (k = b - 1)) as [->|].
        * intros Hy. eapply (Hge1 m); [lia|done].
        * destruct (decide (k = b)) as [->|]; [|apply Hge1; lia]. intros Hy. rewrite Ho1 in Hy by lia. by apply (P2 x y).
  Qed.

  Definition sorted_in a e l : Prop := ∀ i j, a <= i < j → j < e → le_at l i j.

  Lemma quick_sort_ok fuel w l a e : R w l → a <= e <= length l → e - a <= fuel →
    wp (quick_sort csize cat cset cmp fuel (at_ a) (it (Z.of_nat e - 1)))
       (λ _ w', ∃ l', R w' l' ∧ perm_in a e l l' ∧ sorted_in a e l') w.
  Proof.
    revert w l a e. induction fuel as [|f IH]; intros w l a e H He Hf; cbn [quick_sort]; unfold it_position; cbn [it_pos].
    { destruct (Z.leb_spec (Z.of_nat e - 1) (Z.of_nat a)); [|lia]. apply wp_ret. exists l. split_and!; [done..|].
      intros i j ? ?. lia. }
    destruct (Z.leb_spec (Z.of_nat e - 1) (Z.of_nat a)).
    { apply wp_ret. exists l. split_and!; [done..|]. intros i j ? ?. lia. }
    replace (Z.of_nat e - 1)%Z with (Z.of_nat (e - 1)) by lia. set (b := e - 1).
    destruct (Z.ltb_spec (Z.of_nat b - Z.of_nat a + 1) 3).
    { destruct (swap_if_ok w l a b H) as (w' & E' & H'); [lia|lia|]. eapply wp_eq; [exact E'|].
      destruct (lookup_lt_is_Some_2 l a ltac:(lia)) as [xa Ha]. destruct (lookup_lt_is_Some_2 l b ltac:(lia)) as [xb Hb].
      destruct (cswap_spec l a b xa xb Ha Hb ltac:(lia)) as (x & y & A1 & B1 & C1 & D1 & O1 & P1).
      exists (cswap l a b). split_and!; [done| |].
      - split; [done|]. intros k Hk. apply O1; lia.
      - intros i j Hi Hj u v Hu Hv. assert (i = a) as -> by lia. assert (j = b) as -> by lia. by simplify_eq. }
    unfold it_at. cbn [it_obj]. set (mid := a + (b - a + 1) / 2).
    replace (Z.of_nat a + Z.quot (Z.of_nat b - Z.of_nat a + 1) 2)%Z with (Z.of_nat mid).
    2:{ rewrite Z.quot_div_nonneg by lia. lia. }
    replace (Z.of_nat b - 1)%Z with (Z.of_nat (b - 1)) by lia.
    pose proof (pivot_ok w l a b mid H ltac:(lia) ltac:(lia)) as Hpiv. apply wp_Ok in Hpiv as (u & w1 & E1 & l1 & HR1 & Hp1 & Hpv1).
    assert (length l1 = length l) as Hl1 by (by eapply perm_in_length).
    unfold mbind_ in E1. destruct (do_pivot cat cset cmp (at_ a) (at_ mid) (at_ b) w) as [[u' w0]| |] eqn:E0; try done.
    wp_step E0. wp_step E1.
    destruct (Z.eqb_spec (Z.of_nat b - Z.of_nat a + 1) 3).
    { apply wp_ret. exists l1. split_and!; [done|eapply perm_in_mono; [done|lia|lia]|].
      destruct Hpv1 as [G1 G2]. intros i j Hi Hj. assert ((i = a ∧ j = b - 1) ∨ (i = b - 1 ∧ j = b) ∨ (i = a ∧ j = b)) as [[-> ->]|[[-> ->]|[-> ->]]] by lia; [done|done|].
      apply (le_at_trans _ _ (b - 1)); [lia|done|done]. }
    apply wp_bind. eapply wp_mono; [apply (partition_ok w1 l1 a b); try done; lia|].
    intros ret w2 (l2 & m & x & -> & HR2 & Hm & Hp2 & Hx & Hle & Hge).
    assert (length l2 = length l) as Hl2 by (rewrite <-Hl1; by eapply perm_in_length).
    apply wp_bind. eapply wp_mono; [apply (IH w2 l2 a m); [done|lia|lia]|].
    intros _ w3 (l3 & HR3 & Hp3 & Hs3). assert (length l3 = length l) as Hl3 by (rewrite <-Hl2; by eapply perm_in_length).
    wp_step (next_ok w3 l3 m HR3 ltac:(lia)). replace (Z.of_nat b) with (Z.of_nat e - 1)%Z by lia.
    eapply wp_mono; [apply (IH w3 l3 (S m) e); [done|lia|lia]|].
    intros _ w4 (l4 & HR4 & Hp4 & Hs4). exists l4. split_and!; [done| |].
    - eapply perm_in_trans; [eapply perm_in_mono; [exact Hp1|lia|lia]|].
      eapply perm_in_trans; [eapply perm_in_mono; [exact Hp2|lia|lia]|].
      eapply perm_in_trans; [eapply perm_in_mono; [exact Hp3|lia|lia]|].
      eapply perm_in_mono; [exact Hp4|lia|lia].
    - assert (l4 !! m = Some x) as Hx4. { destruct Hp4 as [_ ->]; [|lia]. destruct Hp3 as [_ ->]; [done|lia]. }
      assert (all_le l4 a m x) as Hle4.
      { intros k y Hk Hy. destruct Hp4 as [_ Ho4]. rewrite Ho4 in Hy by lia. revert k y Hk Hy.
        apply (perm_in_forall (λ y, (cmp y x <= 0)%Z) a m l2 l3); [lia|done|]. intros k y Hk. apply Hle. lia. }
      assert (all_ge l4 (S m) e x) as Hge4.
      { unfold all_ge. apply (perm_in_forall (λ y, (cmp x y <= 0)%Z) (S m) e l3 l4); [lia|done|]. intros k y Hk Hy.
        destruct Hp3 as [_ Ho3]. rewrite Ho3 in Hy by lia. eapply Hge; [|done]. lia. }
      intros i j Hi Hj uu v Hu Hv. destruct (decide (j < m)).
      { destruct Hp4 as [_ Ho4]. rewrite Ho4 in Hu by lia. rewrite Ho4 in Hv by lia. by apply (Hs3 i j). }
      destruct (decide (m < i)). { apply (Hs4 i j); [lia|lia|done|done]. }
      assert ((cmp uu x <= 0)%Z). { destruct (decide (i = m)) as [->|]; [simplify_eq; rewrite (cmp_refl _ OK); lia|]. eapply (Hle4 i); [lia|done]. }
      assert ((cmp x v <= 0)%Z). { destruct (decide (j = m)) as [->|]; [simplify_eq; rewrite (cmp_refl _ OK); lia|]. eapply (Hge4 j); [lia|done]. }
      by eapply (cmp_le_trans _ OK _ x).
  Qed.

  Lemma sorted_in_seg a e l : a <= e <= length l → sorted_in a e l → ascending cmp (seg a e l).
  Proof.
    intros He Hs. unfold ascending. assert (∀ n a', a <= a' → a' <= e → e - a' = n → StronglySorted (λ x y, (cmp x y <= 0)%Z) (seg a' e l)) as G; [|by apply (G (e - a) a); lia].
    induction n as [|n IH]; intros a' ? ? Hn.
    - unfold seg. rewrite Hn, take_0. constructor.
    - destruct (lookup_lt_is_Some_2 l a' ltac:(lia)) as [x Hx]. unfold seg. rewrite Hn. rewrite (drop_S l x a' Hx). cbn [take].
      replace n with (e - S a') by lia. constructor; [apply IH; lia|]. apply Forall_forall. intros y Hy.
      apply elem_of_list_lookup in Hy as [k Hk]. pose proof (lookup_lt_Some _ _ _ Hk) as Hk'. rewrite take_length in Hk'.
      change (seg (S a') e l !! k = Some y) in Hk. rewrite seg_lookup in Hk by lia. eapply (Hs a' (S a' + k)); [lia|lia|done|done].
  Qed.

  Lemma sort_ok w l a b : R w l → a <= b <= length l →
    wp (sort_range csize cat cset cmp (at_ a) (at_ b)) (λ _ w', ∃ l', R w' l' ∧ perm_in a b l l' ∧ sorted_in a b l') w.
  Proof.
    intros H Hab. unfold sort_range, it_position, it_at. cbn [it_pos it_obj].
    replace (Z.of_nat a + (Z.of_nat b - Z.of_nat a) - 1)%Z with (Z.of_nat b - 1)%Z by lia.
    apply quick_sort_ok; [done|done|lia].
  Qed.
End sort.
