From Verif Require Import Base History ListLib HeapModel HeapSpec.
From Coq Require Import Sorted.
Open Scope nat_scope.
Ltac Zify.zify_post_hook ::= Z.div_mod_to_equations.
Arguments Nat.div : simpl never.
Arguments Z.mul : simpl never.

Section heap.
  Context {T : Type} (cmp : T → T → Z) (OK : CmpOK cmp).
  Set Default Proof Using "Type*".
  Implicit Types l : list T.
  Notation par k := ((k - 1) / 2).

  Definition le_at l (i j : nat) : Prop := ∀ x y, l !! i = Some x → l !! j = Some y → (cmp x y <= 0)%Z.
  Definition hp (lo n : nat) l : Prop := ∀ k, 0 < k < n → lo <= par k → le_at l (par k) k.

  Lemma le_at_trans l i j k : j < length l → le_at l i j → le_at l j k → le_at l i k.
  Proof.
    intros Hj H1 H2 x z Hx Hz. destruct (lookup_lt_is_Some_2 l j Hj) as [y Hy].
    eapply (cmp_le_trans _ OK _ y); eauto.
  Qed.

  Lemma less_ok l i j : i < length l → j < length l →
    ∃ b, h_less cmp (Z.of_nat i) (Z.of_nat j) l = Ok (b, l) ∧ (b = true → le_at l i j) ∧ (b = false → le_at l j i).
  Proof.
    intros Hi Hj. destruct (lookup_lt_is_Some_2 l i Hi) as [x Hx]. destruct (lookup_lt_is_Some_2 l j Hj) as [y Hy].
    unfold h_less. rewrite (idx_nat _ _ _ Hx), (idx_nat _ _ _ Hy). eexists. split; [done|].
    destruct (Z.ltb_spec (cmp x y) 0); split; intros; try done; intros u v Hu Hv; simplify_eq; [lia|].
    by apply (cmp_flip_le _ OK).
  Qed.
  Lemma h_swap_ok l i j : i < length l → j < length l → h_swap (Z.of_nat i) (Z.of_nat j) l = Ok (tt, swapl l i j).
  Proof. intros. unfold h_swap. by rewrite swap_res_ok. Qed.

  Lemma le_at_ext l l' i j i' j' : l' !! i' = l !! i → l' !! j' = l !! j → le_at l i j → le_at l' i' j'.
  Proof. intros H1 H2 H x y. rewrite H1, H2. apply H. Qed.

  (** loop invariant of down at i: edges not touching i hold; children of i are above par i *)
  Definition D lo n i l : Prop :=
    (∀ k, 0 < k < n → lo <= par k → par k ≠ i → k ≠ i → le_at l (par k) k) ∧
    (∀ k, 0 < k < n → par k = i → 0 < i → lo <= par i → le_at l (par i) k).
  Definition E lo i l : Prop := 0 < i → lo <= par i → le_at l (par i) i.
  Definition C n i l : Prop := ∀ k, 0 < k < n → par k = i → le_at l i k.

  Lemma down_loop_ok fuel lo n i l : n <= length l → i < n → lo <= i → n - i <= fuel → D lo n i l →
    ∃ i' l', down_loop cmp fuel (Z.of_nat i) (Z.of_nat n) l = Ok (Z.of_nat i', l') ∧
      l' ≡ₚ l ∧ length l' = length l ∧ (∀ k, n <= k → l' !! k = l !! k) ∧
      ((i' = i ∧ l' = l ∧ C n i l) ∨ (i < i' ∧ hp lo n l')).
  Proof.
    revert i l. induction fuel as [|f IH]; intros i l Hn Hi Hlo Hf HD; [lia|].
    cbn [down_loop].
    destruct (Z.leb_spec (Z.of_nat n) (2 * Z.of_nat i + 1)); [|destruct (Z.ltb_spec (2 * Z.of_nat i + 1) 0); [lia|]]; cbn [orb].
    { exists i, l. split_and!; try done. left. split_and!; try done. intros k ? ?. lia. }
    set (j1 := 2 * i + 1). set (j2 := 2 * i + 2).
    replace (2 * Z.of_nat i + 1)%Z with (Z.of_nat j1) by lia.
    replace (Z.of_nat j1 + 1)%Z with (Z.of_nat j2) by lia.
    (* choose the smaller child *)
    assert (∃ j, (if (Z.of_nat j2 <? Z.of_nat n)%Z then h_less cmp (Z.of_nat j2) (Z.of_nat j1) else mret_ false) l
              = Ok (bool_decide (j = j2), l) ∧ (j = j1 ∨ j = j2) ∧ j < n ∧ ∀ k, 0 < k < n → par k = i → le_at l j k) as (j & Ej & Hj & Hjn & Hmin).
    { destruct (Z.ltb_spec (Z.of_nat j2) (Z.of_nat n)).
      - destruct (less_ok l j2 j1 ltac:(lia) ltac:(lia)) as (b & Eb & G1 & G2). destruct b.
        + exists j2. rewrite Eb. rewrite bool_decide_eq_true_2 by done. split_and!; [done|auto|lia|].
          intros k Hk Hp. assert (k = j1 ∨ k = j2) as [->| ->] by lia; [auto|].
          intros x y Hx Hy. simplify_eq. rewrite (cmp_refl _ OK). lia.
        + exists j1. rewrite Eb. rewrite bool_decide_eq_false_2 by lia. split_and!; [done|auto|lia|].
          intros k Hk Hp. assert (k = j1 ∨ k = j2) as [->| ->] by lia; [|auto].
          intros x y Hx Hy. simplify_eq. rewrite (cmp_refl _ OK). lia.
      - exists j1. rewrite bool_decide_eq_false_2 by lia. split_and!; [done|auto|lia|].
        intros k Hk Hp. assert (k = j1) as -> by lia.
        intros x y Hx Hy. simplify_eq. rewrite (cmp_refl _ OK). lia. }
    unfold mbind_ at 1. rewrite Ej.
    replace (if bool_decide (j = j2) then Z.of_nat j2 else Z.of_nat j1) with (Z.of_nat j) by (case_bool_decide; lia).
    assert (par j = i) as Hpj by lia. assert (i < j) as Hij by lia.
    destruct (less_ok l j i ltac:(lia) ltac:(lia)) as (b & Eb & H1 & H2). unfold mbind_ at 1. rewrite Eb.
    destruct b; cbn [negb].
    2:{ exists i, l. split_and!; try done. left. split_and!; try done. intros k Hk Hp.
        apply (le_at_trans l i j k); [lia|auto|auto]. }
    specialize (H1 eq_refl). unfold mbind_. rewrite h_swap_ok by lia.
    set (l1 := swapl l i j).
    assert (∀ k, l1 !! k = if decide (k = j) then l !! i else if decide (k = i) then l !! j else l !! k) as Hl1.
    { intros k. apply swapl_lookup; lia. }
    assert (l1 !! i = l !! j) as L1i by (rewrite Hl1, decide_False by lia; by rewrite decide_True).
    assert (l1 !! j = l !! i) as L1j by (rewrite Hl1; by rewrite decide_True).
    assert (∀ k, k ≠ i → k ≠ j → l1 !! k = l !! k) as L1o by (intros k ? ?; rewrite Hl1; by rewrite !decide_False).
    assert (length l1 = length l) as Hlen1 by apply swapl_length.
    destruct HD as [HDa HDb].
    assert (D lo n j l1) as HD1.
    { split.
      - intros k Hk Hlo' Hpk Hkj. destruct (decide (k = i)) as [->|Hki].
        + eapply le_at_ext; [apply L1o; lia|apply L1i|]. apply HDb; try lia.
        + destruct (decide (par k = i)) as [Hp|Hp].
          * rewrite Hp. eapply le_at_ext; [apply L1i|by apply L1o|]. apply Hmin; done.
          * eapply le_at_ext; [by apply L1o|by apply L1o|]. by apply HDa.
      - intros k Hk Hpk Hj0 Hlo'. rewrite Hpj. eapply le_at_ext; [apply L1i|apply L1o; lia|].
        rewrite <-Hpk. apply HDa; lia. }
    assert (E lo j l1) as HE1.
    { intros _ _. rewrite Hpj. eapply le_at_ext; [apply L1i|apply L1j|]. done. }
    destruct (IH j l1) as (i' & l' & E' & Hp' & Hlen' & Hout & Hres); [lia|lia|lia|lia|done|].
    exists i', l'. split_and!.
    - done.
    - rewrite Hp'. apply swapl_perm.
    - lia.
    - intros k Hk. rewrite Hout by done. apply L1o; lia.
    - right. destruct Hres as [(-> & -> & HC)|[? ?]]; [|split; [lia|done]]. split; [done|].
      intros k Hk Hlo'. destruct (decide (par k = j)) as [Hp|Hp]; [rewrite Hp; by apply HC|].
      destruct (decide (k = j)) as [->|]; [apply HE1; lia|]. destruct HD1 as [HD1 _]. by apply HD1.
  Qed.

  Lemma down_ok fuel lo n i l : n <= length l → i < n → lo <= i → n <= fuel → D lo n i l →
    ∃ b l', down cmp fuel (Z.of_nat i) (Z.of_nat n) l = Ok (b, l') ∧
      l' ≡ₚ l ∧ length l' = length l ∧ (∀ k, n <= k → l' !! k = l !! k) ∧
      (b = false → l' = l ∧ C n i l) ∧ (b = true ∨ E lo i l → hp lo n l').
  Proof.
    intros H1 H2 H3 H4 HD. destruct (down_loop_ok fuel lo n i l) as (i' & l' & E' & Hp & Hl & Ho & Hres); [lia..|done|].
    unfold down, mbind_. rewrite E'. do 2 eexists. split; [done|]. split_and!; [done|done|done| |].
    - intros Hb. apply Z.ltb_ge in Hb. destruct Hres as [(-> & -> & ?)|[? ?]]; [done|lia].
    - intros Hb. destruct Hres as [(-> & -> & HC)|[? ?]]; [|done]. destruct Hb as [Hb|HE].
      { apply Z.ltb_lt in Hb. lia. }
      intros k Hk Hlo. destruct (decide (par k = i)) as [<-|Hp']; [by apply HC|].
      destruct (decide (k = i)) as [->|]; [apply HE; lia|]. destruct HD as [HD _]. by apply HD.
  Qed.
  (** down with an empty range *)
  Lemma down_ge fuel i n l : (n <= 2 * i + 1)%Z → down cmp fuel i n l = Ok (false, l).
  Proof.
    intros H. unfold down, mbind_. destruct fuel; cbn [down_loop]; (destruct (Z.leb_spec n (2 * i + 1)); [|lia]); cbn [orb];
      unfold mret_; by rewrite Z.ltb_irrefl.
  Qed.

  (** loop invariant of up at j *)
  Definition U n j l : Prop :=
    (∀ k, 0 < k < n → k ≠ j → le_at l (par k) k) ∧
    (∀ k, 0 < k < n → par k = j → 0 < j → le_at l (par j) k).
  Lemma up_ok fuel n j l : n <= length l → j < n → j <= fuel → U n j l →
    ∃ l', up cmp fuel (Z.of_nat j) l = Ok (tt, l') ∧ l' ≡ₚ l ∧ length l' = length l ∧
      (∀ k, n <= k → l' !! k = l !! k) ∧ hp 0 n l'.
  Proof.
    revert j l. induction fuel as [|f IH]; intros j l Hn Hj Hf HU.
    - assert (j = 0) as -> by lia. cbn. exists l. split_and!; try done. intros k Hk _. apply HU; lia.
    - cbn [up]. destruct (decide (j = 0)) as [->|Hj0].
      { cbn. exists l. split_and!; try done. intros k Hk _. apply HU; lia. }
      set (i := par j). replace (Z.of_nat j - 1)%Z with (Z.of_nat (j - 1)) by lia.
      replace (Z.quot (Z.of_nat (j - 1)) 2) with (Z.of_nat i) by (rewrite Z.quot_div_nonneg by lia; lia).
      destruct (Z.eqb_spec (Z.of_nat i) (Z.of_nat j)); [lia|].
      destruct (less_ok l j i ltac:(lia) ltac:(lia)) as (b & Eb & H1 & H2). unfold mbind_ at 1. rewrite Eb.
      destruct HU as [Ua Ub]. destruct b; cbn [negb].
      2:{ exists l. split_and!; try done. intros k Hk _. destruct (decide (k = j)) as [->|]; [auto|auto]. }
      specialize (H1 eq_refl). unfold mbind_. rewrite h_swap_ok by lia. set (l1 := swapl l i j).
      assert (∀ k, l1 !! k = if decide (k = j) then l !! i else if decide (k = i) then l !! j else l !! k) as Hl1.
      { intros k. apply swapl_lookup; lia. }
      assert (l1 !! i = l !! j) as L1i by (rewrite Hl1, decide_False by lia; by rewrite decide_True).
      assert (l1 !! j = l !! i) as L1j by (rewrite Hl1; by rewrite decide_True).
      assert (∀ k, k ≠ i → k ≠ j → l1 !! k = l !! k) as L1o by (intros k ? ?; rewrite Hl1; by rewrite !decide_False).
      assert (length l1 = length l) as Hlen1 by apply swapl_length.
      destruct (IH i l1) as (l' & E' & Hp' & Hlen' & Hout & Hres); [lia|lia|lia| |].
      + split.
        * intros k Hk Hki. destruct (decide (k = j)) as [->|Hkj].
          -- eapply le_at_ext; [apply L1i|apply L1j|done].
          -- destruct (decide (par k = i)) as [Hp|Hp].
             ++ rewrite Hp. eapply le_at_ext; [apply L1i|by apply L1o|].
                apply (le_at_trans l j i k); [lia|done|]. rewrite <-Hp. by apply Ua.
             ++ destruct (decide (par k = j)) as [Hp2|Hp2].
                ** rewrite Hp2. eapply le_at_ext; [apply L1j|by apply L1o|]. apply Ub; lia.
                ** eapply le_at_ext; [by apply L1o|by apply L1o|]. by apply Ua.
        * intros k Hk Hp Hi0. eapply le_at_ext; [apply L1o; lia| |].
          { instantiate (1 := if decide (k = j) then i else k). destruct (decide (k = j)) as [->|]; [done|]. apply L1o; lia. }
          assert (le_at l (par i) i) by (apply Ua; lia). destruct (decide (k = j)) as [->|]; [done|].
          apply (le_at_trans l (par i) i k); [lia|done|]. rewrite <-Hp. apply Ua; lia.
      + exists l'. split_and!.
        * done.
        * rewrite Hp'. apply swapl_perm.
        * lia.
        * intros k Hk. rewrite Hout by done. apply L1o; lia.
        * done.
  Qed.

  Lemma hp_is_heap l : hp 0 (length l) l ↔ is_heap cmp l.
  Proof.
    split; intros H.
    - intros k x y Hk Hx Hy. eapply (H k); [split; [done|by eapply lookup_lt_Some]|lia|done|done].
    - intros k Hk _ x y Hx Hy. eapply H; [|done|done]. lia.
  Qed.
  Lemma hp_mono lo n m l : hp lo n l → m <= n → hp lo m l.
  Proof. intros H ? k ? ?. apply H; lia. Qed.
  Lemma hp_take n l : hp 0 n l → is_heap cmp (take n l).
  Proof.
    intros H k x y Hk Hx Hy. apply lookup_take_Some in Hx as [Hx ?]. apply lookup_take_Some in Hy as [Hy ?].
    eapply (H k); [lia|lia|done|done].
  Qed.

  Lemma h_init_ok l : ∃ l', h_init cmp l = Ok (tt, l') ∧ l' ≡ₚ l ∧ is_heap cmp l'.
  Proof.
    unfold h_init. assert (∀ c l0, length l0 = length l → c <= length l / 2 → hp c (length l) l0 →
      ∃ l', init_loop cmp (length l) c (Z.of_nat (length l)) l0 = Ok (tt, l') ∧ l' ≡ₚ l0 ∧ length l' = length l ∧ hp 0 (length l) l') as H.
    { induction c as [|c IH]; intros l0 Hlen Hc Hhp; cbn [init_loop].
      - exists l0. done.
      - destruct (down_ok (length l) c (length l) c l0) as (b & l1 & E1 & Hp1 & Hl1 & _ & _ & Hh); [lia..| |].
        + split; intros k Hk H1 H2; [intros; apply Hhp; lia|intros; lia].
        + unfold mbind_. rewrite E1. destruct (IH l1) as (l' & ? & ? & ? & ?); [lia|lia| |].
          * apply Hh. right. intros ? ?. lia.
          * exists l'. split_and!; try done. by etrans. }
    destruct (H (length l / 2) l) as (l' & E' & Hp & Hl & Hh); [done|done| |].
    - intros k Hk Hlo. lia.
    - exists l'. split_and!; [done|done|]. apply hp_is_heap. by rewrite Hl.
  Qed.

  Lemma heap_push_ok l x : is_heap cmp l → ∃ l', heap_push cmp x l = Ok (tt, l') ∧ l' ≡ₚ x :: l ∧ is_heap cmp l'.
  Proof.
    intros Hh. unfold heap_push, h_push, h_len, mbind_. rewrite app_length. cbn [length].
    replace (Z.of_nat (length l + 1) - 1)%Z with (Z.of_nat (length l)) by lia.
    destruct (up_ok (Z.to_nat (Z.of_nat (length l + 1))) (length l + 1) (length l) (l ++ [x])) as (l' & E' & Hp & Hl & _ & Hh').
    - rewrite app_length. cbn. lia.
    - lia.
    - lia.
    - split; [|intros; lia]. intros k Hk Hk'. intros u v Hu Hv. rewrite lookup_app_l in Hu by lia. rewrite lookup_app_l in Hv by lia.
      eapply Hh; [|done|done]. lia.
    - exists l'. split_and!; [done| |].
      + rewrite Hp. by rewrite Permutation_app_comm.
      + apply hp_is_heap. rewrite Hl, app_length. exact Hh'.
  Qed.

  Lemma h_pop_ok l x n : length l = S n → l !! n = Some x → h_pop l = Ok (x, take n l).
  Proof.
    intros Hl Hx. unfold h_pop. rewrite Hl. cbn [Nat.eqb]. replace (Z.of_nat (S n) - 1)%Z with (Z.of_nat n) by lia.
    rewrite (idx_nat _ _ _ Hx). do 3 f_equal. lia.
  Qed.
  Lemma take_perm l l' n x : length l' = S n → l' !! n = Some x → l' ≡ₚ l → l ≡ₚ x :: take n l'.
  Proof.
    intros Hl Hx Hp. rewrite <-Hp. rewrite <-(take_drop n l') at 1. rewrite (drop_S l' x n Hx).
    rewrite drop_ge by lia. by rewrite Permutation_app_comm.
  Qed.

  Lemma heap_remove_ok l i x : is_heap cmp l → l !! i = Some x →
    ∃ l', heap_remove cmp (Z.of_nat i) l = Ok (x, l') ∧ l ≡ₚ x :: l' ∧ is_heap cmp l'.
  Proof.
    intros Hh Hx. pose proof (lookup_lt_Some _ _ _ Hx) as Hi. unfold heap_remove, h_len, mbind_.
    destruct (length l) as [|n] eqn:Hlen; [lia|]. replace (Z.of_nat (S n) - 1)%Z with (Z.of_nat n) by lia.
    apply hp_is_heap in Hh. rewrite Hlen in Hh.
    destruct (Z.eqb_spec (Z.of_nat n) (Z.of_nat i)) as [Heq|Hne]; cbn [negb].
    - assert (i = n) as -> by lia. exists (take n l). rewrite (h_pop_ok l x n Hlen Hx). split_and!; [done|by apply take_perm|].
      apply hp_take. eapply hp_mono; [done|lia].
    - rewrite h_swap_ok by lia. set (l1 := swapl l i n).
      assert (∀ k, l1 !! k = if decide (k = n) then l !! i else if decide (k = i) then l !! n else l !! k) as Hl1.
      { intros k. apply swapl_lookup; lia. }
      assert (length l1 = S n) as Hlen1 by (unfold l1; by rewrite swapl_length).
      assert (∀ k, k ≠ i → k < n → l1 !! k = l !! k) as L1o by (intros k ? ?; rewrite Hl1; by rewrite !decide_False by lia).
      assert (D 0 n i l1) as HD.
      { split.
        - intros k Hk _ H1 H2. eapply le_at_ext; [apply L1o; lia|apply L1o; lia|]. apply Hh; lia.
        - intros k Hk H1 H2 _. eapply le_at_ext; [apply L1o; lia|apply L1o; lia|].
          apply (le_at_trans l (par i) i k); [lia|apply Hh; lia|]. rewrite <-H1. apply Hh; lia. }
      destruct (down_ok (Z.to_nat (Z.of_nat (S n))) 0 n i l1) as (b & l2 & E2 & Hp2 & Hl2 & Ho2 & Hf & Ht); [lia..|done|].
      rewrite E2. assert (∃ l3, (if b then mret_ tt else up cmp (Z.to_nat (Z.of_nat (S n))) (Z.of_nat i)) l2 = Ok (tt, l3) ∧
        l3 ≡ₚ l2 ∧ length l3 = length l2 ∧ (∀ k, n <= k → l3 !! k = l2 !! k) ∧ hp 0 n l3) as (l3 & E3 & Hp3 & Hl3 & Ho3 & Hh3).
      { destruct b; [exists l2; split_and!; auto|]. destruct (Hf eq_refl) as [-> HC].
        apply up_ok; [lia|lia|lia|]. destruct HD as [HDa HDb]. split.
        - intros k Hk Hk'. destruct (decide (par k = i)) as [<-|]; [by apply HC|]. apply HDa; lia.
        - intros k Hk H1 H2. apply HDb; lia. }
      rewrite E3. assert (l3 !! n = Some x) as Hx3.
      { rewrite Ho3, Ho2, Hl1 by lia. by rewrite decide_True. }
      rewrite (h_pop_ok l3 x n) by (done || lia). exists (take n l3). split_and!; [done| |by apply hp_take].
      apply take_perm; [lia|done|]. rewrite Hp3, Hp2. apply swapl_perm.
  Qed.

  Lemma heap_pop_remove l : 0 < length l → heap_pop cmp l = heap_remove cmp 0 l.
  Proof.
    intros Hl. unfold heap_pop, heap_remove, h_len, mbind_.
    destruct (Z.eqb_spec (Z.of_nat (length l) - 1) 0) as [Heq|]; cbn [negb].
    - rewrite Heq. change 0%Z with (Z.of_nat 0). rewrite h_swap_ok by lia.
      destruct l as [|x [|y l]]; cbn in *; try lia. done.
    - destruct (h_swap 0 (Z.of_nat (length l) - 1) l) as [[u l1]| |]; try done.
      destruct (down cmp (Z.to_nat (Z.of_nat (length l))) 0 (Z.of_nat (length l) - 1) l1) as [[b l2]| |] eqn:Ed; try done.
      destruct b; [done|]. destruct (Z.to_nat (Z.of_nat (length l))); [|]; cbn [up]; change (Z.quot (0 - 1) 2) with 0%Z; done.
  Qed.
  Lemma heap_top_least l x : is_heap cmp l → l !! 0 = Some x → ∀ y, y ∈ l → (cmp x y <= 0)%Z.
  Proof.
    intros Hh Hx y Hy. apply elem_of_list_lookup in Hy as [k Hk]. revert y Hk.
    induction k as [k IH] using lt_wf_ind. intros y Hk. destruct (decide (k = 0)) as [->|Hk0].
    - simplify_eq. rewrite (cmp_refl _ OK). lia.
    - pose proof (lookup_lt_Some _ _ _ Hk). destruct (lookup_lt_is_Some_2 l (par k) ltac:(lia)) as [z Hz].
      eapply (cmp_le_trans _ OK _ z); [eapply (IH (par k)); [lia|done]|]. eapply Hh; [|done|done]. lia.
  Qed.
  Lemma heap_pop_ok l : is_heap cmp l → l ≠ [] →
    ∃ x l', heap_pop cmp l = Ok (x, l') ∧ l ≡ₚ x :: l' ∧ is_heap cmp l' ∧ least cmp x l.
  Proof.
    intros Hh Hne. destruct l as [|x l0] eqn:El; [done|]. rewrite <-El in *.
    assert (l !! 0 = Some x) as Hx by (by rewrite El).
    rewrite heap_pop_remove by (rewrite El; cbn; lia).
    destruct (heap_remove_ok l 0 x Hh Hx) as (l' & E' & ? & ?). exists x, l'. split_and!; [done|done|done|].
    split; [by eapply elem_of_list_lookup_2|by eapply heap_top_least].
  Qed.
  Lemma heap_pop_nil : heap_pop cmp [] = Panic.
  Proof. done. Qed.

  Lemma heap_fix_ok l0 i x : is_heap cmp l0 → i < length l0 →
    ∃ l', heap_fix cmp (Z.of_nat i) (<[i := x]> l0) = Ok (tt, l') ∧ l' ≡ₚ <[i := x]> l0 ∧ is_heap cmp l'.
  Proof.
    intros Hh Hi. set (l := <[i := x]> l0). assert (length l = length l0) as Hlen by apply insert_length.
    assert (∀ k, k ≠ i → l !! k = l0 !! k) as Lo by (intros; by apply list_lookup_insert_ne).
    apply hp_is_heap in Hh. unfold heap_fix, h_len, mbind_.
    assert (D 0 (length l) i l) as HD.
    { split.
      - intros k Hk _ H1 H2. eapply le_at_ext; [apply Lo; lia|apply Lo; lia|]. apply Hh; lia.
      - intros k Hk H1 H2 _. eapply le_at_ext; [apply Lo; lia|apply Lo; lia|].
        apply (le_at_trans l0 (par i) i k); [lia|apply Hh; lia|]. rewrite <-H1. apply Hh; lia. }
    destruct (down_ok (Z.to_nat (Z.of_nat (length l))) 0 (length l) i l) as (b & l2 & E2 & Hp2 & Hl2 & Ho2 & Hf & Ht); [lia..|done|].
    rewrite E2. destruct b.
    - exists l2. split_and!; [done|done|]. apply hp_is_heap. rewrite Hl2. auto.
    - destruct (Hf eq_refl) as [-> HC].
      destruct (up_ok (Z.to_nat (Z.of_nat (length l))) (length l) i l) as (l' & E' & Hp' & Hl' & _ & Hh'); [lia|lia|lia| |].
      + destruct HD as [HDa HDb]. split.
        * intros k Hk Hk'. destruct (decide (par k = i)) as [<-|]; [by apply HC|]. apply HDa; lia.
        * intros k Hk H1 H2. apply HDb; lia.
      + exists l'. split_and!; [done|done|]. apply hp_is_heap. by rewrite Hl'.
  Qed.

  (** priority queue *)
  Definition pq_rel l (s : list T) : Prop := is_heap cmp l ∧ l ≡ₚ s.
  Lemma pq_step_ok o l s : pq_rel l s →
    (pq_panics o s ∧ pq_step cmp o l = Panic) ∨
    ∃ r l' s', pq_step cmp o l = Ok (r, l') ∧ pq_allows cmp o s r s' ∧ pq_rel l' s'.
  Proof.
    intros [Hh Hp]. assert (length l = length s) as Hlen by (by apply Permutation_length).
    destruct o as [x| | | | |]; cbn [pq_step]; unfold mbind_, mret_.
    - right. destruct (heap_push_ok l x Hh) as (l' & -> & Hp' & Hh'). do 3 eexists. split_and!; [done|constructor|].
      split; [done|]. by rewrite Hp', Hp.
    - destruct (decide (s = [])) as [->|Hne].
      + left. apply Permutation_nil_r in Hp as ->. split; [|done]. split; auto.
      + right. destruct (heap_pop_ok l Hh) as (x & l' & -> & Hp' & Hh' & Hx & Hle).
        { intros ->. by apply Permutation_nil_l in Hp. }
        do 3 eexists. split_and!; [done| |split; [exact Hh'|reflexivity]].
        constructor; [|by rewrite <-Hp]. split; [by rewrite <-Hp|]. intros y Hy. apply Hle. by rewrite Hp.
    - unfold h_top. destruct (Nat.eqb_spec (length l) 0) as [H0|H0].
      + left. split; [|done]. split; [|auto]. destruct s; [done|]. cbn in Hlen. lia.
      + right. destruct (lookup_lt_is_Some_2 l 0 ltac:(lia)) as [x Hx].
        rewrite (idx_nat _ _ _ Hx : idx l 0 = _). do 3 eexists. split_and!; [done| |by split].
        constructor. split; [rewrite <-Hp; by eapply elem_of_list_lookup_2|]. intros y Hy. rewrite <-Hp in Hy. by eapply heap_top_least.
    - right. unfold h_len. do 3 eexists. split_and!; [done| |by split].
      replace (Z.of_nat (length l) =? 0)%Z with (bool_decide (s = [])); [constructor|].
      rewrite Hlen. destruct s; done.
    - right. do 3 eexists. split_and!; [done|constructor|]. split; [|done]. intros k x y _ Hx. by rewrite take_0, lookup_nil in Hx.
    - right. unfold h_len. do 3 eexists. split_and!; [done| |by split]. rewrite Hlen. constructor.
  Qed.
End heap.
