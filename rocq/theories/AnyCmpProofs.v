(** The sorting and searching algorithms with an arbitrary comparison function (no law assumed). *)
From Verif Require Import Base Wp ListLib IterModel IterSpec SortModel SortSpec SortProofs StableProofs SearchProofs.
From Verif Require IterProofs.
Open Scope nat_scope.
Ltac Zify.zify_post_hook ::= Z.div_mod_to_equations.

Section any.
  Context {W T : Type} (csize : nat → M W Z) (cat : nat → Z → M W T) (cset : nat → Z → T → M W unit).
  Context (o : nat) (R : W → list T → Prop) (L : ra_law csize cat cset o R).
  Context (cmp : T → T → Z).
  Set Default Proof Using "Type*".
  Implicit Types l : list T.
  Notation it p := (MkIter o p).
  Notation at_ p := (MkIter o (Z.of_nat p)).

  Lemma swap_if_any w l a e i j : R w l → a <= i < e → a <= j < e → e <= length l →
    wp (swap_if_gt cat cset cmp (at_ i) (at_ j)) (λ _ w', ∃ l', R w' l' ∧ perm_in a e l l') w.
  Proof.
    intros H Hi Hj He. destruct (value_get _ _ _ o R L w l i H ltac:(lia)) as (x & Hx & Ex). destruct (value_get _ _ _ o R L w l j H ltac:(lia)) as (y & Hy & Ey).
    unfold swap_if_gt. wp_step Ex. wp_step Ey. destruct (0 <? cmp x y)%Z; [|apply wp_ret; exists l; by split].
    destruct (swap_ok _ _ _ o R L w l i j H ltac:(lia) ltac:(lia)) as (w' & E & H'). eapply wp_eq; [exact E|]. exists (swapl l i j). split; [done|]. by apply perm_in_swap.
  Qed.
  Lemma pivot_any w l a e m : R w l → a <= m < e → e <= length l →
    wp (do_pivot cat cset cmp (at_ a) (at_ m) (at_ (e - 1))) (λ _ w', ∃ l', R w' l' ∧ perm_in a e l l') w.
  Proof.
    intros H Hm He. unfold do_pivot. apply wp_bind. eapply wp_mono; [apply (swap_if_any w l a e); [done|lia..]|]. intros _ w1 (l1 & H1 & P1). pose proof (perm_in_length _ _ _ _ P1) as L1.
    apply wp_bind. eapply wp_mono; [apply (swap_if_any w1 l1 a e); [done|lia..]|]. intros _ w2 (l2 & H2 & P2). pose proof (perm_in_length _ _ _ _ P2) as L2.
    eapply wp_mono; [apply (swap_if_any w2 l2 a e); [done|lia..]|]. intros _ w3 (l3 & H3 & P3). exists l3. split; [done|]. eapply perm_in_trans; [exact P1|]. by eapply perm_in_trans.
  Qed.
  Lemma part_any fuel w l a e i r b : R w l → e <= length l → a < i <= r → r < e → a <= b < e → r - i <= fuel →
    (∀ k, i <= k < r → k ≠ b) →
    wp (part_loop csize cat cset cmp fuel (at_ i) (it (Z.of_nat r - 1)) (at_ b))
       (λ ret w', ∃ l' m, ret = it (Z.of_nat m - 1) ∧ R w' l' ∧ a < m <= r ∧ perm_in a e l l') w.
  Proof.
    revert w l i r. induction fuel as [|f IH]; intros w l i r H He Hi Hr Hb Hf Hne; cbn [part_loop]; unfold it_position; cbn [it_pos].
    all: destruct (Z.leb_spec (Z.of_nat i) (Z.of_nat r - 1)); try lia.
    1,3: apply wp_ret; exists l, r; split_and!; (done || lia).
    destruct (value_get _ _ _ o R L w l i H ltac:(lia)) as (y & Hy & Ey). destruct (value_get _ _ _ o R L w l b H ltac:(lia)) as (x & Hx & Ex). wp_step Ey. wp_step Ex.
    destruct (Z.leb_spec (cmp y x) 0).
    - wp_step (next_ok _ _ _ o R L w l i H ltac:(lia)). apply IH; try done; try lia. intros k Hk. apply Hne. lia.
    - replace (Z.of_nat r - 1)%Z with (Z.of_nat (r - 1)) by lia. destruct (value_get _ _ _ o R L w l (r - 1) H ltac:(lia)) as (z & Hz & Ez). wp_step Ez. wp_step Ex.
      destruct (Z.ltb_spec 0 (cmp z x)).
      + wp_step (prev_ok (W:=W) o w (r - 1)). eapply wp_mono; [apply IH; try done; try lia; intros k Hk; apply Hne; lia|].
        intros ret w' (l' & m & -> & H' & Hm & Hp). exists l', m. split_and!; done || lia.
      + assert (i ≠ r - 1) by (intros ->; simplify_eq; lia).
        destruct (swap_ok _ _ _ o R L w l i (r - 1) H ltac:(lia) ltac:(lia)) as (w1 & E1 & HR1). wp_step E1.
        wp_step (next_ok _ _ _ o R L w1 _ i HR1 ltac:(rewrite swapl_length; lia)). wp_step (prev_ok (W:=W) o w1 (r - 1)).
        eapply wp_mono; [apply (IH w1 (swapl l i (r - 1))); rewrite ?swapl_length; try done; try lia; intros k Hk; apply Hne; lia|].
        intros ret w' (l' & m & -> & H' & Hm & Hp). exists l', m. split_and!; [done|done|lia|lia|].
        eapply perm_in_trans; [|exact Hp]. apply perm_in_swap; lia.
  Qed.
  Lemma partition_any w l a e : R w l → a + 3 < e → e <= length l →
    wp (partition csize cat cset cmp (at_ a) (at_ (e - 1))) (λ ret w', ∃ l' m, ret = Z.of_nat m ∧ R w' l' ∧ a < m < e - 1 ∧ perm_in a e l l') w.
  Proof.
    intros H Ha He. unfold partition, it_position, it_at. cbn [it_pos it_obj]. replace (Z.of_nat (e - 1) - 1)%Z with (Z.of_nat (e - 2)) by lia. replace (Z.of_nat a + 1)%Z with (Z.of_nat (S a)) by lia.
    replace (Z.of_nat (e - 1) - 2)%Z with (Z.of_nat (e - 2) - 1)%Z by lia. apply wp_bind.
    eapply wp_mono; [apply (part_any _ w l a e (S a) (e - 2) (e - 2)); try done; lia|]. intros r w1 (l1 & m & -> & HR1 & Hm & P1). pose proof (perm_in_length _ _ _ _ P1) as L1.
    assert (it_next csize (it (Z.of_nat m - 1)) w1 = Ok (at_ m, w1)) as En.
    { replace (Z.of_nat m - 1)%Z with (Z.of_nat (m - 1)) by lia. rewrite (next_ok _ _ _ o R L w1 l1) by (done || lia). do 3 f_equal. lia. }
    wp_step En. destruct (swap_ok _ _ _ o R L w1 l1 (e - 2) m HR1 ltac:(lia) ltac:(lia)) as (w2 & E2 & HR2). wp_step E2. apply wp_ret. exists (swapl l1 (e - 2) m), m. cbn [it_pos]. split_and!; [done|done|lia|lia|].
    eapply perm_in_trans; [exact P1|]. apply perm_in_swap; lia.
  Qed.
  Lemma quick_sort_any fuel w l a e : R w l → a <= e <= length l → e - a <= fuel →
    wp (quick_sort csize cat cset cmp fuel (at_ a) (it (Z.of_nat e - 1))) (λ _ w', ∃ l', R w' l' ∧ perm_in a e l l') w.
  Proof.
    revert w l a e. induction fuel as [|f IH]; intros w l a e H He Hf; cbn [quick_sort]; unfold it_position; cbn [it_pos].
    { destruct (Z.leb_spec (Z.of_nat e - 1) (Z.of_nat a)); [|lia]. apply wp_ret. by exists l. }
    destruct (Z.leb_spec (Z.of_nat e - 1) (Z.of_nat a)). { apply wp_ret. by exists l. }
    replace (Z.of_nat e - 1)%Z with (Z.of_nat (e - 1)) by lia. destruct (Z.ltb_spec (Z.of_nat (e - 1) - Z.of_nat a + 1) 3); [apply swap_if_any; done || lia|].
    unfold it_at. cbn [it_obj]. set (mid := a + (e - a) / 2). replace (Z.of_nat a + Z.quot (Z.of_nat (e - 1) - Z.of_nat a + 1) 2)%Z with (Z.of_nat mid) by (rewrite Z.quot_div_nonneg by lia; lia).
    replace (Z.of_nat (e - 1) - 1)%Z with (Z.of_nat (e - 2)) by lia. apply wp_bind. eapply wp_mono; [apply (pivot_any w l a e mid H); lia|]. intros _ w1 (l1 & HR1 & P1). pose proof (perm_in_length _ _ _ _ P1) as L1.
    destruct (swap_ok _ _ _ o R L w1 l1 mid (e - 2) HR1 ltac:(lia) ltac:(lia)) as (w2 & E2 & HR2). wp_step E2. assert (perm_in a e l (swapl l1 mid (e - 2))) as P2 by (eapply perm_in_trans; [exact P1|]; apply perm_in_swap; lia).
    destruct (Z.eqb_spec (Z.of_nat (e - 1) - Z.of_nat a + 1) 3). { apply wp_ret. by eexists. }
    apply wp_bind. eapply wp_mono; [apply (partition_any w2 _ a e HR2); rewrite ?swapl_length; lia|]. intros ret w3 (l3 & m & -> & HR3 & Hm & P3). pose proof (perm_in_trans _ _ _ _ _ P2 P3) as P4. pose proof (perm_in_length _ _ _ _ P4) as L4.
    apply wp_bind. eapply wp_mono; [apply (IH w3 l3 a m HR3); lia|]. intros _ w5 (l5 & HR5 & P5). pose proof (perm_in_length _ _ _ _ P5) as L5.
    wp_step (next_ok _ _ _ o R L w5 l5 m HR5 ltac:(lia)). replace (Z.of_nat (e - 1)) with (Z.of_nat e - 1)%Z by lia.
    eapply wp_mono; [apply (IH w5 l5 (S m) e HR5); lia|]. intros _ w6 (l6 & HR6 & P6). exists l6. split; [done|].
    eapply perm_in_trans; [exact P4|]. eapply perm_in_trans; [eapply perm_in_mono; [exact P5|lia|lia]|]. eapply perm_in_mono; [exact P6|lia|lia].
  Qed.
  Lemma nth_any fuel w l a e n : R w l → a <= e <= length l → e - a <= fuel →
    wp (nth_element_ csize cat cset cmp fuel (at_ a) (it (Z.of_nat e - 1)) n) (λ _ w', ∃ l', R w' l' ∧ perm_in a e l l') w.
  Proof.
    revert w l a e n. induction fuel as [|f IH]; intros w l a e n H He Hf; cbn [nth_element_]; unfold it_position; cbn [it_pos].
    { destruct (Z.leb_spec (Z.of_nat e - 1) (Z.of_nat a + 1)); [|lia]. apply wp_ret. by exists l. }
    destruct (Z.leb_spec (Z.of_nat e - 1) (Z.of_nat a + 1)). { apply wp_ret. by exists l. }
    replace (Z.of_nat e - 1)%Z with (Z.of_nat (e - 1)) by lia. destruct (Z.ltb_spec (Z.of_nat (e - 1) - Z.of_nat a + 1) 3); [lia|].
    unfold it_at. cbn [it_obj]. set (mid := a + (e - a) / 2). replace (Z.of_nat a + Z.quot (Z.of_nat (e - 1) - Z.of_nat a + 1) 2)%Z with (Z.of_nat mid) by (rewrite Z.quot_div_nonneg by lia; lia).
    replace (Z.of_nat (e - 1) - 1)%Z with (Z.of_nat (e - 2)) by lia. apply wp_bind. eapply wp_mono; [apply (pivot_any w l a e mid H); lia|]. intros _ w1 (l1 & HR1 & P1). pose proof (perm_in_length _ _ _ _ P1) as L1.
    destruct (swap_ok _ _ _ o R L w1 l1 mid (e - 2) HR1 ltac:(lia) ltac:(lia)) as (w2 & E2 & HR2). wp_step E2. assert (perm_in a e l (swapl l1 mid (e - 2))) as P2 by (eapply perm_in_trans; [exact P1|]; apply perm_in_swap; lia).
    destruct (Z.eqb_spec (Z.of_nat (e - 1) - Z.of_nat a + 1) 3). { apply wp_ret. by eexists. }
    apply wp_bind. eapply wp_mono; [apply (partition_any w2 _ a e HR2); rewrite ?swapl_length; lia|]. intros ret w3 (l3 & m & -> & HR3 & Hm & P3). pose proof (perm_in_trans _ _ _ _ _ P2 P3) as P4. pose proof (perm_in_length _ _ _ _ P4) as L4.
    destruct (_ <=? _)%Z.
    - replace (Z.of_nat m) with (Z.of_nat (S m) - 1)%Z at 1 by lia. eapply wp_mono; [apply (IH w3 l3 a (S m) n HR3); lia|]. intros _ w5 (l5 & HR5 & P5). exists l5. split; [done|].
      eapply perm_in_trans; [exact P4|]. eapply perm_in_mono; [exact P5|lia|lia].
    - wp_step (next_ok _ _ _ o R L w3 l3 m HR3 ltac:(lia)). replace (Z.of_nat (e - 1)) with (Z.of_nat e - 1)%Z by lia.
      eapply wp_mono; [apply (IH w3 l3 (S m) e _ HR3); lia|]. intros _ w6 (l6 & HR6 & P6). exists l6. split; [done|]. eapply perm_in_trans; [exact P4|]. eapply perm_in_mono; [exact P6|lia|lia].
  Qed.
  Lemma merge_sort_any fuel w l a e tmp : R w l → a < e <= length l → e - a <= fuel → e - a <= length tmp →
    wp (merge_sort csize cat cset cmp fuel (at_ a) (at_ e) tmp) (λ tmp' w', length tmp' = length tmp ∧ ∃ l', R w' l' ∧ perm_in a e l l') w.
  Proof.
    revert w l a e tmp. induction fuel as [|f IH]; intros w l a e tmp HR Ha Hf Ht; [lia|]. cbn [merge_sort]. unfold it_position; cbn [it_pos].
    destruct (Z.eqb_spec (Z.of_nat a + 1) (Z.of_nat e)). { apply wp_ret. split; [done|]. by exists l. }
    set (m := (a + e) / 2). unfold it_at. cbn [it_obj].
    replace (Z.shiftr (Z.of_nat a + Z.of_nat e) 1) with (Z.of_nat m) by (rewrite Z.shiftr_div_pow2 by lia; change (2 ^ 1)%Z with 2%Z; lia).
    apply wp_bind. eapply wp_mono; [apply (IH w l a m tmp HR); lia|]. intros tmp1 w1 (Hlen1 & l1 & HR1 & P1). pose proof (perm_in_length _ _ _ _ P1) as L1.
    apply wp_bind. eapply wp_mono; [apply (IH w1 l1 m e tmp1 HR1); lia|]. intros tmp2 w2 (Hlen2 & l2 & HR2 & P2). pose proof (perm_in_length _ _ _ _ P2) as L2.
    eapply wp_mono; [apply (merge_ok _ _ _ o R L cmp w2 l2 a m e tmp2 HR2); lia|]. intros tmp3 w3 (Hlen3 & HR3). split; [lia|]. eexists. split; [exact HR3|].
    eapply perm_in_trans; [eapply perm_in_mono; [exact P1|lia|lia]|]. eapply perm_in_trans; [eapply perm_in_mono; [exact P2|lia|lia]|].
    assert (length (mergel cmp (seg a m l2) (seg m e l2)) = e - a) as Lm by (rewrite mergel_length, !seg_length; lia). split.
    - rewrite mergel_perm, <-seg_app by lia. by rewrite <-split3 by lia.
    - intros k Hk. destruct (decide (k < a)).
      + rewrite lookup_app_l by (rewrite take_length; lia). by rewrite lookup_take by lia.
      + rewrite lookup_app_r by (rewrite take_length; lia). rewrite lookup_app_r by (rewrite take_length; lia). rewrite lookup_drop. rewrite take_length, Lm. f_equal. lia.
  Qed.
  Lemma bsearch_any fuel w l b i r v : R w l → b <= length l → i <= r → r <= b → r - i <= fuel →
    wp (bsearch_loop csize cat cmp fuel (at_ i) (it (Z.of_nat r - 1)) v)
       (λ res w', w' = w ∧ (res = true → ∃ k y, i <= k < r ∧ l !! k = Some y ∧ cmp v y = 0%Z)) w.
  Proof.
    intros HR Hb. revert i r. induction fuel as [|f IH]; intros i r Hi Hr Hf; cbn [bsearch_loop]; unfold it_position; cbn [it_pos].
    all: destruct (Z.leb_spec (Z.of_nat i) (Z.of_nat r - 1)); try lia.
    1,3: apply wp_ret; split; done.
    unfold it_at. cbn [it_obj]. rewrite half by lia. set (m := (i + r - 1) / 2).
    destruct (value_get _ _ _ o R L w l m HR ltac:(lia)) as (y & Hy & Ey). wp_step Ey.
    destruct (Z.eqb_spec (cmp v y) 0). { apply wp_ret. split; [done|]. intros _. exists m, y. split; [lia|done]. }
    destruct (Z.ltb_spec (cmp v y) 0).
    - wp_step (prev_ok (W:=W) o w m). eapply wp_mono; [apply IH; lia|]. intros res w' (-> & Hres). split; [done|]. intros Ht. destruct (Hres Ht) as (k & z & ? & ?). exists k, z. split; [lia|done].
    - wp_step (next_ok _ _ _ o R L w l m HR ltac:(lia)). eapply wp_mono; [apply IH; lia|]. intros res w' (-> & Hres). split; [done|]. intros Ht. destruct (Hres Ht) as (k & z & ? & ?). exists k, z. split; [lia|done].
  Qed.
  (** the boundary found by the bound loop: it is kept, and the one before (if in the range) is not *)
  Definition boundary (keep : Z → bool) a b v l p : Prop :=
    (∀ y, p < b → l !! p = Some y → keep (cmp v y) = true) ∧ (∀ y, a < p → l !! (p - 1) = Some y → keep (cmp v y) = false).
  Lemma bound_any keep fuel w l a b i r v pos : R w l → b <= length l → a <= i <= r → r <= b → r - i <= fuel → a < b →
    (∀ y, a < i → l !! (i - 1) = Some y → keep (cmp v y) = false) →
    (r = b ∨ pos = Z.of_nat r ∧ r < b ∧ ∀ y, l !! r = Some y → keep (cmp v y) = true) → (∀ y, l !! (b - 1) = Some y → keep (cmp v y) = true) →
    wp (bound_loop csize cat cmp keep fuel (at_ i) (it (Z.of_nat r - 1)) v pos) (λ res w', w' = w ∧ ∃ p, res = Z.of_nat p ∧ a <= p < b ∧ boundary keep a b v l p) w.
  Proof.
    intros HR Hb. revert i r pos. induction fuel as [|f IH]; intros i r pos Hi Hr Hf Hab Hlo Hhi Hlast; cbn [bound_loop]; unfold it_position; cbn [it_pos].
    all: destruct (Z.leb_spec (Z.of_nat i) (Z.of_nat r - 1)); try lia.
    1,3: apply wp_ret; split; [done|]; assert (i = r) by lia; subst i; destruct Hhi as [-> |(-> & Hrb & Hk)];
      [exfalso; destruct (lookup_lt_is_Some_2 l (b - 1)) as [y Hy]; [lia|]; pose proof (Hlo y ltac:(lia) Hy) as G; by rewrite (Hlast y Hy) in G|
       exists r; split_and!; [done|lia|lia|split; [intros y _; apply Hk|exact Hlo]]].
    unfold it_at. cbn [it_obj]. rewrite half by lia. set (m := (i + r - 1) / 2). cbn [it_pos].
    destruct (value_get _ _ _ o R L w l m HR ltac:(lia)) as (y & Hy & Ey). wp_step Ey. destruct (keep (cmp v y)) eqn:Ek.
    - wp_step (prev_ok (W:=W) o w m). apply IH; try done; try lia. right. split_and!; [done|lia|]. intros z Hz. by simplify_eq.
    - wp_step (next_ok _ _ _ o R L w l m HR ltac:(lia)). apply IH; try done; try lia. intros z _ Hz. replace (S m - 1) with m in Hz by lia. by simplify_eq.
  Qed.
  (** next_permutation.go *)
  Lemma np_scan_any fuel w l a b c : R w l → a <= c < b → b <= length l → c - a <= fuel →
    wp (np_scan cat cmp fuel (at_ a) (Z.of_nat c - 1) (Z.of_nat c))
       (λ r w', w' = w ∧ ∃ c', r = ((Z.of_nat c' - 1)%Z, Z.of_nat c') ∧ a <= c' < b ∧
          (c' = a ∨ ∃ x y, a < c' ∧ l !! (c' - 1) = Some x ∧ l !! c' = Some y ∧ (cmp x y < 0)%Z)) w.
  Proof.
    intros HR. revert c. induction fuel as [|f IH]; intros c Hc Hb Hf; cbn [np_scan]; unfold it_position; cbn [it_pos].
    { destruct (Z.ltb_spec (Z.of_nat a) (Z.of_nat c)); [lia|]. apply wp_ret. split; [done|]. exists c. split_and!; try done; try lia. }
    destruct (Z.ltb_spec (Z.of_nat a) (Z.of_nat c)).
    2:{ apply wp_ret. split; [done|]. exists c. split_and!; try done; try lia. }
    unfold it_at. cbn [it_obj]. replace (Z.of_nat c - 1)%Z with (Z.of_nat (c - 1)) by lia.
    destruct (value_get _ _ _ o R L w l (c - 1) HR ltac:(lia)) as (x & Hx & Ex).
    destruct (value_get _ _ _ o R L w l c HR ltac:(lia)) as (y & Hy & Ey). wp_step Ex. wp_step Ey. destruct (Z.leb_spec 0 (cmp x y)).
    - apply IH; lia.
    - apply wp_ret. split; [done|]. exists c. replace (Z.of_nat (c - 1)) with (Z.of_nat c - 1)%Z by lia. split_and!; [done|lia|lia|]. right. exists x, y. split_and!; done || lia.
  Qed.
  Lemma np_find_any fuel w l a b p k c x y : R w l → b <= length l → p < c <= k → k < b → k - c <= fuel →
    l !! p = Some x → l !! c = Some y → (0 < cmp y x)%Z →
    wp (np_find cat cmp fuel (at_ a) (Z.of_nat p) (Z.of_nat k)) (λ r w', w' = w ∧ ∃ k', r = Z.of_nat k' ∧ c <= k' < b) w.
  Proof.
    intros HR Hb. revert k. induction fuel as [|f IH]; intros k Hpc Hk Hf Hx Hy Hxy; cbn [np_find]; unfold it_at; cbn [it_obj].
    all: destruct (value_get _ _ _ o R L w l k HR ltac:(lia)) as (z & Hz & Ez); wp_step Ez; wp_step (value_ok _ _ _ o R L w l p x HR Hx).
    all: destruct (Z.leb_spec (cmp z x) 0).
    - assert (k = c) as -> by lia. simplify_eq. lia.
    - apply wp_ret. split; [done|]. exists k. split; [done|lia].
    - destruct (decide (k = c)) as [->|]; [simplify_eq; lia|]. replace (Z.of_nat k - 1)%Z with (Z.of_nat (k - 1)) by lia. apply IH; try done; lia.
    - apply wp_ret. split; [done|]. exists k. split; [done|lia].
  Qed.
  Lemma np_reverse_any fuel w l a b s e : R w l → a <= s → s <= e <= b → b <= length l → e - s <= fuel →
    wp (np_reverse csize cat cset fuel (at_ s) (it (Z.of_nat e - 1))) (λ _ w', ∃ l', R w' l' ∧ perm_in a b l l') w.
  Proof.
    revert w l s e. induction fuel as [|f IH]; intros w l s e HR Hs He Hb Hf; cbn [np_reverse]; unfold it_position; cbn [it_pos].
    { destruct (Z.ltb_spec (Z.of_nat s) (Z.of_nat e - 1)); [lia|]. apply wp_ret. by exists l. }
    destruct (Z.ltb_spec (Z.of_nat s) (Z.of_nat e - 1)). 2:{ apply wp_ret. by exists l. }
    replace (Z.of_nat e - 1)%Z with (Z.of_nat (e - 1)) by lia. destruct (swap_ok _ _ _ o R L w l s (e - 1) HR ltac:(lia) ltac:(lia)) as (w1 & E1 & HR1). wp_step E1.
    wp_step (next_ok _ _ _ o R L w1 _ s HR1 ltac:(rewrite swapl_length; lia)). wp_step (prev_ok (W:=W) o w1 (e - 1)).
    eapply wp_mono; [apply (IH w1 (swapl l s (e - 1))); rewrite ?swapl_length; done || lia|]. intros _ w2 (l2 & HR2 & P2). exists l2. split; [done|].
    eapply perm_in_trans; [|exact P2]. apply perm_in_swap; lia.
  Qed.
  Lemma next_permutation_any w l a b : (∀ x y, (cmp x y < 0)%Z → (0 < cmp y x)%Z) → R w l → a <= b <= length l →
    wp (next_permutation csize cat cset cmp (at_ a) (at_ b)) (λ r w', r = false ∧ w' = w ∨ r = true ∧ ∃ l', R w' l' ∧ perm_in a b l l') w.
  Proof.
    intros Hanti HR Hab. unfold next_permutation, it_position, it_at. cbn [it_pos it_obj].
    replace (Z.of_nat a + (Z.of_nat b - Z.of_nat a) - 1)%Z with (Z.of_nat b - 1)%Z by lia. replace (Z.to_nat (Z.of_nat b - Z.of_nat a)) with (b - a) by lia.
    destruct (decide (a = b)) as [->|Hne].
    { assert (np_scan cat cmp (b - b) (at_ b) (Z.of_nat b - 1 - 1) (Z.of_nat b - 1) w = Ok ((Z.of_nat b - 1 - 1, Z.of_nat b - 1)%Z, w)) as E.
      { rewrite Nat.sub_diag. cbn [np_scan]. unfold it_position; cbn [it_pos]. destruct (Z.ltb_spec (Z.of_nat b) (Z.of_nat b - 1)); [lia|done]. }
      wp_step E. cbv beta iota. destruct (Z.leb_spec (Z.of_nat b - 1) (Z.of_nat b)); [|lia]. apply wp_ret. by left. }
    replace (Z.of_nat b - 1)%Z with (Z.of_nat (b - 1)) by lia. apply wp_bind. eapply wp_mono; [apply (np_scan_any _ w l a b (b - 1)); done || lia|].
    intros r w' (-> & c & -> & Hc & Hcase). cbv beta iota. destruct Hcase as [-> |(x & y & Hac & Hx & Hy & Hxy)].
    { destruct (Z.leb_spec (Z.of_nat a) (Z.of_nat a)); [|lia]. apply wp_ret. by left. }
    destruct (Z.leb_spec (Z.of_nat c) (Z.of_nat a)); [lia|]. replace (Z.of_nat c - 1)%Z with (Z.of_nat (c - 1)) by lia. apply wp_bind.
    eapply wp_mono; [apply (np_find_any _ w l a b (c - 1) (b - 1) c x y); try done; try lia; by apply Hanti|]. intros r w' (-> & k & -> & Hk).
    destruct (swap_ok _ _ _ o R L w l k (c - 1) HR ltac:(lia) ltac:(lia)) as (w1 & E1 & HR1). wp_step E1. replace (Z.of_nat (c - 1) + 1)%Z with (Z.of_nat c) by lia. replace (Z.of_nat (b - 1)) with (Z.of_nat b - 1)%Z by lia.
    apply wp_bind. eapply wp_mono; [apply (np_reverse_any _ w1 (swapl l k (c - 1)) a b c b); rewrite ?swapl_length; done || lia|]. intros _ w2 (l2 & HR2 & P2). apply wp_ret. right. split; [done|]. exists l2. split; [done|].
    eapply perm_in_trans; [|exact P2]. apply perm_in_swap; lia.
  Qed.
End any.
