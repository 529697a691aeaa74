From Verif Require Import Base Wp ListLib IterModel IterSpec SortModel SortSpec SortProofs.
From Coq Require Import Sorted.
Open Scope nat_scope.
Ltac Zify.zify_post_hook ::= Z.div_mod_to_equations.

Section segs.
  Context {T : Type}.
  Implicit Types l : list T.
  Lemma seg_cons p m l x : p < m → l !! p = Some x → seg p m l = x :: seg (S p) m l.
  Proof.
    intros Hp Hx. unfold seg. replace (m - p) with (S (m - S p)) by lia. by rewrite (drop_S l x p Hx).
  Qed.
  Lemma seg_nil p m l : m <= p → seg p m l = [].
  Proof. intros. unfold seg. replace (m - p) with 0 by lia. done. Qed.
  Lemma seg_app a m b l : a <= m <= b → seg a b l = seg a m l ++ seg m b l.
  Proof.
    intros. unfold seg. rewrite <-(take_drop (m - a) (take (b - a) (drop a l))). f_equal.
    - rewrite take_take. f_equal. lia.
    - rewrite skipn_firstn_comm, drop_drop. f_equal; [lia|]. f_equal. lia.
  Qed.
  Lemma seg_mid a b l s : a + length s = b → a <= length l → seg a b (take a l ++ s ++ drop b l) = s.
  Proof.
    intros H Ha. unfold seg. rewrite drop_app_alt by (rewrite take_length; lia). rewrite take_app_alt by lia. done.
  Qed.
End segs.

Section mergel.
  Context {T : Type} (cmp : T → T → Z) (OK : CmpOK cmp).
  Set Default Proof Using "Type*".
  Fixpoint mergel (xs : list T) : list T → list T :=
    fix go ys := match xs, ys with
    | [], _ => ys
    | _, [] => xs
    | x :: xs', y :: ys' => if (cmp x y <=? 0)%Z then x :: mergel xs' ys else y :: go ys'
    end.
  Lemma mergel_nil_r xs : mergel xs [] = xs.
  Proof using. clear. by destruct xs. Qed.
  Lemma mergel_nil_l ys : mergel [] ys = ys.
  Proof using. clear. by destruct ys. Qed.
  Lemma mergel_cons x xs y ys : mergel (x :: xs) (y :: ys) =
    if (cmp x y <=? 0)%Z then x :: mergel xs (y :: ys) else y :: mergel (x :: xs) ys.
  Proof using. clear. done. Qed.
  Lemma mergel_ind (P : list T → list T → Prop) :
    (∀ ys, P [] ys) → (∀ xs, P xs []) →
    (∀ x xs y ys, (cmp x y <= 0)%Z → P xs (y :: ys) → P (x :: xs) (y :: ys)) →
    (∀ x xs y ys, (0 < cmp x y)%Z → P (x :: xs) ys → P (x :: xs) (y :: ys)) →
    ∀ xs ys, P xs ys.
  Proof using.
    clear. intros H1 H2 H3 H4 xs. induction xs as [|x xs IH]; [done|]. intros ys. induction ys as [|y ys IH2]; [done|].
    destruct (Z.le_gt_cases (cmp x y) 0); [by apply H3|apply H4; [lia|done]].
  Qed.
  Lemma mergel_perm xs ys : mergel xs ys ≡ₚ xs ++ ys.
  Proof using.
    clear. apply (mergel_ind (λ xs ys, mergel xs ys ≡ₚ xs ++ ys)); clear.
    - intros. by rewrite mergel_nil_l.
    - intros. by rewrite mergel_nil_r, app_nil_r.
    - intros x xs y ys H IH. rewrite mergel_cons. destruct (Z.leb_spec (cmp x y) 0); [|lia]. by rewrite IH.
    - intros x xs y ys H IH. rewrite mergel_cons. destruct (Z.leb_spec (cmp x y) 0); [lia|]. rewrite IH.
      by rewrite (Permutation_middle (x :: xs) ys y).
  Qed.
  Lemma mergel_length xs ys : length (mergel xs ys) = length xs + length ys.
  Proof using. clear. rewrite mergel_perm. apply app_length. Qed.
  Lemma mergel_sorted xs ys : ascending cmp xs → ascending cmp ys → ascending cmp (mergel xs ys).
  Proof.
    apply (mergel_ind (λ xs ys, ascending cmp xs → ascending cmp ys → ascending cmp (mergel xs ys))); clear xs ys.
    - intros. by rewrite mergel_nil_l.
    - intros. by rewrite mergel_nil_r.
    - intros x xs y ys H IH Hx Hy. rewrite mergel_cons. destruct (Z.leb_spec (cmp x y) 0); [|lia].
      apply StronglySorted_inv in Hx as [Hx1 Hx2]. pose proof Hy as Hy'. apply StronglySorted_inv in Hy' as [Hy1 Hy2].
      constructor; [by apply IH|]. rewrite mergel_perm. apply Forall_app. split; [done|]. constructor; [done|].
      eapply Forall_impl; [exact Hy2|]. intros z Hz. by eapply (cmp_le_trans _ OK _ y).
    - intros x xs y ys H IH Hx Hy. rewrite mergel_cons. destruct (Z.leb_spec (cmp x y) 0); [lia|].
      pose proof Hx as Hx'. apply StronglySorted_inv in Hx' as [Hx1 Hx2]. apply StronglySorted_inv in Hy as [Hy1 Hy2].
      constructor; [by apply IH|]. rewrite mergel_perm. pose proof (cmp_flip_gt _ OK x y).
      apply Forall_app. split; [|done]. constructor; [lia|].
      eapply Forall_impl; [exact Hx2|]. intros z Hz. eapply (cmp_le_trans _ OK _ x); [lia|done].
  Qed.
  Lemma mergel_stable xs ys : ascending cmp xs → same_order_of_equals cmp (xs ++ ys) (mergel xs ys).
  Proof.
    intros Hs z. revert Hs.
    apply (mergel_ind (λ xs ys, ascending cmp xs → filter (λ y, cmp z y = 0%Z) (mergel xs ys) = filter (λ y, cmp z y = 0%Z) (xs ++ ys))); clear xs ys.
    - intros. by rewrite mergel_nil_l.
    - intros. by rewrite mergel_nil_r, app_nil_r.
    - intros x xs y ys H IH Hx. rewrite mergel_cons. destruct (Z.leb_spec (cmp x y) 0); [|lia].
      apply StronglySorted_inv in Hx as [Hx1 Hx2]. cbn [app]. rewrite !filter_cons. by rewrite (IH Hx1).
    - intros x xs y ys H IH Hx. rewrite mergel_cons. destruct (Z.leb_spec (cmp x y) 0); [lia|].
      rewrite (filter_cons _ y). rewrite (IH Hx). rewrite !filter_app. rewrite (filter_cons _ y ys).
      destruct (decide (cmp z y = 0%Z)) as [Hzy|]; [|done].
      assert (filter (λ y, cmp z y = 0%Z) (x :: xs) = []) as ->; [|done].
      apply StronglySorted_inv in Hx as [Hx1 Hx2].
      assert (∀ u, (cmp x u <= 0)%Z → cmp z u ≠ 0%Z) as Hu.
      { intros u Hxu Hzu. assert (cmp u y = 0%Z) by (apply (cmp_eq_trans _ OK _ z); [by apply (cmp_flip_eq _ OK)|done]).
        pose proof (cmp_le_trans _ OK x u y Hxu ltac:(lia)). lia. }
      rewrite filter_cons, decide_False by (apply Hu; rewrite (cmp_refl _ OK); lia).
      clear IH. induction Hx2 as [|u xs Hxu Hx2 IH]; [done|]. rewrite filter_cons, decide_False by (by apply Hu).
      apply IH. by apply StronglySorted_inv in Hx1 as [? _].
  Qed.
End mergel.

Section stable.
  Context {W T : Type} (csize : nat → M W Z) (cat : nat → Z → M W T) (cset : nat → Z → T → M W unit).
  Context (o : nat) (R : W → list T → Prop) (L : ra_law csize cat cset o R).
  Context (cmp : T → T → Z) (OK : CmpOK cmp).
  Set Default Proof Using "Type*".
  Implicit Types l : list T.
  Notation it p := (MkIter o p).
  Notation at_ p := (MkIter o (Z.of_nat p)).

  Lemma take_S_upd (tmp : list T) pos v : pos < length tmp → take (S pos) (<[pos := v]> tmp) = take pos tmp ++ [v].
  Proof using.
    clear. intros H. rewrite (take_S_r _ pos v) by (by apply list_lookup_insert). by rewrite take_insert by lia.
  Qed.

  Lemma merge_loop_ok fuel w l p m q e pos tmp : R w l → p <= m → m <= q → q <= e → e <= length l →
    (m - p) + (e - q) <= fuel → pos + (m - p) + (e - q) <= length tmp →
    wp (merge_loop csize cat cmp fuel (at_ p) (at_ q) (at_ m) (at_ e) (Z.of_nat pos) tmp)
       (λ r w', w' = w ∧ ∃ p' q' pos' tmp' c, r = (at_ p', at_ q', Z.of_nat pos', tmp') ∧
          p <= p' <= m ∧ q <= q' <= e ∧ (p' = m ∨ q' = e) ∧ length tmp' = length tmp ∧
          pos' + (m - p') + (e - q') <= length tmp ∧
          take pos' tmp' = take pos tmp ++ c ∧
          mergel cmp (seg p m l) (seg q e l) = c ++ seg p' m l ++ seg q' e l) w.
  Proof using L.
    intros HR. revert p q pos tmp. induction fuel as [|f IH]; intros p q pos tmp Hpm Hmq Hqe He Hf Ht; cbn [merge_loop];
      unfold it_position; cbn [it_pos].
    { destruct (Z.ltb_spec (Z.of_nat p) (Z.of_nat m)); [lia|]. cbn [andb]. apply wp_ret. split; [done|].
      exists p, q, pos, tmp, []. split_and!; try done; try lia. { by rewrite app_nil_r. }
      rewrite (seg_nil p m) by lia. by rewrite mergel_nil_l. }
    destruct (Z.ltb_spec (Z.of_nat p) (Z.of_nat m)); [|cbn [andb]].
    2:{ apply wp_ret. split; [done|]. exists p, q, pos, tmp, []. split_and!; try done; try lia. { by rewrite app_nil_r. }
      rewrite (seg_nil p m) by lia. by rewrite mergel_nil_l. }
    destruct (Z.ltb_spec (Z.of_nat q) (Z.of_nat e)); cbn [andb].
    2:{ apply wp_ret. split; [done|]. exists p, q, pos, tmp, []. split_and!; try done; try lia. { by rewrite app_nil_r. }
      rewrite (seg_nil q e) by lia. by rewrite mergel_nil_r, app_nil_r. }
    destruct (value_get _ _ _ o R L w l p HR ltac:(lia)) as (x & Hx & Ex).
    destruct (value_get _ _ _ o R L w l q HR ltac:(lia)) as (y & Hy & Ey).
    wp_step Ex. wp_step Ey. rewrite (seg_cons p m l x), (seg_cons q e l y) by (done || lia). rewrite mergel_cons.
    destruct (Z.leb_spec (cmp x y) 0).
    - wp_step Ex. rewrite upd_nat by lia. wp_step (next_ok _ _ _ o R L w l p HR ltac:(lia)).
      replace (Z.of_nat pos + 1)%Z with (Z.of_nat (S pos)) by lia.
      eapply wp_mono; [apply IH; rewrite ?insert_length; lia|].
      intros r w' (-> & p' & q' & pos' & tmp' & c & -> & ? & ? & ? & Hlen & Hroom & Htk & Hm). split; [done|]. rewrite insert_length in *.
      exists p', q', pos', tmp', (x :: c). split_and!; try done; try lia.
      + rewrite Htk, take_S_upd by lia. by rewrite <-app_assoc.
      + rewrite <-(seg_cons q e l y) by (done || lia). by rewrite Hm.
    - wp_step Ey. rewrite upd_nat by lia. wp_step (next_ok _ _ _ o R L w l q HR ltac:(lia)).
      replace (Z.of_nat pos + 1)%Z with (Z.of_nat (S pos)) by lia.
      eapply wp_mono; [apply IH; rewrite ?insert_length; lia|].
      intros r w' (-> & p' & q' & pos' & tmp' & c & -> & ? & ? & ? & Hlen & Hroom & Htk & Hm). split; [done|]. rewrite insert_length in *.
      exists p', q', pos', tmp', (y :: c). split_and!; try done; try lia.
      + rewrite Htk, take_S_upd by lia. by rewrite <-app_assoc.
      + rewrite <-(seg_cons p m l x) by (done || lia). by rewrite Hm.
  Qed.

  Lemma copy_loop_ok fuel w l p m pos tmp : R w l → p <= m <= length l → m - p <= fuel → pos + (m - p) <= length tmp →
    wp (copy_loop csize cat fuel (at_ p) (at_ m) (Z.of_nat pos) tmp)
       (λ r w', w' = w ∧ ∃ tmp', r = (Z.of_nat (pos + (m - p)), tmp') ∧ length tmp' = length tmp ∧
          take (pos + (m - p)) tmp' = take pos tmp ++ seg p m l) w.
  Proof using L.
    intros HR. revert p pos tmp. induction fuel as [|f IH]; intros p pos tmp Hpm Hf Ht; cbn [copy_loop]; unfold it_position; cbn [it_pos].
    { destruct (Z.ltb_spec (Z.of_nat p) (Z.of_nat m)); [lia|]. apply wp_ret. split; [done|]. exists tmp.
      replace (m - p) with 0 by lia. rewrite Nat.add_0_r, seg_nil, app_nil_r by lia. done. }
    destruct (Z.ltb_spec (Z.of_nat p) (Z.of_nat m)).
    2:{ apply wp_ret. split; [done|]. exists tmp.
      replace (m - p) with 0 by lia. rewrite Nat.add_0_r, seg_nil, app_nil_r by lia. done. }
    destruct (value_get _ _ _ o R L w l p HR ltac:(lia)) as (x & Hx & Ex). wp_step Ex. rewrite upd_nat by lia.
    wp_step (next_ok _ _ _ o R L w l p HR ltac:(lia)). replace (Z.of_nat pos + 1)%Z with (Z.of_nat (S pos)) by lia.
    eapply wp_mono; [apply IH; rewrite ?insert_length; lia|]. intros r w' (-> & tmp' & -> & Hlen & Htk). split; [done|].
    rewrite insert_length in Hlen. exists tmp'. replace (pos + (m - p)) with (S pos + (m - S p)) by lia. split_and!; [done|done|].
    rewrite Htk, take_S_upd by lia. rewrite <-app_assoc. by rewrite (seg_cons p m l x) by (done || lia).
  Qed.

  Lemma write_back_ok c w l i p tmp : R w l → p + c <= length l → i + c <= length tmp →
    wp (write_back csize cset c (Z.of_nat i) (at_ p) tmp)
       (λ _ w', R w' (take p l ++ take c (drop i tmp) ++ drop (p + c) l)) w.
  Proof using L.
    revert w l i p. induction c as [|c IH]; intros w l i p HR Hp Hi; cbn [write_back].
    { apply wp_ret. rewrite take_0. rewrite Nat.add_0_r. cbn [app]. by rewrite take_drop. }
    destruct (lookup_lt_is_Some_2 tmp i ltac:(lia)) as [v Hv]. rewrite (idx_nat _ _ _ Hv).
    destruct (set_ok _ _ _ o R L w l p v HR) as (w1 & E1 & HR1). wp_step E1.
    wp_step (next_ok _ _ _ o R L w1 _ p HR1 ltac:(rewrite insert_length; lia)).
    replace (Z.of_nat i + 1)%Z with (Z.of_nat (S i)) by lia.
    eapply wp_mono; [apply IH; [done|rewrite insert_length; lia|lia]|]. intros ? w'. cbv beta.
    rewrite (drop_S tmp v i Hv). cbn [take]. rewrite take_S_upd by lia. rewrite drop_insert_gt by lia.
    replace (S p + c) with (p + S c) by lia. by rewrite <-app_assoc.
  Qed.

  Lemma merge_ok w l a m e tmp : R w l → a <= m <= e → e <= length l → e - a <= length tmp →
    wp (merge csize cat cset cmp (at_ a) (at_ m) (at_ e) tmp)
       (λ tmp' w', length tmp' = length tmp ∧
          R w' (take a l ++ mergel cmp (seg a m l) (seg m e l) ++ drop e l)) w.
  Proof using L.
    intros HR Hm He Ht. unfold merge, it_position, it_clone. cbn [it_pos it_obj]. apply wp_bind.
    eapply wp_mono; [apply (merge_loop_ok _ w l a m m e 0 tmp); try done; lia|].
    intros r w' (-> & p' & q' & pos & tmp1 & c & -> & ? & ? & Hend & Hlen1 & Hroom & Htk & Hmg).
    apply wp_bind. eapply wp_mono; [apply (copy_loop_ok _ w l p' m pos tmp1); [done|lia|lia|lia]|].
    intros r w' (-> & tmp2 & -> & Hlen2 & Htk2).
    apply wp_bind. eapply wp_mono; [apply (copy_loop_ok _ w l q' e _ tmp2); [done|lia|lia|lia]|].
    intros r w' (-> & tmp3 & -> & Hlen3 & Htk3).
    rewrite Htk2, Htk, take_0 in Htk3. rewrite app_nil_l, <-app_assoc in Htk3. rewrite <-Hmg in Htk3.
    set (n := pos + (m - p') + (e - q')) in *.
    assert (n = e - a) as Hn.
    { assert (length (take n tmp3) = n) as G by (rewrite take_length; lia). rewrite Htk3, mergel_length, !seg_length in G; lia. }
    rewrite Nat2Z.id. apply wp_bind. change 0%Z with (Z.of_nat 0).
    eapply wp_mono; [apply (write_back_ok n w l 0 a tmp3); [done|lia|lia]|].
    intros ? w' HR'. cbv beta in HR'. apply wp_ret. split; [lia|]. rewrite drop_0, Htk3 in HR'. by replace (a + n) with e in HR' by lia.
  Qed.

  Lemma merge_sort_ok fuel w l a e tmp : R w l → a < e <= length l → e - a <= fuel → e - a <= length tmp →
    wp (merge_sort csize cat cset cmp fuel (at_ a) (at_ e) tmp)
       (λ tmp' w', length tmp' = length tmp ∧ ∃ s, R w' (take a l ++ s ++ drop e l) ∧ s ≡ₚ seg a e l ∧
          ascending cmp s ∧ same_order_of_equals cmp (seg a e l) s) w.
  Proof.
    revert w l a e tmp. induction fuel as [|f IH]; intros w l a e tmp HR Ha Hf Ht; [lia|]. cbn [merge_sort]. unfold it_position; cbn [it_pos].
    destruct (Z.eqb_spec (Z.of_nat a + 1) (Z.of_nat e)).
    { apply wp_ret. split; [done|]. exists (seg a e l). rewrite <-(split3 a e l) by lia. split_and!; [done|done| |done].
      destruct (lookup_lt_is_Some_2 l a ltac:(lia)) as [x Hx]. rewrite (seg_cons a e l x), seg_nil by (done || lia).
      repeat constructor. }
    set (m := (a + e) / 2). unfold it_at. cbn [it_obj].
    replace (Z.shiftr (Z.of_nat a + Z.of_nat e) 1) with (Z.of_nat m) by (rewrite Z.shiftr_div_pow2 by lia; change (2 ^ 1)%Z with 2%Z; lia).
    apply wp_bind. eapply wp_mono; [apply (IH w l a m tmp HR); lia|].
    intros tmp1 w1 (Hlen1 & s1 & HR1 & Hp1 & Ha1 & Hs1). set (l1 := take a l ++ s1 ++ drop m l) in *.
    assert (length s1 = m - a) as Ls1 by (rewrite Hp1; apply seg_length; lia).
    assert (length l1 = length l) as Ll1 by (unfold l1; rewrite !app_length, take_length, drop_length; lia).
    assert (seg a m l1 = s1) as Sg1 by (apply seg_mid; lia).
    assert (seg m e l1 = seg m e l) as Sg2.
    { unfold seg, l1. rewrite app_assoc. rewrite drop_app_alt by (rewrite app_length, take_length; lia). done. }
    apply wp_bind. eapply wp_mono; [apply (IH w1 l1 m e tmp1 HR1); lia|].
    intros tmp2 w2 (Hlen2 & s2 & HR2 & Hp2 & Ha2 & Hs2). set (l2 := take m l1 ++ s2 ++ drop e l1) in *.
    assert (length s2 = e - m) as Ls2 by (rewrite Hp2; apply seg_length; lia).
    assert (length l2 = length l) as Ll2 by (unfold l2; rewrite !app_length, take_length, drop_length; lia).
    assert (seg m e l2 = s2) as Sg3 by (apply seg_mid; lia).
    assert (take m l1 = take a l ++ s1) as Tm.
    { unfold l1. rewrite app_assoc. apply take_app_alt. rewrite app_length, take_length. lia. }
    assert (drop e l1 = drop e l) as De.
    { unfold l1. rewrite app_assoc. rewrite drop_app_ge by (rewrite app_length, take_length; lia). rewrite drop_drop. f_equal. rewrite app_length, take_length. lia. }
    assert (l2 = take a l ++ s1 ++ s2 ++ drop e l) as El2. { unfold l2. rewrite Tm, De. by rewrite <-app_assoc. }
    assert (seg a m l2 = s1) as Sg4.
    { rewrite El2. unfold seg. rewrite drop_app_alt by (rewrite take_length; lia). rewrite take_app_alt by lia. done. }
    assert (take a l2 = take a l) as Ta. { rewrite El2. apply take_app_alt. rewrite take_length. lia. }
    assert (drop e l2 = drop e l) as De2. { rewrite El2. rewrite !app_assoc. apply drop_app_alt. rewrite !app_length, take_length. lia. }
    eapply wp_mono; [apply (merge_ok w2 l2 a m e tmp2 HR2); lia|]. intros tmp3 w3 (Hlen3 & HR3). split; [lia|].
    rewrite Sg4, Sg3, Ta, De2 in HR3. exists (mergel cmp s1 s2). split_and!; [done| | |].
    - rewrite mergel_perm, Hp1, Hp2, Sg2. by rewrite <-seg_app by lia.
    - by apply mergel_sorted.
    - intros x. rewrite (mergel_stable cmp OK s1 s2 Ha1 x), filter_app, (Hs1 x), (Hs2 x), Sg2, <-filter_app. by rewrite <-seg_app by lia.
  Qed.

  (** on the empty range mergeSort calls itself with the same arguments *)
  Lemma merge_sort_empty fuel w a tmp : merge_sort csize cat cset cmp fuel (it a) (it a) tmp w = Fuel.
  Proof using.
    clear. induction fuel as [|f IH]; cbn [merge_sort]; unfold it_position, it_at; cbn [it_pos it_obj].
    { by destruct (Z.eqb_spec (a + 1) a); [lia|]. }
    destruct (Z.eqb_spec (a + 1) a); [lia|].
    replace (Z.shiftr (a + a) 1) with a by (rewrite Z.shiftr_div_pow2 by lia; change (2 ^ 1)%Z with 2%Z; lia).
    unfold mbind_. by rewrite IH.
  Qed.
End stable.
