From Verif Require Import Base Wp ListLib IterModel IterSpec SortModel SortSpec SortProofs.
From Verif Require IterProofs.
From Coq Require Import Sorted.
Open Scope nat_scope.
Ltac Zify.zify_post_hook ::= Z.div_mod_to_equations.

Lemma ascending_sorted_in {T} (cmp : T → T → Z) a e (l : list T) : a <= e <= length l →
  ascending cmp (seg a e l) → sorted_in cmp a e l.
Proof.
  intros He Hs i j Hi Hj x y Hx Hy.
  assert (∀ s, ascending cmp s → ∀ i j x y, i < j → s !! i = Some x → s !! j = Some y → (cmp x y <= 0)%Z) as G.
  { clear. intros s Hs. induction Hs as [|z s Hs IH Hz]; intros i j x y Hij Hx Hy; [by rewrite lookup_nil in Hx|].
    destruct j as [|j]; [lia|]. cbn in Hy. destruct i as [|i]; cbn in Hx.
    - simplify_eq. rewrite Forall_forall in Hz. apply Hz. by eapply elem_of_list_lookup_2.
    - eapply IH; [|done|done]. lia. }
  apply (G (seg a e l) Hs (i - a) (j - a)); [lia| |].
  - rewrite seg_lookup by lia. by replace (a + (i - a)) with i by lia.
  - rewrite seg_lookup by lia. by replace (a + (j - a)) with j by lia.
Qed.

Section search.
  Context {W T : Type} (csize : nat → M W Z) (cat : nat → Z → M W T) (cset : nat → Z → T → M W unit).
  Context (o : nat) (R : W → list T → Prop) (L : ra_law csize cat cset o R).
  Context (cmp : T → T → Z) (OK : CmpOK cmp).
  Set Default Proof Using "Type*".
  Implicit Types l : list T.
  Notation it p := (MkIter o p).
  Notation at_ p := (MkIter o (Z.of_nat p)).
  Definition holds_in (P : T → Prop) i j l : Prop := ∀ k y, i <= k < j → l !! k = Some y → P y.

  Lemma half (i r : nat) : i < r → Z.shiftr (Z.of_nat i + (Z.of_nat r - 1)) 1 = Z.of_nat ((i + r - 1) / 2).
  Proof using. clear. intros. rewrite Z.shiftr_div_pow2 by lia. change (2 ^ 1)%Z with 2%Z. lia. Qed.

  Lemma bsearch_ok fuel w l a b i r v : R w l → b <= length l → a <= i <= r → r <= b → r - i <= fuel →
    sorted_in cmp a b l →
    holds_in (λ y, (0 < cmp v y)%Z) a i l → holds_in (λ y, (cmp v y < 0)%Z) r b l →
    wp (bsearch_loop csize cat cmp fuel (at_ i) (it (Z.of_nat r - 1)) v)
       (λ res w', w' = w ∧ (res = true ↔ ∃ k y, a <= k < b ∧ l !! k = Some y ∧ cmp v y = 0%Z)) w.
  Proof.
    intros HR Hb. revert i r. induction fuel as [|f IH]; intros i r Hi Hr Hf Hs Hlo Hhi; cbn [bsearch_loop]; unfold it_position; cbn [it_pos].
    all: destruct (Z.leb_spec (Z.of_nat i) (Z.of_nat r - 1)); try lia.
    1,3: apply wp_ret; split; [done|]; split; [done|]; intros (k & y & Hk & Hy & Hc); destruct (decide (k < i));
       [pose proof (Hlo k y ltac:(lia) Hy); cbn in *; lia|pose proof (Hhi k y ltac:(lia) Hy); cbn in *; lia].
    unfold it_at. cbn [it_obj]. rewrite half by lia. set (m := (i + r - 1) / 2).
    destruct (value_get _ _ _ o R L w l m HR ltac:(lia)) as (y & Hy & Ey). wp_step Ey.
    destruct (Z.eqb_spec (cmp v y) 0).
    { apply wp_ret. split; [done|]. split; [|done]. intros _. exists m, y. split; [lia|done]. }
    destruct (Z.ltb_spec (cmp v y) 0).
    - wp_step (prev_ok (W:=W) o w m). apply IH; try done; try lia. intros k z Hk Hz. destruct (decide (k = m)) as [->|]; [by simplify_eq|].
      apply (cmp_lt_le_trans _ OK _ y); [done|]. eapply (Hs m k); [lia|lia|done|done].
    - wp_step (next_ok _ _ _ o R L w l m HR ltac:(lia)). apply IH; try done; try lia.
      intros k z Hk Hz. destruct (decide (k = m)) as [->|]; [simplify_eq; lia|].
      assert ((cmp z y <= 0)%Z) as G by (eapply (Hs k m); [lia|lia|done|done]).
      assert ((cmp y v < 0)%Z) by (apply (cmp_flip_gt _ OK); lia).
      apply (cmp_flip_lt _ OK). by apply (cmp_le_lt_trans _ OK _ y).
  Qed.
  Lemma binary_search_ok w l a b v : R w l → a <= b <= length l → sorted_in cmp a b l →
    wp (binary_search csize cat cmp (at_ a) (at_ b) v)
       (λ res w', w' = w ∧ (res = true ↔ ∃ k y, a <= k < b ∧ l !! k = Some y ∧ cmp v y = 0%Z)) w.
  Proof.
    intros HR Hab Hs. unfold binary_search. wp_step (IterProofs.valid_ok _ _ _ _ _ L w l (Z.of_nat a) HR).
    unfold it_position, it_clone. cbn [it_pos it_obj].
    destruct (Z.leb_spec (Z.of_nat b) (Z.of_nat a)).
    { rewrite orb_true_r. apply wp_ret. split; [done|]. split; [done|]. intros (k & y & Hk & _). lia. }
    rewrite bool_decide_eq_true_2 by lia. cbn [negb orb]. wp_step (prev_ok (W:=W) o w b).
    apply (bsearch_ok _ w l a b); try done; try lia; intros k y ?; lia.
  Qed.

  Lemma bound_ok keep fuel w l a b i r v pos : R w l → b <= length l → a <= i <= r → r <= b → r - i <= fuel →
    (∀ j k x y, a <= j <= k → k < b → l !! j = Some x → l !! k = Some y → keep (cmp v x) = true → keep (cmp v y) = true) →
    holds_in (λ y, keep (cmp v y) = false) a i l → holds_in (λ y, keep (cmp v y) = true) r b l →
    r = b ∨ pos = Z.of_nat r → (∀ y, l !! (b - 1) = Some y → keep (cmp v y) = true) → a < b →
    wp (bound_loop csize cat cmp keep fuel (at_ i) (it (Z.of_nat r - 1)) v pos)
       (λ res w', w' = w ∧ ∃ p, res = Z.of_nat p ∧ a <= p <= b ∧ holds_in (λ y, keep (cmp v y) = false) a p l ∧
          holds_in (λ y, keep (cmp v y) = true) p b l) w.
  Proof.
    intros HR Hb. revert i r pos. induction fuel as [|f IH]; intros i r pos Hi Hr Hf Hs Hlo Hhi Hpos Hlast Hab; cbn [bound_loop]; unfold it_position; cbn [it_pos].
    all: destruct (Z.leb_spec (Z.of_nat i) (Z.of_nat r - 1)); try lia.
    1,3: apply wp_ret; split; [done|]; exists r; assert (i = r) by lia; subst i; split_and!. all: try lia; try done.
    1,2: destruct Hpos as [Hrb|Hpr]; [|exact Hpr]; exfalso; destruct (lookup_lt_is_Some_2 l (b - 1)) as [y Hy]; [lia|];
      pose proof (Hlo (b - 1) y ltac:(lia) Hy) as G; cbv beta in G; by rewrite (Hlast y Hy) in G.
    unfold it_at. cbn [it_obj]. rewrite half by lia. set (m := (i + r - 1) / 2). cbn [it_pos].
    destruct (value_get _ _ _ o R L w l m HR ltac:(lia)) as (y & Hy & Ey). wp_step Ey.
    destruct (keep (cmp v y)) eqn:Ek.
    - wp_step (prev_ok (W:=W) o w m). apply IH; try done; try lia. intros k z Hk Hz.
      destruct (decide (k = m)) as [->|]; [by simplify_eq|]. by apply (Hs m k y z); [lia|lia|done|done|].
    - wp_step (next_ok _ _ _ o R L w l m HR ltac:(lia)). apply IH; try done; try lia.
      intros k z Hk Hz. destruct (keep (cmp v z)) eqn:Ez; [|done].
      rewrite (Hs k m z y) in Ek; [done|lia|lia|done|done|done].
  Qed.

  Lemma bound_wrap (keep : Z → bool) (F : iter → iter → T → M W iter) w l a b v :
    (F = lower_bound csize cat cmp ∧ keep = (λ c, (c <=? 0)%Z)) ∨ (F = upper_bound csize cat cmp ∧ keep = (λ c, (c <? 0)%Z)) →
    R w l → a <= b <= length l → sorted_in cmp a b l →
    wp (F (at_ a) (at_ b) v)
       (λ res w', w' = w ∧ ∃ p, res = at_ p ∧ a <= p <= b ∧ holds_in (λ y, keep (cmp v y) = false) a p l ∧
          holds_in (λ y, keep (cmp v y) = true) p b l) w.
  Proof.
    intros HF HR Hab Hs.
    assert (∀ j k x y, a <= j <= k → k < b → l !! j = Some x → l !! k = Some y → keep (cmp v x) = true → keep (cmp v y) = true) as Hm.
    { intros j k x y Hj Hk Hx Hy Hkx. destruct (decide (j = k)) as [->|]; [by simplify_eq|].
      assert ((cmp x y <= 0)%Z) as G by (eapply (Hs j k); [lia|lia|done|done]).
      destruct HF as [[_ ->]|[_ ->]]; cbv beta in *.
      - apply Z.leb_le in Hkx. apply Z.leb_le. by apply (cmp_le_trans _ OK _ x).
      - apply Z.ltb_lt in Hkx. apply Z.ltb_lt. by apply (cmp_lt_le_trans _ OK _ x). }
    assert (∀ y, l !! (b - 1) = Some y → keep (cmp v y) = false → holds_in (λ y, keep (cmp v y) = false) a b l) as Hall.
    { intros y Hy Hky k z Hk Hz. destruct (keep (cmp v z)) eqn:Ez; [|done]. rewrite (Hm k (b - 1) z y) in Hky; [done|lia|lia|done|done|done]. }
    destruct HF as [[-> Hkeep]|[-> Hkeep]].
    - unfold lower_bound. wp_step (IterProofs.valid_ok _ _ _ _ _ L w l (Z.of_nat a) HR).
      unfold it_position, it_clone. cbn [it_pos it_obj].
      destruct (Z.leb_spec (Z.of_nat b) (Z.of_nat a)).
      { rewrite orb_true_r. apply wp_ret. split; [done|]. exists b. split_and!; [done|lia|lia| |]; intros k y ?; lia. }
      rewrite bool_decide_eq_true_2 by lia. cbn [negb orb]. wp_step (prev_ok (W:=W) o w b).
      destruct (value_get _ _ _ o R L w l (b - 1) HR ltac:(lia)) as (y & Hy & Ey). replace (Z.of_nat (b - 1)) with (Z.of_nat b - 1)%Z in Ey by lia.
      wp_step Ey. destruct (Z.ltb_spec 0 (cmp v y)) as [Hlt|Hge].
      { apply wp_ret. split; [done|]. exists b. split_and!; [done|lia|lia| |intros k z ?; lia].
        apply (Hall y Hy). rewrite Hkeep. by apply Z.leb_gt. }
      apply wp_bind. eapply wp_mono.
      { apply (bound_ok _ _ w l a b a b v 0 HR); try done; try lia.
        - by rewrite Hkeep in Hm.
        - intros k z ?; lia.
        - intros k z ?; lia.
        - intros z Hz. simplify_eq. by apply Z.leb_le. }
      intros res w' (-> & p & -> & ? & ? & ?). apply wp_ret. split; [done|]. exists p. rewrite Hkeep. done.
    - unfold upper_bound. wp_step (IterProofs.valid_ok _ _ _ _ _ L w l (Z.of_nat a) HR).
      unfold it_position, it_clone. cbn [it_pos it_obj].
      destruct (Z.leb_spec (Z.of_nat b) (Z.of_nat a)).
      { rewrite orb_true_r. apply wp_ret. split; [done|]. exists b. split_and!; [done|lia|lia| |]; intros k y ?; lia. }
      rewrite bool_decide_eq_true_2 by lia. cbn [negb orb]. wp_step (prev_ok (W:=W) o w b).
      destruct (value_get _ _ _ o R L w l (b - 1) HR ltac:(lia)) as (y & Hy & Ey). replace (Z.of_nat (b - 1)) with (Z.of_nat b - 1)%Z in Ey by lia.
      wp_step Ey. destruct (Z.leb_spec 0 (cmp v y)) as [Hlt|Hge].
      { apply wp_ret. split; [done|]. exists b. split_and!; [done|lia|lia| |intros k z ?; lia].
        apply (Hall y Hy). rewrite Hkeep. by apply Z.ltb_ge. }
      apply wp_bind. eapply wp_mono.
      { apply (bound_ok _ _ w l a b a b v 0 HR); try done; try lia.
        - by rewrite Hkeep in Hm.
        - intros k z ?; lia.
        - intros k z ?; lia.
        - intros z Hz. simplify_eq. by apply Z.ltb_lt. }
      intros res w' (-> & p & -> & ? & ? & ?). apply wp_ret. split; [done|]. exists p. rewrite Hkeep. done.
  Qed.
End search.
