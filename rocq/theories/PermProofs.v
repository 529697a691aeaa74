From Verif Require Import Base Wp ListLib IterModel IterSpec SortModel SortSpec SortProofs StableProofs.
From Coq Require Import Sorted.
Open Scope nat_scope.
Ltac Zify.zify_post_hook ::= Z.div_mod_to_equations.

(** the pure part: the arrangement computed is the lexicographic successor *)
Section lex.
  Context {T : Type} (cmp : T → T → Z) (OK : CmpOK cmp).
  Set Default Proof Using "Type*".
  Definition cnt (x : T) (s : list T) : nat := length (filter (λ y, cmp x y = 0%Z) s).
  (** same multiset up to cmp-equality *)
  Definition ceq (s t : list T) : Prop := ∀ x, cnt x s = cnt x t.
  Lemma cnt_cons x y s : cnt x (y :: s) = (if decide (cmp x y = 0%Z) then 1 else 0) + cnt x s.
  Proof using. clear. unfold cnt. rewrite filter_cons. by destruct (decide (cmp x y = 0%Z)). Qed.
  Lemma perm_ceq s t : s ≡ₚ t → ceq s t.
  Proof using. clear. intros H x. unfold cnt. by rewrite H. Qed.
  Lemma ceq_tail x y s t : cmp x y = 0%Z → ceq (x :: s) (y :: t) → ceq s t.
  Proof.
    intros Hxy H z. specialize (H z). rewrite !cnt_cons in H. pose proof (cmp_eq_r _ OK x y z Hxy).
    destruct (decide (cmp z x = 0%Z)), (decide (cmp z y = 0%Z)); lia.
  Qed.
  Lemma ceq_in y s t : ceq s (y :: t) → ∃ x, x ∈ s ∧ cmp y x = 0%Z.
  Proof.
    intros H. specialize (H y). rewrite cnt_cons, decide_True in H by apply (cmp_refl _ OK). unfold cnt in H.
    destruct (filter (λ z, cmp y z = 0%Z) s) as [|x u] eqn:E; [cbn in H; lia|].
    assert (x ∈ filter (λ z, cmp y z = 0%Z) s) as Hx by (rewrite E; left). apply elem_of_list_filter in Hx as [? ?]. eauto.
  Qed.
  Lemma ceq_trans s t u : ceq s t → ceq t u → ceq s u.
  Proof using. clear. intros H1 H2 x. by rewrite H1. Qed.

  Definition descending (s : list T) : Prop := StronglySorted (λ x y, (cmp y x <= 0)%Z) s.

  Lemma ascending_min s t : ascending cmp s → length s = length t → ceq s t → lex_lt cmp s t ∨ lex_eq cmp s t.
  Proof.
    revert t. induction s as [|x s IH]; intros [|y t] Ha Hl Hc; try done; [right; constructor|].
    apply StronglySorted_inv in Ha as [Ha Hx]. cbn in Hl.
    destruct (ceq_in y (x :: s) t Hc) as (z & Hz & Hyz).
    assert ((cmp x z <= 0)%Z) as Hxz. { apply elem_of_cons in Hz as [->|Hz]; [rewrite (cmp_refl _ OK); lia|]. rewrite Forall_forall in Hx. by apply Hx. }
    assert ((cmp x y <= 0)%Z) as Hxy. { eapply (cmp_le_trans _ OK _ z); [done|]. apply (cmp_flip_eq _ OK) in Hyz. lia. }
    destruct (Z.eq_dec (cmp x y) 0) as [E|E].
    - destruct (IH t Ha) as [G|G]; [lia|by eapply ceq_tail|left; by apply lex_there|right; by constructor].
    - left. apply lex_here; [lia|lia].
  Qed.
  Lemma descending_max s t : descending s → ceq s t → lex_lt cmp s t → False.
  Proof.
    revert t. induction s as [|x s IH]; intros t Ha Hc Hl; inversion Hl; subst.
    - destruct (ceq_in y (x :: s) t0 Hc) as (z & Hz & Hyz). apply StronglySorted_inv in Ha as [Ha Hx].
      assert ((cmp z x <= 0)%Z) as Hxz. { apply elem_of_cons in Hz as [->|Hz]; [rewrite (cmp_refl _ OK); lia|]. rewrite Forall_forall in Hx. by apply Hx. }
      assert ((cmp y x <= 0)%Z) as Hyx by (eapply (cmp_le_trans _ OK _ z); [lia|done]).
      apply (cmp_flip_lt _ OK) in H1. lia.
    - apply StronglySorted_inv in Ha as [Ha Hx]. eapply (IH t0 Ha); [by eapply ceq_tail|done].
  Qed.
  Lemma StronglySorted_app {A} (P : A → A → Prop) s t : StronglySorted P (s ++ t) ↔
    StronglySorted P s ∧ StronglySorted P t ∧ ∀ x y, x ∈ s → y ∈ t → P x y.
  Proof using.
    clear. induction s as [|a s IH]; cbn.
    - split; [intros; split_and!; [constructor|done|by intros ? ? ?%elem_of_nil]|by intros (_ & ? & _)].
    - split.
      + intros [H1 H2]%StronglySorted_inv. apply IH in H1 as (? & ? & H3). apply Forall_app in H2 as [H4 H5].
        split_and!; [by constructor|done|]. intros x y [->|Hx]%elem_of_cons Hy; [|by apply H3]. rewrite Forall_forall in H5. by apply H5.
      + intros ([H1 H2]%StronglySorted_inv & H3 & H4). constructor.
        * apply IH. split_and!; [done|done|]. intros x y Hx Hy. apply H4; [by right|done].
        * apply Forall_app. split; [done|]. apply Forall_forall. intros y Hy. apply H4; [by left|done].
  Qed.
  Lemma descending_rev s : descending s → ascending cmp (rev s).
  Proof.
    induction s as [|x s IH]; intros H; cbn; [constructor|]. apply StronglySorted_inv in H as [H Hx].
    apply StronglySorted_app. split_and!; [by apply IH|repeat constructor|]. intros y z Hy Hz.
    apply elem_of_list_singleton in Hz as ->. rewrite Forall_forall in Hx. apply Hx. apply elem_of_reverse. by rewrite <-rev_reverse in Hy || (unfold reverse; rewrite <-rev_alt).
  Qed.

  (** the successor *)
  Lemma successor pre p s1 c s2 :
    descending (s1 ++ c :: s2) → (cmp p c < 0)%Z → (∀ y, y ∈ s2 → (cmp y p <= 0)%Z) →
    let s := pre ++ p :: s1 ++ c :: s2 in
    let s' := pre ++ c :: rev (s1 ++ p :: s2) in
    lex_lt cmp s s' ∧ ∀ t, length t = length s → ceq s t → lex_lt cmp s t → lex_lt cmp s' t ∨ lex_eq cmp s' t.
  Proof.
    intros Hd Hpc Hs2. apply StronglySorted_app in Hd as Hd'. destruct Hd' as (Hd1 & Hd2 & Hd3).
    apply StronglySorted_inv in Hd2 as [Hd2 Hc2]. rewrite Forall_forall in Hc2.
    assert (∀ y, y ∈ s1 → (cmp c y <= 0)%Z) as Hs1 by (intros y Hy; apply Hd3; [done|left]).
    assert (descending (s1 ++ p :: s2)) as Hdp.
    { apply StronglySorted_app. split_and!; [done| |].
      - constructor; [done|]. apply Forall_forall. apply Hs2.
      - intros x y Hx [->|Hy]%elem_of_cons.
        + assert ((cmp p x < 0)%Z); [|lia]. eapply (cmp_lt_le_trans _ OK _ c); [done|by apply Hs1].
        + apply Hd3; [done|by right]. }
    cbn zeta. induction pre as [|a pre IH]; cbn [app].
    - split.
      { apply lex_here; [done|]. rewrite rev_length, !app_length. done. }
      intros t Hl Hc Hlt. inversion Hlt as [x y u v Hpy Huv|x y u v Hpy Huv]; subst.
      + destruct (ceq_in y _ _ Hc) as (z & Hz & Hyz).
        assert (z ∈ s1 ++ c :: s2) as Hz'. { apply elem_of_cons in Hz as [->|]; [|done]. apply (cmp_flip_eq _ OK) in Hyz. lia. }
        assert ((cmp p z < 0)%Z) as Hpz by (eapply (cmp_lt_le_trans _ OK _ y); [done|lia]).
        assert ((cmp c z <= 0)%Z) as Hcz.
        { apply elem_of_app in Hz' as [Hz'|[->|Hz']%elem_of_cons]; [by apply Hs1|rewrite (cmp_refl _ OK); lia|].
          specialize (Hs2 z Hz'). apply (cmp_flip_lt _ OK) in Hpz. lia. }
        assert ((cmp c y <= 0)%Z) as Hcy. { eapply (cmp_le_trans _ OK _ z); [done|]. apply (cmp_flip_eq _ OK) in Hyz. lia. }
        assert (length (rev (s1 ++ p :: s2)) = length v) as Hlen.
        { rewrite rev_length, app_length. rewrite app_length in Huv. cbn in *. lia. }
        destruct (Z.eq_dec (cmp c y) 0) as [E|E]; [|left; apply lex_here; [lia|done]].
        destruct (ascending_min (rev (s1 ++ p :: s2)) v) as [G|G].
        * by apply descending_rev.
        * done.
        * eapply (ceq_tail c y); [done|]. eapply ceq_trans; [|exact Hc]. apply perm_ceq.
          rewrite <-(Permutation_rev (s1 ++ p :: s2)). rewrite <-!Permutation_middle. apply Permutation_swap.
        * left. by apply lex_there.
        * right. by constructor.
      + exfalso. eapply (descending_max (s1 ++ c :: s2) v); [done|by eapply ceq_tail|done].
    - destruct IH as [IH1 IH2]. split; [apply lex_there; [apply (cmp_refl _ OK)|done]|].
      intros t Hl Hc Hlt. inversion Hlt as [x y u v Hay Huv|x y u v Hay Huv]; subst.
      + left. apply lex_here; [done|]. rewrite <-Huv. rewrite !app_length. cbn. rewrite rev_length, !app_length. cbn. lia.
      + destruct (IH2 v) as [G|G]; [cbn in Hl; lia|by eapply ceq_tail|done|left; by apply lex_there|right; by constructor].
  Qed.
End lex.

Lemma swapl_middle {T} (pre : list T) x m y post :
  swapl (pre ++ x :: m ++ y :: post) (length pre) (length pre + S (length m)) = pre ++ y :: m ++ x :: post.
Proof.
  assert ((pre ++ x :: m ++ y :: post) !! length pre = Some x) as H1 by (by rewrite list_lookup_middle).
  assert ((pre ++ x :: m ++ y :: post) !! (length pre + S (length m)) = Some y) as H2.
  { rewrite lookup_app_r by lia. replace (length pre + S (length m) - length pre) with (S (length m)) by lia. change ((m ++ y :: post) !! length m = Some y). by rewrite list_lookup_middle. }
  unfold swapl. rewrite H1, H2. rewrite insert_app_r_alt by lia. rewrite Nat.sub_diag. cbn [insert list_insert].
  rewrite insert_app_r_alt by lia. replace (length pre + S (length m) - length pre) with (S (length m)) by lia. cbn [insert list_insert].
  assert (<[length m := x]> (m ++ y :: post) = m ++ x :: post) as E.
  { rewrite insert_app_r_alt by lia. by rewrite Nat.sub_diag. }
  do 2 f_equal. exact E.
Qed.
Lemma mid_cases {T} (m : list T) : m = [] ∨ (∃ x, m = [x]) ∨ ∃ x m' y, m = x :: m' ++ [y].
Proof.
  destruct m as [|x m]; [by left|]. right. destruct m as [|y m] using rev_ind; [left; eauto|]. right. eauto.
Qed.

Section np.
  Context {W T : Type} (csize : nat → M W Z) (cat : nat → Z → M W T) (cset : nat → Z → T → M W unit).
  Context (o : nat) (R : W → list T → Prop) (L : ra_law csize cat cset o R).
  Set Default Proof Using "Type*".
  Implicit Types l : list T.
  Notation it p := (MkIter o p).
  Notation at_ p := (MkIter o (Z.of_nat p)).

  Lemma np_reverse_ok fuel w pre m post : R w (pre ++ m ++ post) → length m <= fuel →
    wp (np_reverse csize cat cset fuel (at_ (length pre)) (it (Z.of_nat (length pre + length m) - 1)))
       (λ _ w', R w' (pre ++ rev m ++ post)) w.
  Proof.
    revert w pre m post. induction fuel as [|f IH]; intros w pre m post HR Hf; cbn [np_reverse]; unfold it_position; cbn [it_pos].
    { destruct m; cbn in *; [|lia]. destruct (Z.ltb_spec (Z.of_nat (length pre)) (Z.of_nat (length pre + 0) - 1)); [lia|]. by apply wp_ret. }
    destruct (mid_cases m) as [->|[[x ->]|(x & m' & y & ->)]].
    - cbn. destruct (Z.ltb_spec (Z.of_nat (length pre)) (Z.of_nat (length pre + 0) - 1)); [lia|]. by apply wp_ret.
    - cbn. destruct (Z.ltb_spec (Z.of_nat (length pre)) (Z.of_nat (length pre + 1) - 1)); [lia|]. by apply wp_ret.
    - cbn [length] in *. rewrite app_length in *. cbn [length] in *.
      destruct (Z.ltb_spec (Z.of_nat (length pre)) (Z.of_nat (length pre + S (length m' + 1)) - 1)); [|lia].
      replace (Z.of_nat (length pre + S (length m' + 1)) - 1)%Z with (Z.of_nat (length pre + S (length m'))) by lia.
      rewrite <-app_comm_cons, <-app_assoc in HR. cbn [app] in HR.
      destruct (swap_ok _ _ _ o R L w _ (length pre) (length pre + S (length m')) HR) as (w1 & E1 & HR1).
      { rewrite app_length. cbn. lia. } { rewrite app_length. cbn. rewrite app_length. cbn. lia. }
      rewrite swapl_middle in HR1. wp_step E1.
      wp_step (next_ok _ _ _ o R L w1 _ (length pre) HR1 ltac:(rewrite app_length; cbn; lia)).
      wp_step (prev_ok (W:=W) o w1 (length pre + S (length m'))).
      specialize (IH w1 (pre ++ [y]) m' (x :: post)). rewrite app_length in IH. cbn [length] in IH.
      replace (S (length pre)) with (length pre + 1) by lia. replace (length pre + S (length m')) with (length pre + 1 + length m') by lia.
      eapply wp_mono; [apply IH; [|lia]|].
      + by rewrite <-app_assoc.
      + intros ? w'. cbv beta. cbn [rev]. rewrite rev_app_distr. cbn [rev app]. rewrite <-!app_assoc. cbn [app]. by rewrite <-?app_assoc.
  Qed.

  Context (cmp : T → T → Z) (OK : CmpOK cmp).
  Definition desc_in c b l : Prop := ∀ i j x y, c <= i < j → j < b → l !! i = Some x → l !! j = Some y → (cmp y x <= 0)%Z.
  Lemma desc_in_seg c b l : b <= length l → desc_in c b l → descending cmp (seg c b l).
  Proof using.
    clear. intros Hb Hd. unfold descending. remember (b - c) as n eqn:Hn. revert c Hn Hd. induction n as [|n IH]; intros c Hn Hd.
    - rewrite seg_nil by lia. constructor.
    - destruct (lookup_lt_is_Some_2 l c ltac:(lia)) as [x Hx]. rewrite (seg_cons c b l x) by (done || lia).
      constructor; [apply IH; [lia|intros i j u v ? ? ? ?; apply (Hd i j); [lia|lia|done|done]]|].
      apply Forall_forall. intros y Hy. apply elem_of_list_lookup in Hy as [k Hk].
      pose proof (lookup_lt_Some _ _ _ Hk) as Hk'. rewrite seg_length in Hk' by lia. rewrite seg_lookup in Hk by lia.
      apply (Hd c (S c + k)); [lia|lia|done|done].
  Qed.
  Lemma np_scan_ok fuel w l a b c : R w l → a <= c < b → b <= length l → c - a <= fuel → desc_in c b l →
    wp (np_scan cat cmp fuel (at_ a) (Z.of_nat c - 1) (Z.of_nat c))
       (λ r w', w' = w ∧ ∃ c', r = ((Z.of_nat c' - 1)%Z, Z.of_nat c') ∧ a <= c' < b ∧ desc_in c' b l ∧
          (c' = a ∨ ∃ x y, a < c' ∧ l !! (c' - 1) = Some x ∧ l !! c' = Some y ∧ (cmp x y < 0)%Z)) w.
  Proof.
    intros HR. revert c. induction fuel as [|f IH]; intros c Hc Hb Hf Hd; cbn [np_scan]; unfold it_position; cbn [it_pos].
    { destruct (Z.ltb_spec (Z.of_nat a) (Z.of_nat c)); [lia|]. apply wp_ret. split; [done|]. exists c. split_and!; try done; try lia. }
    destruct (Z.ltb_spec (Z.of_nat a) (Z.of_nat c)).
    2:{ apply wp_ret. split; [done|]. exists c. split_and!; try done; try lia. }
    unfold it_at. cbn [it_obj]. replace (Z.of_nat c - 1)%Z with (Z.of_nat (c - 1)) by lia.
    destruct (value_get _ _ _ o R L w l (c - 1) HR ltac:(lia)) as (x & Hx & Ex).
    destruct (value_get _ _ _ o R L w l c HR ltac:(lia)) as (y & Hy & Ey).
    wp_step Ex. wp_step Ey. destruct (Z.leb_spec 0 (cmp x y)).
    - replace (Z.of_nat c - 1)%Z with (Z.of_nat (c - 1)) by lia. apply IH; try lia.
      intros i j u v Hi Hj Hu Hv. destruct (decide (i = c - 1)) as [->|]; [|apply (Hd i j); [lia|lia|done|done]].
      assert (u = x) as -> by congruence. assert ((cmp y x <= 0)%Z) by (apply (cmp_flip_le _ OK); lia). destruct (decide (j = c)) as [->|]; [by replace v with y by congruence|].
      eapply (cmp_le_trans _ OK _ y); [|done]. apply (Hd c j); [lia|lia|done|done].
    - apply wp_ret. split; [done|]. exists c. split_and!; [f_equal; lia|lia|lia|done|]. right. exists x, y. split_and!; [lia|done..].
  Qed.
  Lemma np_find_ok fuel w l a b p k c x y : R w l → b <= length l → p < c <= k → k < b → k - c <= fuel →
    l !! p = Some x → l !! c = Some y → (cmp x y < 0)%Z →
    (∀ j z, k < j < b → l !! j = Some z → (cmp z x <= 0)%Z) →
    wp (np_find cat cmp fuel (at_ a) (Z.of_nat p) (Z.of_nat k))
       (λ r w', w' = w ∧ ∃ k' z, r = Z.of_nat k' ∧ c <= k' < b ∧ l !! k' = Some z ∧ (cmp x z < 0)%Z ∧
          (∀ j z, k' < j < b → l !! j = Some z → (cmp z x <= 0)%Z)) w.
  Proof.
    intros HR Hb. revert k. induction fuel as [|f IH]; intros k Hpc Hk Hf Hx Hy Hxy Hlo; cbn [np_find]; unfold it_at; cbn [it_obj].
    all: destruct (value_get _ _ _ o R L w l k HR ltac:(lia)) as (z & Hz & Ez); wp_step Ez; wp_step (value_ok _ _ _ o R L w l p x HR Hx).
    all: destruct (Z.leb_spec (cmp z x) 0).
    - assert (k = c) as -> by lia. simplify_eq. apply (cmp_flip_lt _ OK) in Hxy. lia.
    - apply wp_ret. split; [done|]. exists k, z. split_and!; try done; try lia. by apply (cmp_flip_gt _ OK).
    - destruct (decide (k = c)) as [->|]. { simplify_eq. apply (cmp_flip_lt _ OK) in Hxy. lia. }
      replace (Z.of_nat k - 1)%Z with (Z.of_nat (k - 1)) by lia. apply IH; try done; try lia.
      intros j u Hj Hu. destruct (decide (j = k)) as [->|]; [by simplify_eq|]. apply (Hlo j); [lia|done].
    - apply wp_ret. split; [done|]. exists k, z. split_and!; try done; try lia. by apply (cmp_flip_gt _ OK).
  Qed.

  Lemma next_permutation_ok w l a b : R w l → a <= b <= length l →
    wp (next_permutation csize cat cset cmp (at_ a) (at_ b))
       (λ r w', (r = false ∧ w' = w ∧ ∀ t, t ≡ₚ seg a b l → ¬ lex_lt cmp (seg a b l) t) ∨
          (r = true ∧ ∃ s', R w' (take a l ++ s' ++ drop b l) ∧ s' ≡ₚ seg a b l ∧ lex_lt cmp (seg a b l) s' ∧
             ∀ t, t ≡ₚ seg a b l → lex_lt cmp (seg a b l) t → lex_lt cmp s' t ∨ lex_eq cmp s' t)) w.
  Proof.
    intros HR Hab. unfold next_permutation, it_position, it_at. cbn [it_pos it_obj].
    replace (Z.of_nat a + (Z.of_nat b - Z.of_nat a) - 1)%Z with (Z.of_nat b - 1)%Z by lia.
    destruct (decide (a = b)) as [->|Hne].
    { assert (np_scan cat cmp (Z.to_nat (Z.of_nat b - Z.of_nat b)) (at_ b) (Z.of_nat b - 1 - 1) (Z.of_nat b - 1) w = Ok ((Z.of_nat b - 1 - 1, Z.of_nat b - 1)%Z, w)) as E.
      { replace (Z.of_nat b - Z.of_nat b)%Z with 0%Z by lia. change (Z.to_nat 0) with 0; cbn [np_scan]. unfold it_position; cbn [it_pos].
        destruct (Z.ltb_spec (Z.of_nat b) (Z.of_nat b - 1)); [lia|done]. }
      wp_step E. cbv beta iota. destruct (Z.leb_spec (Z.of_nat b - 1) (Z.of_nat b)); [|lia]. apply wp_ret. left. split_and!; try done.
      rewrite seg_nil by lia. intros t Ht. apply Permutation_nil_r in Ht as ->. inversion 1. }
    replace (Z.of_nat b - 1)%Z with (Z.of_nat (b - 1)) by lia. apply wp_bind.
    eapply wp_mono; [apply (np_scan_ok _ w l a b (b - 1)); try done; try lia|].
    { intros i j x y ? ? ? ?. lia. }
    intros r w' (-> & c & -> & Hc & Hd & Hcase).
    destruct Hcase as [->|(x & y & Hac & Hx & Hy & Hxy)].
    { destruct (Z.leb_spec (Z.of_nat a) (Z.of_nat a)); [|lia]. apply wp_ret. left. split_and!; try done.
      intros t Ht Hlt. apply (descending_max _ OK (seg a b l) t); [|apply perm_ceq; by symmetry|done]. apply desc_in_seg; [lia|done]. }
    destruct (Z.leb_spec (Z.of_nat c) (Z.of_nat a)); [lia|].
    replace (Z.of_nat c - 1)%Z with (Z.of_nat (c - 1)) by lia. apply wp_bind.
    eapply wp_mono; [apply (np_find_ok _ w l a b (c - 1) (b - 1) c x y); try done; try lia|].
    intros r w' (-> & k & z & -> & Hk & Hz & Hxz & Hlo).
    assert (seg a b l = seg a (c - 1) l ++ x :: seg c k l ++ z :: seg (S k) b l) as Hseg.
    { rewrite (seg_app a (c - 1) b) by lia. f_equal. rewrite (seg_cons (c - 1) b l x) by (done || lia). f_equal.
      replace (S (c - 1)) with c by lia. rewrite (seg_app c k b) by lia. f_equal. by apply seg_cons; [lia|]. }
    set (pre := take a l ++ seg a (c - 1) l). set (s1 := seg c k l) in *. set (s2 := seg (S k) b l) in *.
    assert (length pre = c - 1) as Hpre. { unfold pre. rewrite app_length, take_length, seg_length by lia. lia. }
    assert (length s1 = k - c) as Hls1 by (apply seg_length; lia). assert (length s2 = b - S k) as Hls2 by (apply seg_length; lia).
    assert (l = pre ++ x :: s1 ++ z :: (s2 ++ drop b l)) as El.
    { rewrite (split3 a b l) at 1 by lia. rewrite Hseg. unfold pre. rewrite <-!app_assoc. cbn [app]. do 3 f_equal. by rewrite <-app_assoc. }
    destruct (swap_ok _ _ _ o R L w l k (c - 1) HR) as (w1 & E1 & HR1); [lia|lia|]. wp_step E1.
    assert (swapl l k (c - 1) = pre ++ z :: s1 ++ x :: s2 ++ drop b l) as Esw.
    { rewrite <-(swapl_middle pre x s1 z (s2 ++ drop b l)). rewrite <-El. rewrite Hpre. replace (c - 1 + S (length s1)) with k by lia.
      unfold swapl. rewrite Hx, Hz. rewrite list_insert_commute by lia. done. }
    rewrite Esw in HR1.
    assert (pre ++ z :: s1 ++ x :: s2 ++ drop b l = (pre ++ [z]) ++ (s1 ++ x :: s2) ++ drop b l) as Eas.
    { rewrite <-!app_assoc. cbn [app]. done. }
    rewrite Eas in HR1. apply wp_bind.
    replace (Z.of_nat (c - 1) + 1)%Z with (Z.of_nat (length (pre ++ [z]))) by (rewrite app_length; cbn; lia).
    replace (Z.of_nat (b - 1)) with (Z.of_nat (length (pre ++ [z]) + length (s1 ++ x :: s2)) - 1)%Z.
    2:{ rewrite !app_length. cbn [length]. lia. }
    eapply wp_mono; [apply (np_reverse_ok _ w1 _ _ _ HR1)|].
    { rewrite app_length. cbn [length]. lia. }
    intros ? w2 HR2. cbv beta in HR2. apply wp_ret. right. split; [done|].
    set (s' := seg a (c - 1) l ++ z :: rev (s1 ++ x :: s2)).
    assert (s' ≡ₚ seg a b l) as Hperm.
    { unfold s'. rewrite Hseg. apply Permutation_app_head. rewrite <-(Permutation_rev (s1 ++ x :: s2)).
      rewrite <-!Permutation_middle. apply Permutation_swap. }
    assert (descending cmp (s1 ++ z :: s2)) as Hdes.
    { replace (s1 ++ z :: s2) with (seg c b l); [apply desc_in_seg; [lia|done]|].
      rewrite (seg_app c k b) by lia. f_equal. by apply seg_cons; [lia|]. }
    destruct (successor cmp OK (seg a (c - 1) l) x s1 z s2 Hdes Hxz) as [S1 S2].
    { intros y' Hy'. apply elem_of_list_lookup in Hy' as [j Hj]. pose proof (lookup_lt_Some _ _ _ Hj).
      unfold s2 in Hj. rewrite seg_lookup in Hj by lia. apply (Hlo (S k + j)); [lia|done]. }
    rewrite <-Hseg in S1, S2. exists s'. split_and!; [|done|done|].
    - unfold pre in HR2. rewrite <-!app_assoc in HR2. cbn [app] in HR2. unfold s'. rewrite <-!app_assoc. cbn [app]. by rewrite <-?app_assoc.
    - intros t Ht. apply S2; [by apply Permutation_length|]. apply perm_ceq. by symmetry.
  Qed.
End np.
