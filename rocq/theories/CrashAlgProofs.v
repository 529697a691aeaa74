(** The sorting algorithms and the heap with a comparison function that has a state, may panic and is
    otherwise arbitrary (it may contradict itself). *)
From Verif Require Import Base Wp ListLib IterModel IterSpec SortModel SortSpec SortProofs StableProofs HeapModel AnyCmpHeap AnyCmpProofs CrashModel CrashSpec CrashAlgModel.
Open Scope nat_scope.
Ltac Zify.zify_post_hook ::= Z.div_mod_to_equations.

(** x returns with Q or panics with P *)
Definition xwp {S C A} (x : X (S * C) A) (Q : A → S → Prop) (P : S → Prop) (s : S) : Prop :=
  ∀ c, match x (s, c) with (Ok a, (s', _)) => Q a s' | (Panic, (s', _)) => P s' | (Fuel, _) => False end.
Section xwp.
  Context {S C : Type}.
  Lemma xwp_ret {A} (a : A) (Q : A → S → Prop) P s : Q a s → xwp (C := C) (xret a) Q P s.
  Proof. intros H c. exact H. Qed.
  Lemma xwp_bind {A B} (x : X (S * C) A) (f : A → X (S * C) B) Q P s : xwp x (λ a s', xwp (f a) Q P s') P s → xwp (xbind x f) Q P s.
  Proof. intros H c. specialize (H c). unfold xbind. destruct (x (s, c)) as [[a| |] [s' c']]; [exact (H c')|done|done]. Qed.
  Lemma xwp_mono {A} (x : X (S * C) A) (Q Q' : A → S → Prop) (P P' : S → Prop) s : xwp x Q P s → (∀ a s', Q a s' → Q' a s') → (∀ s', P s' → P' s') → xwp x Q' P' s.
  Proof. intros H HQ HP c. specialize (H c). destruct (x (s, c)) as [[a| |] [s' c']]; auto. Qed.
  Lemma xwp_run {A} (m : M S A) (Q : A → S → Prop) P s : wp m Q s → xwp (C := C) (xrun m) Q P s.
  Proof. intros (a & s' & E & H)%wp_Ok c. unfold xrun. cbn [fst snd]. by rewrite E. Qed.
  Lemma xwp_eq {A B} (m : M S A) (f : A → X (S * C) B) Q P s a s' : m s = Ok (a, s') → xwp (f a) Q P s' → xwp (xbind (xrun m) f) Q P s.
  Proof. intros E H. apply xwp_bind, xwp_run. by eapply wp_eq. Qed.
  Lemma xwp_cmp {K B} (u : user_cmp K C) a b (f : Z → X (S * C) B) Q (P : S → Prop) s : (can_panic u → P s) → (∀ z, xwp (f z) Q P s) → xwp (xbind (xcmp u a b) f) Q P s.
  Proof.
    intros HP H. apply xwp_bind. intros c. unfold xcmp. cbn [fst snd]. destruct (u a b c) as [[z|] c'] eqn:E; [apply H|]. apply HP. by exists a, b, c, c'.
  Qed.
  Lemma xwp_cmp_ag {K B} (u : user_cmp K C) cmp a b (f : Z → X (S * C) B) Q (P : S → Prop) s : agrees_with u cmp → (can_panic u → P s) → xwp (f (cmp a b)) Q P s → xwp (xbind (xcmp u a b) f) Q P s.
  Proof.
    intros Hu HP H. apply xwp_bind. intros c. unfold xcmp. cbn [fst snd]. destruct (u a b c) as [[z|] c'] eqn:E; [by rewrite (Hu _ _ _ _ _ E)|]. apply HP. by exists a, b, c, c'.
  Qed.
  Lemma xwp_out {A} (x : X (S * C) A) Q P s c : xwp x Q P s → (∃ a s' c', x (s, c) = (Ok a, (s', c')) ∧ Q a s') ∨ (∃ s' c', x (s, c) = (Panic, (s', c')) ∧ P s').
  Proof. intros H. specialize (H c). destruct (x (s, c)) as [[a| |] [s' c']]; [left; by exists a, s', c'|right; by exists s', c'|done]. Qed.
End xwp.
Global Opaque xwp.
Ltac x_step H := eapply xwp_eq; [exact H|].

Section sort.
  Context {W T C : Type} (csize : nat → M W Z) (cat : nat → Z → M W T) (cset : nat → Z → T → M W unit).
  Context (o : nat) (R : W → list T → Prop) (L : ra_law csize cat cset o R).
  Context (u : user_cmp T C).
  Set Default Proof Using "L".
  Implicit Types l : list T.
  Notation it p := (MkIter o p).
  Notation at_ p := (MkIter o (Z.of_nat p)).
  (** the range [a, e) of l has been rearranged *)
  Definition moved a e l (w' : W) : Prop := ∃ l', R w' l' ∧ perm_in a e l l'.
  Definition broke a e l (w' : W) : Prop := can_panic u ∧ moved a e l w'.
  Lemma moved_trans a e l l1 w' : perm_in a e l l1 → moved a e l1 w' → moved a e l w'.
  Proof using. intros H (l' & HR & Hp). exists l'. split; [done|]. by eapply perm_in_trans. Qed.
  Lemma moved_sub a e a' e' l w' : moved a' e' l w' → a <= a' → e' <= e → moved a e l w'.
  Proof using. intros (l' & HR & Hp) ??. exists l'. split; [done|]. by eapply perm_in_mono. Qed.
  Lemma broke_trans a e l l1 w' : perm_in a e l l1 → broke a e l1 w' → broke a e l w'.
  Proof using. intros H [Hp Hm]. split; [done|]. by eapply moved_trans. Qed.
  Lemma broke_sub a e a' e' l w' : broke a' e' l w' → a <= a' → e' <= e → broke a e l w'.
  Proof using. intros [Hp Hm] ??. split; [done|]. by eapply moved_sub. Qed.
  Lemma broke_here a e l w : R w l → can_panic u → broke a e l w.
  Proof using. intros H Hc. split; [done|]. by exists l. Qed.

  Lemma xswap_if w l a e i j : R w l → a <= i < e → a <= j < e → e <= length l →
    xwp (x_swap_if_gt cat cset u (at_ i) (at_ j)) (λ _, moved a e l) (broke a e l) w.
  Proof.
    intros H Hi Hj He. destruct (value_get _ _ _ o R L w l i H ltac:(lia)) as (x & Hx & Ex). destruct (value_get _ _ _ o R L w l j H ltac:(lia)) as (y & Hy & Ey).
    unfold x_swap_if_gt. x_step Ex. x_step Ey. apply xwp_cmp; [by apply broke_here|]. intros z. destruct (0 <? z)%Z; [|apply xwp_ret; by exists l].
    destruct (swap_ok _ _ _ o R L w l i j H ltac:(lia) ltac:(lia)) as (w' & E & H'). apply xwp_run. eapply wp_eq; [exact E|]. exists (swapl l i j). split; [done|]. by apply perm_in_swap.
  Qed.
  Lemma xpivot w l a e m : R w l → a <= m < e → e <= length l →
    xwp (x_do_pivot cat cset u (at_ a) (at_ m) (at_ (e - 1))) (λ _, moved a e l) (broke a e l) w.
  Proof.
    intros H Hm He. unfold x_do_pivot. apply xwp_bind. eapply xwp_mono; [apply (xswap_if w l a e); [done|lia..]| |done]. intros ? w1 (l1 & H1 & P1). pose proof (perm_in_length _ _ _ _ P1) as L1.
    apply xwp_bind. eapply xwp_mono; [apply (xswap_if w1 l1 a e); [done|lia..]| |intros w'; by apply broke_trans]. intros ? w2 (l2 & H2 & P2). pose proof (perm_in_length _ _ _ _ P2) as L2.
    pose proof (perm_in_trans _ _ _ _ _ P1 P2) as P3. eapply xwp_mono; [apply (xswap_if w2 l2 a e); [done|lia..]| |intros w'; by apply broke_trans]. intros ? w'. by apply moved_trans.
  Qed.
  Lemma xpart fuel w l a e i r b : R w l → e <= length l → a < r → a < i <= S r → r < e → a <= b < e → r - i <= fuel →
    xwp (x_part_loop csize cat cset u fuel (at_ i) (it (Z.of_nat r - 1)) (at_ b))
       (λ ret w', ∃ m, ret = it (Z.of_nat m - 1) ∧ a < m <= r ∧ moved a e l w') (broke a e l) w.
  Proof.
    revert w l i r. induction fuel as [|f IH]; intros w l i r H He Har Hi Hr Hb Hf; cbn [x_part_loop]; unfold it_position; cbn [it_pos].
    all: destruct (Z.leb_spec (Z.of_nat i) (Z.of_nat r - 1)); try lia.
    1,3: apply xwp_ret; exists r; split_and!; [done|lia|lia|by exists l].
    destruct (value_get _ _ _ o R L w l i H ltac:(lia)) as (y & Hy & Ey). destruct (value_get _ _ _ o R L w l b H ltac:(lia)) as (x & Hx & Ex). x_step Ey. x_step Ex.
    apply xwp_cmp; [by apply broke_here|]. intros z1. destruct (Z.leb_spec z1 0).
    - x_step (next_ok _ _ _ o R L w l i H ltac:(lia)). apply IH; try done; lia.
    - replace (Z.of_nat r - 1)%Z with (Z.of_nat (r - 1)) by lia. destruct (value_get _ _ _ o R L w l (r - 1) H ltac:(lia)) as (z & Hz & Ez). x_step Ez. x_step Ex.
      apply xwp_cmp; [by apply broke_here|]. intros z2. destruct (Z.ltb_spec 0 z2).
      + x_step (prev_ok (W:=W) o w (r - 1)). destruct (decide (i = r - 1)) as [Heq|].
        * assert (a < r - 1) by lia. eapply xwp_mono; [apply (IH w l i (r - 1)); try done; lia| |done]. intros ret w' (m & -> & Hm & Hp). exists m. split_and!; done || lia.
        * eapply xwp_mono; [apply (IH w l i (r - 1)); try done; lia| |done]. intros ret w' (m & -> & Hm & Hp). exists m. split_and!; done || lia.
      + destruct (swap_ok _ _ _ o R L w l i (r - 1) H ltac:(lia) ltac:(lia)) as (w1 & E1 & HR1). x_step E1.
        x_step (next_ok _ _ _ o R L w1 _ i HR1 ltac:(rewrite swapl_length; lia)). x_step (prev_ok (W:=W) o w1 (r - 1)).
        assert (perm_in a e l (swapl l i (r - 1))) as Hsw by (apply perm_in_swap; lia).
        eapply xwp_mono; [apply (IH w1 (swapl l i (r - 1))); rewrite ?swapl_length; try done; lia| |intros w'; by apply broke_trans].
        intros ret w' (m & -> & Hm & Hp). exists m. split_and!; [done|lia|lia|]. by eapply moved_trans.
  Qed.
  Lemma xpartition w l a e : R w l → a + 3 < e → e <= length l →
    xwp (x_partition csize cat cset u (at_ a) (at_ (e - 1))) (λ ret w', ∃ m, ret = Z.of_nat m ∧ a < m < e - 1 ∧ moved a e l w') (broke a e l) w.
  Proof.
    intros H Ha He. unfold x_partition, it_position, it_at. cbn [it_pos it_obj]. replace (Z.of_nat (e - 1) - 1)%Z with (Z.of_nat (e - 2)) by lia. replace (Z.of_nat a + 1)%Z with (Z.of_nat (S a)) by lia.
    replace (Z.of_nat (e - 1) - 2)%Z with (Z.of_nat (e - 2) - 1)%Z by lia. apply xwp_bind.
    eapply xwp_mono; [apply (xpart _ w l a e (S a) (e - 2) (e - 2)); try done; lia| |done]. intros r w1 (m & -> & Hm & l1 & HR1 & P1). pose proof (perm_in_length _ _ _ _ P1) as L1.
    assert (it_next csize (it (Z.of_nat m - 1)) w1 = Ok (at_ m, w1)) as En.
    { replace (Z.of_nat m - 1)%Z with (Z.of_nat (m - 1)) by lia. rewrite (next_ok _ _ _ o R L w1 l1) by (done || lia). do 3 f_equal. lia. }
    x_step En. destruct (swap_ok _ _ _ o R L w1 l1 (e - 2) m HR1 ltac:(lia) ltac:(lia)) as (w2 & E2 & HR2). x_step E2. apply xwp_ret. exists m. cbn [it_pos]. split_and!; [done|lia|lia|].
    exists (swapl l1 (e - 2) m). split; [done|]. eapply perm_in_trans; [exact P1|]. apply perm_in_swap; lia.
  Qed.
  Lemma xquick_sort fuel w l a e : R w l → a <= e <= length l → e - a <= fuel →
    xwp (x_quick_sort csize cat cset u fuel (at_ a) (it (Z.of_nat e - 1))) (λ _, moved a e l) (broke a e l) w.
  Proof.
    revert w l a e. induction fuel as [|f IH]; intros w l a e H He Hf; cbn [x_quick_sort]; unfold it_position; cbn [it_pos].
    { destruct (Z.leb_spec (Z.of_nat e - 1) (Z.of_nat a)); [|lia]. apply xwp_ret. by exists l. }
    destruct (Z.leb_spec (Z.of_nat e - 1) (Z.of_nat a)). { apply xwp_ret. by exists l. }
    replace (Z.of_nat e - 1)%Z with (Z.of_nat (e - 1)) by lia. destruct (Z.ltb_spec (Z.of_nat (e - 1) - Z.of_nat a + 1) 3); [apply xswap_if; done || lia|].
    unfold it_at. cbn [it_obj]. set (mid := a + (e - a) / 2). replace (Z.of_nat a + Z.quot (Z.of_nat (e - 1) - Z.of_nat a + 1) 2)%Z with (Z.of_nat mid) by (rewrite Z.quot_div_nonneg by lia; lia).
    replace (Z.of_nat (e - 1) - 1)%Z with (Z.of_nat (e - 2)) by lia. apply xwp_bind. eapply xwp_mono; [apply (xpivot w l a e mid H); lia| |done]. intros ? w1 (l1 & HR1 & P1). pose proof (perm_in_length _ _ _ _ P1) as L1.
    destruct (swap_ok _ _ _ o R L w1 l1 mid (e - 2) HR1 ltac:(lia) ltac:(lia)) as (w2 & E2 & HR2). x_step E2. assert (perm_in a e l (swapl l1 mid (e - 2))) as P2 by (eapply perm_in_trans; [exact P1|]; apply perm_in_swap; lia).
    destruct (Z.eqb_spec (Z.of_nat (e - 1) - Z.of_nat a + 1) 3). { apply xwp_ret. by eexists. }
    apply xwp_bind. eapply xwp_mono; [apply (xpartition w2 _ a e HR2); rewrite ?swapl_length; lia| |intros w'; by apply broke_trans]. intros ret w3 (m & -> & Hm & l3 & HR3 & P3). pose proof (perm_in_trans _ _ _ _ _ P2 P3) as P4. pose proof (perm_in_length _ _ _ _ P4) as L4.
    apply xwp_bind. eapply xwp_mono; [apply (IH w3 l3 a m HR3); lia| |intros w' Hb; eapply broke_trans; [exact P4|]; eapply broke_sub; [exact Hb|lia|lia]]. intros ? w5 (l5 & HR5 & P5). pose proof (perm_in_length _ _ _ _ P5) as L5.
    x_step (next_ok _ _ _ o R L w5 l5 m HR5 ltac:(lia)). replace (Z.of_nat (e - 1)) with (Z.of_nat e - 1)%Z by lia.
    assert (perm_in a e l l5) as P6 by (eapply perm_in_trans; [exact P4|]; eapply perm_in_mono; [exact P5|lia|lia]).
    eapply xwp_mono; [apply (IH w5 l5 (S m) e HR5); lia|intros ? w'|intros w'].
    - intros Hm'. eapply moved_trans; [exact P6|]. eapply moved_sub; [exact Hm'|lia|lia].
    - intros Hm'. eapply broke_trans; [exact P6|]. eapply broke_sub; [exact Hm'|lia|lia].
  Qed.
  Lemma xnth fuel w l a e n : R w l → a <= e <= length l → e - a <= fuel →
    xwp (x_nth_element_ csize cat cset u fuel (at_ a) (it (Z.of_nat e - 1)) n) (λ _, moved a e l) (broke a e l) w.
  Proof.
    revert w l a e n. induction fuel as [|f IH]; intros w l a e n H He Hf; cbn [x_nth_element_]; unfold it_position; cbn [it_pos].
    { destruct (Z.leb_spec (Z.of_nat e - 1) (Z.of_nat a + 1)); [|lia]. apply xwp_ret. by exists l. }
    destruct (Z.leb_spec (Z.of_nat e - 1) (Z.of_nat a + 1)). { apply xwp_ret. by exists l. }
    replace (Z.of_nat e - 1)%Z with (Z.of_nat (e - 1)) by lia. destruct (Z.ltb_spec (Z.of_nat (e - 1) - Z.of_nat a + 1) 3); [lia|].
    unfold it_at. cbn [it_obj]. set (mid := a + (e - a) / 2). replace (Z.of_nat a + Z.quot (Z.of_nat (e - 1) - Z.of_nat a + 1) 2)%Z with (Z.of_nat mid) by (rewrite Z.quot_div_nonneg by lia; lia).
    replace (Z.of_nat (e - 1) - 1)%Z with (Z.of_nat (e - 2)) by lia. apply xwp_bind. eapply xwp_mono; [apply (xpivot w l a e mid H); lia| |done]. intros ? w1 (l1 & HR1 & P1). pose proof (perm_in_length _ _ _ _ P1) as L1.
    destruct (swap_ok _ _ _ o R L w1 l1 mid (e - 2) HR1 ltac:(lia) ltac:(lia)) as (w2 & E2 & HR2). x_step E2. assert (perm_in a e l (swapl l1 mid (e - 2))) as P2 by (eapply perm_in_trans; [exact P1|]; apply perm_in_swap; lia).
    destruct (Z.eqb_spec (Z.of_nat (e - 1) - Z.of_nat a + 1) 3). { apply xwp_ret. by eexists. }
    apply xwp_bind. eapply xwp_mono; [apply (xpartition w2 _ a e HR2); rewrite ?swapl_length; lia| |intros w'; by apply broke_trans]. intros ret w3 (m & -> & Hm & l3 & HR3 & P3). pose proof (perm_in_trans _ _ _ _ _ P2 P3) as P4. pose proof (perm_in_length _ _ _ _ P4) as L4.
    destruct (_ <=? _)%Z.
    - replace (Z.of_nat m) with (Z.of_nat (S m) - 1)%Z at 1 by lia. eapply xwp_mono; [apply (IH w3 l3 a (S m) n HR3); lia|intros ? w' Hm'|intros w' Hm'].
      + eapply moved_trans; [exact P4|]. eapply moved_sub; [exact Hm'|lia|lia].
      + eapply broke_trans; [exact P4|]. eapply broke_sub; [exact Hm'|lia|lia].
    - x_step (next_ok _ _ _ o R L w3 l3 m HR3 ltac:(lia)). replace (Z.of_nat (e - 1)) with (Z.of_nat e - 1)%Z by lia.
      eapply xwp_mono; [apply (IH w3 l3 (S m) e _ HR3); lia|intros ? w' Hm'|intros w' Hm'].
      + eapply moved_trans; [exact P4|]. eapply moved_sub; [exact Hm'|lia|lia].
      + eapply broke_trans; [exact P4|]. eapply broke_sub; [exact Hm'|lia|lia].
  Qed.
  Lemma xmerge_loop fuel w l p m q e pos tmp : R w l → p <= m → m <= q → q <= e → e <= length l →
    (m - p) + (e - q) <= fuel → pos + (m - p) + (e - q) <= length tmp →
    xwp (x_merge_loop csize cat u fuel (at_ p) (at_ q) (at_ m) (at_ e) (Z.of_nat pos) tmp)
       (λ r w', w' = w ∧ ∃ p' q' pos' tmp' c, r = (at_ p', at_ q', Z.of_nat pos', tmp') ∧
          p <= p' <= m ∧ q <= q' <= e ∧ (p' = m ∨ q' = e) ∧ length tmp' = length tmp ∧
          pos' + (m - p') + (e - q') <= length tmp ∧
          take pos' tmp' = take pos tmp ++ c ∧
          c ++ seg p' m l ++ seg q' e l ≡ₚ seg p m l ++ seg q e l) (λ w', can_panic u ∧ w' = w) w.
  Proof.
    intros HR. revert p q pos tmp. induction fuel as [|f IH]; intros p q pos tmp Hpm Hmq Hqe He Hf Ht; cbn [x_merge_loop]; unfold it_position; cbn [it_pos].
    { destruct (Z.ltb_spec (Z.of_nat p) (Z.of_nat m)); [lia|]. cbn [andb]. apply xwp_ret. split; [done|].
      exists p, q, pos, tmp, []. split_and!; try done; try lia. by rewrite app_nil_r. }
    destruct (Z.ltb_spec (Z.of_nat p) (Z.of_nat m)); [|cbn [andb]].
    2:{ apply xwp_ret. split; [done|]. exists p, q, pos, tmp, []. split_and!; try done; try lia. by rewrite app_nil_r. }
    destruct (Z.ltb_spec (Z.of_nat q) (Z.of_nat e)); cbn [andb].
    2:{ apply xwp_ret. split; [done|]. exists p, q, pos, tmp, []. split_and!; try done; try lia. by rewrite app_nil_r. }
    destruct (value_get _ _ _ o R L w l p HR ltac:(lia)) as (x & Hx & Ex). destruct (value_get _ _ _ o R L w l q HR ltac:(lia)) as (y & Hy & Ey).
    x_step Ex. x_step Ey. rewrite (seg_cons p m l x), (seg_cons q e l y) by (done || lia). apply xwp_cmp; [done|]. intros z. destruct (Z.leb_spec z 0).
    - x_step Ex. rewrite upd_nat by lia. x_step (next_ok _ _ _ o R L w l p HR ltac:(lia)). replace (Z.of_nat pos + 1)%Z with (Z.of_nat (S pos)) by lia.
      eapply xwp_mono; [apply (IH (S p) q (S pos) (<[pos := x]> tmp)); rewrite ?insert_length; lia| |done].
      intros r w' (-> & p' & q' & pos' & tmp' & c & -> & Hp' & Hq' & He' & Hl' & Hro & Htk & Hpm'). split; [done|]. rewrite insert_length in *. exists p', q', pos', tmp', (x :: c). split_and!; try done; try lia.
      { rewrite Htk, take_S_upd by lia. by rewrite <-app_assoc. }
      rewrite (seg_cons q e l y) in Hpm' by (done || lia). cbn [app]. by rewrite Hpm'.
    - x_step Ey. rewrite upd_nat by lia. x_step (next_ok _ _ _ o R L w l q HR ltac:(lia)). replace (Z.of_nat pos + 1)%Z with (Z.of_nat (S pos)) by lia.
      eapply xwp_mono; [apply (IH p (S q) (S pos) (<[pos := y]> tmp)); rewrite ?insert_length; lia| |done].
      intros r w' (-> & p' & q' & pos' & tmp' & c & -> & Hp' & Hq' & He' & Hl' & Hro & Htk & Hpm'). split; [done|]. rewrite insert_length in *. exists p', q', pos', tmp', (y :: c). split_and!; try done; try lia.
      { rewrite Htk, take_S_upd by lia. by rewrite <-app_assoc. }
      rewrite (seg_cons p m l x) in Hpm' by (done || lia). cbn [app] in *. rewrite Hpm'. change (x :: seg (S p) m l ++ y :: seg (S q) e l) with ((x :: seg (S p) m l) ++ y :: seg (S q) e l). by rewrite <-Permutation_middle.
  Qed.
  Lemma xmerge w l a m e tmp : R w l → a <= m <= e → e <= length l → e - a <= length tmp →
    xwp (x_merge csize cat cset u (at_ a) (at_ m) (at_ e) tmp) (λ tmp' w', length tmp' = length tmp ∧ moved a e l w') (broke a e l) w.
  Proof.
    intros HR Ha He Ht. unfold x_merge, it_clone, it_position. cbn [it_pos it_obj]. apply xwp_bind. change (0%Z) with (Z.of_nat 0) at 1.
    eapply xwp_mono; [apply (xmerge_loop _ w l a m m e 0 tmp); try done; lia| |intros w' [Hc ->]; by apply broke_here].
    intros r w' (-> & p' & q' & pos & tmp1 & c & -> & Hp' & Hq' & Hend & Hlen1 & Hroom & Htk & Hmg). apply xwp_run. cbv beta iota.
    apply wp_bind. eapply wp_mono; [apply (copy_loop_ok _ _ _ o R L _ w l p' m pos tmp1); [done|lia|lia|lia]|]. intros r w' (-> & tmp2 & -> & Hlen2 & Htk2). cbv beta iota.
    apply wp_bind. eapply wp_mono; [apply (copy_loop_ok _ _ _ o R L _ w l q' e _ tmp2); [done|lia|lia|lia]|]. intros r w' (-> & tmp3 & -> & Hlen3 & Htk3). cbv beta iota.
    rewrite Htk2, Htk, take_0 in Htk3. rewrite app_nil_l, <-app_assoc in Htk3.
    set (n := pos + (m - p') + (e - q')) in *. rewrite <-seg_app in Hmg by lia.
    assert (n = e - a) as Hn.
    { assert (length (take n tmp3) = n) as G by (rewrite take_length; lia). rewrite Htk3, (Permutation_length Hmg), seg_length in G; lia. }
    rewrite Nat2Z.id. apply wp_bind. change 0%Z with (Z.of_nat 0).
    eapply wp_mono; [apply (write_back_ok _ _ _ o R L n w l 0 a tmp3); [done|lia|lia]|].
    intros ? w' HR'. cbv beta in HR'. apply wp_ret. split; [lia|]. rewrite drop_0, Htk3 in HR'. replace (a + n) with e in HR' by lia.
    eexists. split; [exact HR'|]. assert (length (c ++ seg p' m l ++ seg q' e l) = e - a) as Lm by (rewrite (Permutation_length Hmg), seg_length; lia). split.
    - rewrite Hmg. by rewrite <-split3 by lia.
    - intros k Hk. destruct (decide (k < a)).
      + rewrite lookup_app_l by (rewrite take_length; lia). by rewrite lookup_take by lia.
      + rewrite lookup_app_r by (rewrite take_length; lia). rewrite lookup_app_r by (rewrite take_length; lia). rewrite lookup_drop. rewrite take_length, Lm. f_equal. lia.
  Qed.
  Lemma xmerge_sort fuel w l a e tmp : R w l → a < e <= length l → e - a <= fuel → e - a <= length tmp →
    xwp (x_merge_sort csize cat cset u fuel (at_ a) (at_ e) tmp) (λ tmp' w', length tmp' = length tmp ∧ moved a e l w') (broke a e l) w.
  Proof.
    revert w l a e tmp. induction fuel as [|f IH]; intros w l a e tmp HR Ha Hf Ht; [lia|]. cbn [x_merge_sort]. unfold it_position; cbn [it_pos].
    destruct (Z.eqb_spec (Z.of_nat a + 1) (Z.of_nat e)). { apply xwp_ret. split; [done|]. by exists l. }
    set (m := (a + e) / 2). unfold it_at. cbn [it_obj].
    replace (Z.shiftr (Z.of_nat a + Z.of_nat e) 1) with (Z.of_nat m) by (rewrite Z.shiftr_div_pow2 by lia; change (2 ^ 1)%Z with 2%Z; lia).
    apply xwp_bind. eapply xwp_mono; [apply (IH w l a m tmp HR); lia| |intros w' Hb; eapply broke_sub; [exact Hb|lia|lia]]. intros tmp1 w1 (Hlen1 & l1 & HR1 & P1). pose proof (perm_in_length _ _ _ _ P1) as L1.
    assert (perm_in a e l l1) as P1' by (eapply perm_in_mono; [exact P1|lia|lia]).
    apply xwp_bind. eapply xwp_mono; [apply (IH w1 l1 m e tmp1 HR1); lia| |intros w' Hb; eapply broke_trans; [exact P1'|]; eapply broke_sub; [exact Hb|lia|lia]]. intros tmp2 w2 (Hlen2 & l2 & HR2 & P2). pose proof (perm_in_length _ _ _ _ P2) as L2.
    assert (perm_in a e l l2) as P2' by (eapply perm_in_trans; [exact P1'|]; eapply perm_in_mono; [exact P2|lia|lia]).
    eapply xwp_mono; [apply (xmerge w2 l2 a m e tmp2 HR2); lia| |intros w'; by apply broke_trans]. intros tmp3 w3 (Hlen3 & HR3). split; [lia|]. by eapply moved_trans.
  Qed.

  (** NextPermutation with a comparison function that answers like one with the law *)
  Context (cmp : T → T → Z) (Hu : agrees_with u cmp) (Hanti : ∀ x y, (cmp x y < 0)%Z → (0 < cmp y x)%Z).
  Lemma xnp_scan fuel w l a b c : R w l → a <= c < b → b <= length l → c - a <= fuel →
    xwp (x_np_scan cat u fuel (at_ a) (Z.of_nat c - 1) (Z.of_nat c))
       (λ r w', w' = w ∧ ∃ c', r = ((Z.of_nat c' - 1)%Z, Z.of_nat c') ∧ a <= c' < b ∧
          (c' = a ∨ ∃ x y, a < c' ∧ l !! (c' - 1) = Some x ∧ l !! c' = Some y ∧ (cmp x y < 0)%Z)) (λ w', can_panic u ∧ w' = w) w.
  Proof using L Hu Hanti.
    intros HR. revert c. induction fuel as [|f IH]; intros c Hc Hb Hf; cbn [x_np_scan]; unfold it_position; cbn [it_pos].
    { destruct (Z.ltb_spec (Z.of_nat a) (Z.of_nat c)); [lia|]. apply xwp_ret. split; [done|]. exists c. split_and!; try done; try lia. }
    destruct (Z.ltb_spec (Z.of_nat a) (Z.of_nat c)).
    2:{ apply xwp_ret. split; [done|]. exists c. split_and!; try done; try lia. }
    unfold it_at. cbn [it_obj]. replace (Z.of_nat c - 1)%Z with (Z.of_nat (c - 1)) by lia.
    destruct (value_get _ _ _ o R L w l (c - 1) HR ltac:(lia)) as (x & Hx & Ex).
    destruct (value_get _ _ _ o R L w l c HR ltac:(lia)) as (y & Hy & Ey). x_step Ex. x_step Ey. apply (xwp_cmp_ag u cmp); [done|done|]. destruct (Z.leb_spec 0 (cmp x y)).
    - apply IH; lia.
    - apply xwp_ret. split; [done|]. exists c. replace (Z.of_nat (c - 1)) with (Z.of_nat c - 1)%Z by lia. split_and!; [done|lia|lia|]. right. exists x, y. split_and!; done || lia.
  Qed.
  Lemma xnp_find fuel w l a b p k c x y : R w l → b <= length l → p < c <= k → k < b → k - c <= fuel →
    l !! p = Some x → l !! c = Some y → (0 < cmp y x)%Z →
    xwp (x_np_find cat u fuel (at_ a) (Z.of_nat p) (Z.of_nat k)) (λ r w', w' = w ∧ ∃ k', r = Z.of_nat k' ∧ c <= k' < b) (λ w', can_panic u ∧ w' = w) w.
  Proof using L Hu Hanti.
    intros HR Hb. revert k. induction fuel as [|f IH]; intros k Hpc Hk Hf Hx Hy Hxy; cbn [x_np_find]; unfold it_at; cbn [it_obj].
    all: destruct (value_get _ _ _ o R L w l k HR ltac:(lia)) as (z & Hz & Ez); x_step Ez; x_step (value_ok _ _ _ o R L w l p x HR Hx); apply (xwp_cmp_ag u cmp); [done|done|].
    all: destruct (Z.leb_spec (cmp z x) 0).
    - assert (k = c) as -> by lia. simplify_eq. lia.
    - apply xwp_ret. split; [done|]. exists k. split; [done|lia].
    - destruct (decide (k = c)) as [->|]; [simplify_eq; lia|]. replace (Z.of_nat k - 1)%Z with (Z.of_nat (k - 1)) by lia. apply IH; try done; lia.
    - apply xwp_ret. split; [done|]. exists k. split; [done|lia].
  Qed.
  Lemma xnext_permutation w l a b : R w l → a <= b <= length l →
    xwp (x_next_permutation csize cat cset u (at_ a) (at_ b)) (λ r w', r = false ∧ w' = w ∨ r = true ∧ moved a b l w') (λ w', can_panic u ∧ w' = w) w.
  Proof using L Hu Hanti.
    intros HR Hab. unfold x_next_permutation, it_position, it_at. cbn [it_pos it_obj].
    replace (Z.of_nat a + (Z.of_nat b - Z.of_nat a) - 1)%Z with (Z.of_nat b - 1)%Z by lia. replace (Z.to_nat (Z.of_nat b - Z.of_nat a)) with (b - a) by lia.
    destruct (decide (a = b)) as [->|Hne].
    { apply xwp_bind. rewrite Nat.sub_diag. cbn [x_np_scan]. unfold it_position; cbn [it_pos]. destruct (Z.ltb_spec (Z.of_nat b) (Z.of_nat b - 1)); [lia|]. apply xwp_ret. cbv beta iota.
      destruct (Z.leb_spec (Z.of_nat b - 1) (Z.of_nat b)); [|lia]. apply xwp_ret. by left. }
    replace (Z.of_nat b - 1)%Z with (Z.of_nat (b - 1)) by lia. apply xwp_bind. eapply xwp_mono; [apply (xnp_scan _ w l a b (b - 1)); done || lia| |done].
    intros r w' (-> & c & -> & Hc & Hcase). cbv beta iota. destruct Hcase as [-> |(x & y & Hac & Hx & Hy & Hxy)].
    { destruct (Z.leb_spec (Z.of_nat a) (Z.of_nat a)); [|lia]. apply xwp_ret. by left. }
    destruct (Z.leb_spec (Z.of_nat c) (Z.of_nat a)); [lia|]. replace (Z.of_nat c - 1)%Z with (Z.of_nat (c - 1)) by lia. apply xwp_bind.
    eapply xwp_mono; [apply (xnp_find _ w l a b (c - 1) (b - 1) c x y); try done; try lia; by apply Hanti| |done]. intros r w' (-> & k & -> & Hk). apply xwp_run.
    destruct (swap_ok _ _ _ o R L w l k (c - 1) HR ltac:(lia) ltac:(lia)) as (w1 & E1 & HR1). wp_step E1. replace (Z.of_nat (c - 1) + 1)%Z with (Z.of_nat c) by lia. replace (Z.of_nat (b - 1)) with (Z.of_nat b - 1)%Z by lia.
    apply wp_bind. eapply wp_mono; [apply (np_reverse_any _ _ _ o R L cmp _ w1 (swapl l k (c - 1)) a b c b); rewrite ?swapl_length; done || lia|]. intros ? w2 (l2 & HR2 & P2). apply wp_ret. right. split; [done|]. exists l2. split; [done|].
    eapply perm_in_trans; [|exact P2]. apply perm_in_swap; lia.
  Qed.
End sort.

Section heap.
  Context {T C : Type} (u : user_cmp T C).
  Implicit Types l : list T.
  Arguments Nat.div : simpl never.
  Arguments Z.mul : simpl never.
  (** the first n elements have been rearranged, by a call that panics *)
  Definition hbroke n l l' : Prop := can_panic u ∧ rearr n l l'.
  Lemma hbroke_trans n l l1 l2 : rearr n l l1 → hbroke n l1 l2 → hbroke n l l2.
  Proof using. intros H [Hc Hr]. split; [done|]. by eapply rearr_trans. Qed.
  Lemma xless {B} l i j (f : bool → X (list T * C) B) Q (P : list T → Prop) : i < length l → j < length l → (can_panic u → P l) → (∀ b, xwp (f b) Q P l) → xwp (xbind (x_less u (Z.of_nat i) (Z.of_nat j)) f) Q P l.
  Proof using.
    intros Hi Hj HP H. destruct (lookup_lt_is_Some_2 l i Hi) as [x Hx]. destruct (lookup_lt_is_Some_2 l j Hj) as [y Hy]. apply xwp_bind. unfold x_less.
    eapply xwp_eq; [unfold h_at; by rewrite (idx_nat _ _ _ Hx)|]. eapply xwp_eq; [unfold h_at; by rewrite (idx_nat _ _ _ Hy)|]. apply xwp_cmp; [done|]. intros z. apply xwp_ret. apply H.
  Qed.
  Lemma xup fuel n j l : n <= length l → j < n → j <= fuel → xwp (x_up u fuel (Z.of_nat j)) (λ _, rearr n l) (hbroke n l) l.
  Proof using.
    revert j l. induction fuel as [|f IH]; intros j l Hn Hj Hf; cbn [x_up].
    { assert (j = 0) as -> by lia. apply xwp_ret. done. }
    destruct (decide (j = 0)) as [->|Hj0]. { apply xwp_ret. done. }
    set (i := (j - 1) / 2). replace (Z.of_nat j - 1)%Z with (Z.of_nat (j - 1)) by lia.
    replace (Z.quot (Z.of_nat (j - 1)) 2) with (Z.of_nat i) by (rewrite Z.quot_div_nonneg by lia; lia).
    destruct (Z.eqb_spec (Z.of_nat i) (Z.of_nat j)); [lia|]. apply xless; [lia|lia|done|]. intros b. destruct b; cbn [negb]; [|by apply xwp_ret].
    eapply xwp_eq; [apply h_swap_any; lia|]. assert (rearr n l (swapl l i j)) as Hs by (apply rearr_swap; lia).
    eapply xwp_mono; [apply IH; [rewrite swapl_length; lia|lia|lia]|intros ? l'; by apply rearr_trans|intros l'; by apply hbroke_trans].
  Qed.
  Lemma xdown_loop fuel n i l : n <= length l → i < n → n - i <= fuel → xwp (x_down_loop u fuel (Z.of_nat i) (Z.of_nat n)) (λ _, rearr n l) (hbroke n l) l.
  Proof using.
    revert i l. induction fuel as [|f IH]; intros i l Hn Hi Hf; [lia|]. cbn [x_down_loop].
    destruct (Z.leb_spec (Z.of_nat n) (2 * Z.of_nat i + 1)); [|destruct (Z.ltb_spec (2 * Z.of_nat i + 1) 0); [lia|]]; cbn [orb]. { by apply xwp_ret. }
    set (j1 := 2 * i + 1). set (j2 := 2 * i + 2). replace (2 * Z.of_nat i + 1)%Z with (Z.of_nat j1) by lia. replace (Z.of_nat j1 + 1)%Z with (Z.of_nat j2) by lia.
    assert (∀ j, j < n → i < j → xwp (let? ls := x_less u (Z.of_nat j) (Z.of_nat i) in if negb ls then xret (Z.of_nat i) else (xrun (h_swap (Z.of_nat i) (Z.of_nat j)) ;? x_down_loop u f (Z.of_nat j) (Z.of_nat n)))%x (λ _, rearr n l) (hbroke n l) l) as Hrest.
    { intros j Hjn Hij. apply xless; [lia|lia|done|]. intros b. destruct b; cbn [negb]; [|by apply xwp_ret].
      eapply xwp_eq; [apply h_swap_any; lia|]. assert (rearr n l (swapl l i j)) as Hs by (apply rearr_swap; lia).
      eapply xwp_mono; [apply IH; [rewrite swapl_length; lia|lia|lia]|intros ? l'; by apply rearr_trans|intros l'; by apply hbroke_trans]. }
    destruct (Z.ltb_spec (Z.of_nat j2) (Z.of_nat n)).
    - apply xless; [lia|lia|done|]. intros [|]; apply Hrest; lia.
    - apply xwp_bind, xwp_ret. cbv beta iota. apply Hrest; lia.
  Qed.
  Lemma xdown fuel n i l : n <= length l → (i < n ∨ n <= 2 * i + 1) → n - i <= fuel → xwp (x_down u fuel (Z.of_nat i) (Z.of_nat n)) (λ _, rearr n l) (hbroke n l) l.
  Proof using.
    intros Hn Hi Hf. unfold x_down. apply xwp_bind. destruct (decide (i < n)) as [Hlt|].
    - eapply xwp_mono; [by apply xdown_loop| |done]. intros z l' H. by apply xwp_ret.
    - destruct fuel; cbn [x_down_loop]; (destruct (Z.leb_spec (Z.of_nat n) (2 * Z.of_nat i + 1)); [|lia]); cbn [orb]; by repeat apply xwp_ret.
  Qed.
  Lemma xinit_loop c N l : length l = N → c <= N / 2 → xwp (x_init_loop u N c (Z.of_nat N)) (λ _, rearr N l) (hbroke N l) l.
  Proof using.
    revert l. induction c as [|c IH]; intros l Hlen Hc; cbn [x_init_loop]; [by apply xwp_ret|]. apply xwp_bind. eapply xwp_mono; [apply (xdown N N c l); [lia|left; lia|lia]| |done].
    intros b l1 H1. pose proof (rearr_length _ _ _ H1). eapply xwp_mono; [apply IH; lia|intros ? l'; by apply rearr_trans|intros l'; by apply hbroke_trans].
  Qed.
  Definition hperm l l' : Prop := can_panic u ∧ l' ≡ₚ l.
  Lemma xinit l : xwp (x_init u) (λ _ l', l' ≡ₚ l) (hperm l) l.
  Proof using.
    unfold x_init. eapply xwp_eq; [reflexivity|]. rewrite Nat2Z.id. eapply xwp_mono; [apply xinit_loop; done|intros ? l' H; apply H|intros l' [Hc H]; split; [done|apply H]].
  Qed.
  Lemma xpush l x : xwp (x_push u x) (λ _ l', l' ≡ₚ x :: l) (hperm (x :: l)) l.
  Proof using.
    unfold x_push. eapply xwp_eq; [reflexivity|]. eapply xwp_eq; [reflexivity|]. rewrite app_length. cbn [length]. replace (Z.of_nat (length l + 1) - 1)%Z with (Z.of_nat (length l)) by lia.
    assert (l ++ [x] ≡ₚ x :: l) as Hp by by rewrite Permutation_app_comm.
    eapply xwp_mono; [apply (xup _ (length l + 1)); [rewrite app_length; cbn; lia|lia|lia]|intros ? l' [H _]; by rewrite H|intros l' [Hc [H _]]; split; [done|by rewrite H]].
  Qed.
  Lemma xpop x t : xwp (x_pop u) (λ r l', r = x ∧ l' ≡ₚ t) (hperm (x :: t)) (x :: t).
  Proof using.
    set (l := x :: t). assert (l !! 0 = Some x) as Hx by done. unfold x_pop. eapply xwp_eq; [reflexivity|]. destruct (length l) as [|n] eqn:Hlen; [done|].
    replace (Z.of_nat (S n) - 1)%Z with (Z.of_nat n) by lia. replace (Z.to_nat (Z.of_nat (S n))) with (S n) by lia. change 0%Z with (Z.of_nat 0). eapply xwp_eq; [apply h_swap_any; lia|].
    assert (swapl l 0 n !! n = Some x) as Hx1 by (rewrite swapl_lookup by lia; by rewrite decide_True).
    apply xwp_bind. eapply xwp_mono; [apply (xdown (S n) n 0 (swapl l 0 n)); [rewrite swapl_length; lia|lia|lia]| |].
    - intros b l2 R2. pose proof (rearr_length _ _ _ R2) as L2. rewrite swapl_length in L2. apply xwp_run. destruct (pop_last_any (λ _ _ : T, 0%Z) l2 x n) as [E P]; [lia|destruct R2 as [_ ->]; [done|lia]|]. eapply wp_eq; [exact E|]. split; [done|].
      apply (Permutation_cons_inv (a := x)). rewrite <-P. destruct R2 as [-> _]. apply swapl_perm.
    - intros l2 [Hc [R2 _]]. split; [done|]. rewrite R2. apply swapl_perm.
  Qed.
  Lemma xremove l i x : l !! i = Some x → xwp (x_remove u (Z.of_nat i)) (λ r l', r = x ∧ l ≡ₚ x :: l') (hperm l) l.
  Proof using.
    intros Hx. pose proof (lookup_lt_Some _ _ _ Hx) as Hi. unfold x_remove. eapply xwp_eq; [reflexivity|].
    destruct (length l) as [|n] eqn:Hlen; [lia|]. replace (Z.of_nat (S n) - 1)%Z with (Z.of_nat n) by lia. replace (Z.to_nat (Z.of_nat (S n))) with (S n) by lia.
    destruct (Z.eqb_spec (Z.of_nat n) (Z.of_nat i)) as [Heq|Hne]; cbn [negb].
    - assert (i = n) as -> by lia. destruct (pop_last_any (λ _ _ : T, 0%Z) l x n Hlen Hx) as [E P]. apply xwp_run. eapply wp_eq; [exact E|]. done.
    - eapply xwp_eq; [apply h_swap_any; lia|]. assert (swapl l i n !! n = Some x) as Hx1 by (rewrite swapl_lookup by lia; by rewrite decide_True).
      apply xwp_bind. eapply xwp_mono; [apply (xdown (S n) n i (swapl l i n)); [rewrite swapl_length; lia|left; lia|lia]| |intros l2 [Hc [R2 _]]; split; [done|rewrite R2; apply swapl_perm]].
      intros b l2 R2. pose proof (rearr_length _ _ _ R2) as L2. rewrite swapl_length in L2. apply xwp_bind.
      assert (xwp (if b then xret tt else x_up u (S n) (Z.of_nat i)) (λ _, rearr n l2) (hbroke n l2) l2) as H by (destruct b; [by apply xwp_ret|apply xup; lia]).
      eapply xwp_mono; [exact H| |intros l3 [Hc [R3 _]]; split; [done|rewrite R3; destruct R2 as [-> _]; apply swapl_perm]].
      intros [] l3 R3. pose proof (rearr_length _ _ _ R3) as L3. destruct (pop_last_any (λ _ _ : T, 0%Z) l3 x n) as [E P]; [lia| |].
      { destruct R3 as [_ ->]; [|lia]. destruct R2 as [_ ->]; [done|lia]. }
      apply xwp_run. eapply wp_eq; [exact E|]. split; [done|]. rewrite <-P. destruct R3 as [-> _]. destruct R2 as [-> _]. by rewrite swapl_perm.
  Qed.
  Lemma xfix l i : i < length l → xwp (x_fix u (Z.of_nat i)) (λ _ l', l' ≡ₚ l) (hperm l) l.
  Proof using.
    intros Hi. unfold x_fix. eapply xwp_eq; [reflexivity|]. rewrite Nat2Z.id. apply xwp_bind. eapply xwp_mono; [apply (xdown (length l) (length l) i l); [lia|by left|lia]| |intros l2 [Hc [R2 _]]; by split].
    intros b l2 R2. pose proof (rearr_length _ _ _ R2) as L2. destruct b; [apply xwp_ret, R2|].
    eapply xwp_mono; [apply (xup (length l) (length l) i l2); lia|intros ? l3 [R3 _]; rewrite R3; apply R2|intros l3 [Hc [R3 _]]; split; [done|rewrite R3; apply R2]].
  Qed.
End heap.
