From Verif Require Import Base History GoSliceModel GoSliceProofs VectorModel VectorSpec.
Open Scope Z_scope.

Set Default Proof Using "Type zero grow".
Section proofs.
  Context {T : Type} (zero : T) (grow : nat → nat → nat).
  Implicit Types (w : world T) (ls : list (list T)).

  Definition v_rel w ls : Prop :=
    Forall2 (wf_slice (w_mem w)) (w_vecs w) ls ∧
    ∀ i j s t, w_vecs w !! i = Some s → w_vecs w !! j = Some t → i ≠ j → s_arr s ≠ s_arr t.

  Lemma rel_lookup w ls v l : v_rel w ls → ls !! v = Some l →
    ∃ s, w_vecs w !! v = Some s ∧ wf_slice (w_mem w) s l.
  Proof. intros [H _] Hl. destruct (Forall2_lookup_r _ _ _ _ _ H Hl) as (s & ? & ?). eauto. Qed.
  Lemma rel_lookup_None w ls v : v_rel w ls → ls !! v = None → w_vecs w !! v = None.
  Proof. intros [H _] Hl. apply lookup_ge_None. apply lookup_ge_None in Hl. apply Forall2_length in H. lia. Qed.

  Lemma rel_update w ls v s l m' s' l' : v_rel w ls → w_vecs w !! v = Some s → ls !! v = Some l →
    mem_step (s_arr s) (w_mem w) m' → wf_slice m' s' l' →
    (s_arr s' = s_arr s ∨ (m_next (w_mem w) <= s_arr s')%nat) →
    v_rel (MkWorld m' (<[v := s']> (w_vecs w))) (<[v := l']> ls).
  Proof.
    intros [H1 H2] Hs Hl Hstep Hwf Harr. assert (∀ i t, w_vecs w !! i = Some t → (s_arr t < m_next (w_mem w))%nat) as Hb.
    { intros i t Ht. destruct (Forall2_lookup_l _ _ _ _ _ H1 Ht) as (? & _ & (_ & ? & _)). done. }
    split; simpl.
    - apply Forall2_same_length_lookup. split; [rewrite !insert_length; by eapply Forall2_length|].
      intros i t lt. intros Ht Hlt. destruct (decide (i = v)) as [->|Hne].
      + rewrite list_lookup_insert in Ht by (by eapply lookup_lt_Some).
        rewrite list_lookup_insert in Hlt by (by eapply lookup_lt_Some). by simplify_eq.
      + rewrite list_lookup_insert_ne in Ht by done. rewrite list_lookup_insert_ne in Hlt by done. eapply (mem_step_other (w_mem w) m' (s_arr s)); [done|by eapply H2|].
        by eapply Forall2_lookup_lr.
    - intros i j t u Ht Hu Hij. pose proof (lookup_lt_Some _ _ _ Hs) as Hlen.
      destruct (decide (i = v)) as [->|Hi], (decide (j = v)) as [->|Hj]; try done.
      + rewrite list_lookup_insert in Ht by done. rewrite list_lookup_insert_ne in Hu by done. simplify_eq.
        destruct Harr as [->|Harr]; [by eapply H2|]. specialize (Hb _ _ Hu). lia.
      + rewrite list_lookup_insert in Hu by done. rewrite list_lookup_insert_ne in Ht by done. simplify_eq.
        destruct Harr as [->|Harr]; [by eapply H2|]. specialize (Hb _ _ Ht). lia.
      + rewrite list_lookup_insert_ne in Ht by done. rewrite list_lookup_insert_ne in Hu by done. by eapply H2.
  Qed.
  Lemma rel_mem w ls v s l m' l' : v_rel w ls → w_vecs w !! v = Some s → ls !! v = Some l →
    mem_step (s_arr s) (w_mem w) m' → wf_slice m' s l' →
    v_rel (MkWorld m' (w_vecs w)) (<[v := l']> ls).
  Proof.
    intros H Hs Hl H1 H2. rewrite <-(list_insert_id (w_vecs w) v s) by done.
    eapply rel_update; eauto.
  Qed.
  Lemma rel_new w ls m' s l : v_rel w ls → (∀ a, mem_step a (w_mem w) m') → wf_slice m' s l →
    (m_next (w_mem w) <= s_arr s)%nat → v_rel (MkWorld m' (w_vecs w ++ [s])) (ls ++ [l]).
  Proof.
    intros [H1 H2] Hstep Hwf Harr.
    assert (∀ i t, w_vecs w !! i = Some t → (s_arr t < m_next (w_mem w))%nat) as Hb.
    { intros i t Ht. destruct (Forall2_lookup_l _ _ _ _ _ H1 Ht) as (? & _ & (_ & ? & _)). done. }
    split; simpl.
    - apply Forall2_app; [|by constructor]. eapply Forall2_impl; [done|]. intros t lt Ht.
      eapply (mem_step_other _ _ (S (s_arr t))); [apply Hstep|lia|done].
    - intros i j t u Ht Hu Hij.
      apply lookup_app_Some in Ht as [Ht|[Hti Ht]], Hu as [Hu|[Huj Hu]].
      + by eapply H2.
      + apply list_lookup_singleton_Some in Hu as [? <-]. specialize (Hb _ _ Ht). lia.
      + apply list_lookup_singleton_Some in Ht as [? <-]. specialize (Hb _ _ Hu). lia.
      + apply list_lookup_singleton_Some in Ht as [? <-]. apply list_lookup_singleton_Some in Hu as [? <-]. lia.
  Qed.

  Lemma world0_rel : v_rel (world0 : world T) [].
  Proof. split; [constructor|]. intros i j s t H. by apply lookup_nil in H || done. Qed.

  (** shifting right *)
  Lemma shift_loop_ok cnt pos m s (l : list T) : wf_slice m s l → (pos + cnt < length l)%nat →
    ∃ m' l', shift_loop cnt (Z.of_nat (pos + cnt)) s m = Ok (tt, m') ∧ wf_slice m' s l' ∧ mem_step (s_arr s) m m' ∧
      length l' = length l ∧
      ∀ j, l' !! j = if decide (pos < j <= pos + cnt)%nat then l !! (j - 1)%nat else l !! j.
  Proof.
    revert m l. induction cnt as [|c IH]; intros m l Hwf Hlt; simpl.
    - exists m, l. split_and!; [done|done|apply mem_step_refl|done|]. intros j. by rewrite decide_False by lia.
    - unfold mbind_. destruct (lookup_lt_is_Some_2 l (pos + c) ltac:(lia)) as [x Hx].
      replace (Z.of_nat (pos + S c) - 1) with (Z.of_nat (pos + c)) by lia.
      rewrite (s_get_Some _ _ _ _ _ Hwf Hx).
      destruct (s_set_ok m s l (Z.of_nat (pos + S c)) x Hwf ltac:(lia)) as (m1 & -> & Hwf1 & Hs1 & _).
      rewrite Nat2Z.id in Hwf1.
      destruct (IH m1 _ Hwf1) as (m' & l' & -> & Hwf' & Hs' & Hl' & Hj); [rewrite insert_length; lia|].
      exists m', l'. split_and!; [done|done|by eapply mem_step_trans|by rewrite insert_length in Hl'|].
      intros j. rewrite Hj. destruct (decide (j = pos + S c)%nat) as [->|].
      + rewrite decide_False by lia. rewrite decide_True by lia. rewrite list_lookup_insert by lia.
        rewrite <-Hx. f_equal. lia.
      + destruct (decide (pos < j <= pos + c)%nat).
        * rewrite decide_True by lia. rewrite list_lookup_insert_ne by lia. done.
        * rewrite decide_False by lia. by rewrite list_lookup_insert_ne by lia.
  Qed.
  Lemma shift_insert (l l' : list T) pos x : (pos <= length l)%nat → length l' = S (length l) →
    (∀ j, l' !! j = if decide (pos < j <= length l)%nat then (l ++ [x]) !! (j - 1)%nat else (l ++ [x]) !! j) →
    <[pos := x]> l' = take pos l ++ x :: drop pos l.
  Proof.
    intros Hp Hl H. apply list_eq. intros j. destruct (Nat.lt_trichotomy j pos) as [Hj|[->|Hj]].
    - rewrite list_lookup_insert_ne by lia. rewrite H, decide_False by lia.
      rewrite lookup_app_l by lia. rewrite lookup_app_l by (rewrite take_length; lia). by rewrite lookup_take.
    - rewrite list_lookup_insert by lia. rewrite lookup_app_r by (rewrite take_length; lia).
      rewrite take_length. replace (pos - pos `min` length l)%nat with 0%nat by lia. done.
    - rewrite list_lookup_insert_ne by lia. rewrite (lookup_app_r (take pos l)) by (rewrite take_length; lia).
      rewrite take_length. replace (pos `min` length l)%nat with pos by lia.
      destruct (j - pos)%nat as [|k] eqn:E; [lia|]. simpl. rewrite lookup_drop, H.
      destruct (decide (pos < j <= length l)%nat).
      + rewrite lookup_app_l by lia. f_equal. lia.
      + rewrite !lookup_ge_None_2; [done|lia|rewrite app_length; simpl; lia].
  Qed.

  Definition good (o : v_op T) : Prop := True.

  Lemma in_range_false (l : list T) pos s m : wf_slice m s l →
    ((pos <? 0) || (len_ s <=? pos) = negb (in_range l pos)).
  Proof.
    intros H. apply wf_length in H. unfold in_range, len_. rewrite H.
    destruct (Z.ltb_spec pos 0), (Z.leb_spec (Z.of_nat (s_len s)) pos); simpl; case_bool_decide; try done; lia.
  Qed.

  Lemma v_at_ok w ls v l pos : v_rel w ls → ls !! v = Some l →
    v_at v pos w = match nth_ l pos with Some x => Ok (x, w) | None => Panic end.
  Proof.
    intros R Hl. destruct (rel_lookup _ _ _ _ R Hl) as (s & Hs & Hwf). unfold v_at, mbind_, data. rewrite Hs.
    rewrite (in_range_false _ _ _ _ Hwf). unfold nth_. destruct (in_range l pos) eqn:E; simpl; [|done].
    unfold lift. rewrite (s_get_ok _ _ _ _ Hwf). unfold in_range in E. apply bool_decide_eq_true in E.
    unfold idx. destruct (Z.leb_spec 0 pos), (Z.ltb_spec pos (Z.of_nat (length l))); simpl; try lia.
    destruct (lookup_lt_is_Some_2 l (Z.to_nat pos) ltac:(lia)) as [x ->]. by destruct w.
  Qed.

  Lemma v_set_at_ok w ls v l pos x : v_rel w ls → ls !! v = Some l →
    ∃ w', v_set_at v pos x w = Ok (tt, w') ∧ v_rel w' (<[v := if in_range l pos then <[Z.to_nat pos := x]> l else l]> ls).
  Proof.
    intros R Hl. destruct (rel_lookup _ _ _ _ R Hl) as (s & Hs & Hwf). unfold v_set_at, mbind_, data. rewrite Hs.
    rewrite (in_range_false _ _ _ _ Hwf). destruct (in_range l pos) eqn:E; simpl.
    - unfold in_range in E. apply bool_decide_eq_true in E. unfold lift.
      destruct (s_set_ok _ _ _ pos x Hwf E) as (m' & -> & ? & ? & ?). eexists. split; [done|]. by eapply rel_mem.
    - exists w. split; [done|]. by rewrite list_insert_id.
  Qed.

  Lemma v_push_ok w ls v l x : v_rel w ls → ls !! v = Some l →
    ∃ w', v_push_back zero grow v x w = Ok (tt, w') ∧ v_rel w' (<[v := l ++ [x]]> ls).
  Proof.
    intros R Hl. destruct (rel_lookup _ _ _ _ R Hl) as (s & Hs & Hwf). unfold v_push_back, mbind_, data, lift, set_data. rewrite Hs.
    destruct (s_append_ok zero grow _ _ _ [x] Hwf) as (s' & m' & -> & ? & ? & ?). eexists. split; [done|]. simpl.
    by eapply rel_update.
  Qed.

  Lemma v_insert_at_ok w ls v l pos x : v_rel w ls → ls !! v = Some l →
    ∃ w', v_insert_at zero grow v pos x w = Ok (tt, w') ∧ v_rel w' (<[v := ins l pos x]> ls).
  Proof.
    intros R Hl. destruct (rel_lookup _ _ _ _ R Hl) as (s & Hs & Hwf). unfold v_insert_at, mbind_, data, lift, set_data. rewrite Hs.
    pose proof (wf_length _ _ _ Hwf) as Hlen. unfold ins, len_.
    destruct (Z.ltb_spec pos 0), (Z.ltb_spec (Z.of_nat (s_len s)) pos); simpl;
      try (rewrite bool_decide_eq_false_2 by lia; exists w; split; [done|]; by rewrite list_insert_id).
    rewrite bool_decide_eq_true_2 by lia.
    destruct (s_append_ok zero grow _ _ _ [x] Hwf) as (s' & m1 & -> & Hwf1 & Hs1 & Harr). simpl.
    pose proof (wf_length _ _ _ Hwf1) as Hlen1. rewrite app_length in Hlen1. simpl in Hlen1.
    destruct (shift_loop_ok (Z.to_nat (Z.of_nat (s_len s') - 1 - pos)) (Z.to_nat pos) m1 s' (l ++ [x]) Hwf1) as (m2 & l2 & E2 & Hwf2 & Hs2 & Hl2 & Hj).
    { rewrite app_length. simpl. lia. }
    replace (Z.of_nat (Z.to_nat pos + Z.to_nat (Z.of_nat (s_len s') - 1 - pos))) with (Z.of_nat (s_len s') - 1) in E2 by lia.
    rewrite E2. simpl. rewrite app_length in Hl2. simpl in Hl2.
    destruct (s_set_ok m2 s' l2 pos x Hwf2) as (m3 & -> & Hwf3 & Hs3 & _); [lia|].
    eexists. split; [done|]. simpl.
    rewrite (shift_insert l l2 (Z.to_nat pos) x) in Hwf3; [|lia|lia|].
    - assert (mem_step (s_arr s') m1 m3) as Hs4 by (by eapply mem_step_trans).
      eapply rel_update; [done|done|done| |done|done].
      destruct Harr as [Heq|Hge]; [rewrite Heq in Hs4; by eapply mem_step_trans|by eapply mem_step_fresh].
    - intros j. rewrite Hj. replace (Z.to_nat pos + Z.to_nat (Z.of_nat (s_len s') - 1 - pos))%nat with (length l) by lia. done.
  Qed.

  Lemma v_erase_range_ok w ls v l first lst : v_rel w ls → ls !! v = Some l →
    ∃ w', v_erase_index_range zero grow v first lst w = Ok (tt, w') ∧ v_rel w' (<[v := del l first lst]> ls).
  Proof.
    intros R Hl. destruct (rel_lookup _ _ _ _ R Hl) as (s & Hs & Hwf). unfold v_erase_index_range, mbind_, data, lift, set_data. rewrite Hs.
    pose proof (wf_length _ _ _ Hwf) as Hlen. unfold del, len_.
    destruct (Z.ltb_spec lst first).
    { rewrite bool_decide_eq_false_2 by lia; exists w; split; [done|]; by rewrite list_insert_id. }
    destruct (Z.ltb_spec first 0), (Z.ltb_spec (Z.of_nat (s_len s)) lst); simpl;
      try (rewrite bool_decide_eq_false_2 by lia; exists w; split; [done|]; by rewrite list_insert_id).
    rewrite bool_decide_eq_true_2 by lia.
    destruct (s_to_ok _ _ _ first Hwf ltac:(lia)) as (lf & -> & Hwfl & Harr). simpl.
    destruct (s_from_vals _ _ _ lst Hwf ltac:(lia)) as (rt & -> & Hv). simpl.
    unfold s_append_slice. rewrite Hv.
    destruct (s_append_ok zero grow _ _ _ (drop (Z.to_nat lst) l) Hwfl) as (s' & m' & -> & ? & ? & ?).
    eexists. split; [done|]. simpl. rewrite Harr in *. by eapply rel_update.
  Qed.

  Lemma v_take_ok w ls v l s n : v_rel w ls → ls !! v = Some l → w_vecs w !! v = Some s → 0 <= n <= Z.of_nat (length l) →
    ∃ s', s_to s n (w_mem w) = Ok (s', w_mem w) ∧ v_rel (MkWorld (w_mem w) (<[v := s']> (w_vecs w))) (<[v := take (Z.to_nat n) l]> ls).
  Proof.
    intros R Hl Hs Hn. destruct (rel_lookup _ _ _ _ R Hl) as (s0 & Hs0 & Hwf). simplify_eq.
    destruct (s_to_ok _ _ _ n Hwf Hn) as (s' & E & ? & ?). exists s'. split; [done|].
    eapply rel_update; [done|done|done|apply mem_step_refl|done|auto].
  Qed.

  Lemma make_copy_ok w ls v l s cap :
    v_rel w ls → ls !! v = Some l → w_vecs w !! v = Some s → Z.of_nat (length l) <= cap →
    ∃ d m1 m', make_slice zero (Z.of_nat (s_len s)) cap (w_mem w) = Ok (d, m1) ∧
      copy_loop (s_len s) 0 d s m1 = Ok (tt, m') ∧ wf_slice m' d l ∧ (∀ a, mem_step a (w_mem w) m') ∧
      (m_next (w_mem w) <= s_arr d)%nat ∧ Z.of_nat (s_cap d) = cap.
  Proof.
    intros R Hl Hs Hc. destruct (rel_lookup _ _ _ _ R Hl) as (s0 & Hs0 & Hwf). simplify_eq.
    pose proof (wf_length _ _ _ Hwf) as Hlen.
    destruct (make_slice_ok zero (Z.of_nat (s_len s)) cap (w_mem w) ltac:(lia)) as (d & m1 & E1 & Hd & Hs1 & Ha & Hcap & Hlen').
    assert (s_arr s < m_next (w_mem w))%nat as Hlt by (by destruct Hwf as (_ & ? & _)).
    destruct (copy_loop_ok (s_len s) 0 m1 d (replicate (Z.to_nat (Z.of_nat (s_len s))) zero) s l Hd) as (m' & E2 & Hd2 & Hs2 & Hn2).
    - eapply (mem_step_other _ _ (S (s_arr s))); [apply Hs1|lia|done].
    - lia.
    - lia.
    - rewrite replicate_length. lia.
    - done.
    - exists d, m1, m'. split_and!; [done|done|done| |lia|done].
      intros a. eapply mem_step_fresh; [apply Hs1| |apply Hs2]. lia.
  Qed.

  Lemma nth_0 (l : list T) : nth_ l 0 = head l.
  Proof. unfold nth_, in_range. destruct l; [done|]. rewrite bool_decide_eq_true_2 by (simpl; lia). done. Qed.
  Lemma nth_last (l : list T) : nth_ l (Z.of_nat (length l) - 1) = last l.
  Proof.
    unfold nth_, in_range. rewrite last_lookup. destruct l as [|x l]; [done|].
    rewrite bool_decide_eq_true_2 by (simpl; lia). f_equal. simpl. lia.
  Qed.

  Lemma v_step_agrees o w ls : good o → v_rel w ls → agrees v_rel (v_step zero grow o w) (v_spec o ls).
  Proof.
    intros _ R.
    assert (∀ v, ls !! v = None → data v w = Panic) as HN.
    { intros v Hv. unfold data. by rewrite (rel_lookup_None _ _ _ R Hv). }
    destruct o as [c|v|v|v|v x|v pos x|v pos x|v pos|v first lst|v pos|v|v|v|v c|v|v|v n|v [i1 i2] x|v [i1 i2]|v [f1 f2] [l1 l2]];
      cbn [v_step v_spec]; unfold omap_; unfold agrees.
    - (* VNew *) unfold v_new. unfold mbind_. unfold lift. case_bool_decide as Hc.
      + destruct (make_slice_ok zero 0 c (w_mem w) ltac:(lia)) as (s & m' & -> & Hwf & Hs & Ha & _). simpl.
        assert (length ls = length (w_vecs w)) as -> by (destruct R as [R _]; by apply Forall2_length in R). eexists. split; [done|].
        apply rel_new; [done|done|done|lia].
      + unfold make_slice. simpl. destruct (Z.ltb_spec c 0); [done|lia].
    - (* VFrom *) destruct (ls !! v) as [l|] eqn:Hl; cbn [mbind option_bind]; unfold v_from, mbind_.
      + destruct (rel_lookup _ _ _ _ R Hl) as (s & Hs & Hwf). unfold data. rewrite Hs. unfold lift at 1.
        pose proof (wf_length _ _ _ Hwf). pose proof (wf_cap _ _ _ Hwf).
        destruct (make_copy_ok w ls v l s (Z.of_nat (s_cap s)) R Hl Hs ltac:(lia)) as (d & m1 & m' & E1 & E2 & Hd & Hst & Ha & _).
        unfold len_, cap_. rewrite E1. unfold new_vec. simpl. unfold lift. simpl. rewrite E2. simpl.
        assert (length ls = length (w_vecs w)) as -> by (destruct R as [R _]; by apply Forall2_length in R). eexists. split; [done|].
        by apply rel_new.
      + by rewrite HN.
    - (* VSize *) unfold v_size, mbind_. destruct (ls !! v) as [l|] eqn:Hl; cbn [mbind option_bind]; [|by rewrite HN].
      destruct (rel_lookup _ _ _ _ R Hl) as (s & Hs & Hwf). unfold data. rewrite Hs. simpl. exists w. split; [|done].
      unfold len_. by rewrite (wf_length _ _ _ Hwf).
    - (* VEmpty *) unfold v_empty, mbind_. destruct (ls !! v) as [l|] eqn:Hl; cbn [mbind option_bind]; [|by rewrite HN].
      destruct (rel_lookup _ _ _ _ R Hl) as (s & Hs & Hwf). unfold data. rewrite Hs. simpl. exists w. split; [|done].
      unfold len_, mret_. rewrite <-(wf_length _ _ _ Hwf). do 3 f_equal. destruct l; [done|]. done.
    - unfold mbind_. destruct (ls !! v) as [l|] eqn:Hl; cbn [mbind option_bind]; [|unfold v_push_back, mbind_; by rewrite HN].
      destruct (v_push_ok w ls v l x R Hl) as (w' & -> & ?). simpl. eauto.
    - unfold mbind_. destruct (ls !! v) as [l|] eqn:Hl; cbn [mbind option_bind]; [|unfold v_set_at, mbind_; by rewrite HN].
      destruct (v_set_at_ok w ls v l pos x R Hl) as (w' & -> & ?). simpl. eauto.
    - unfold mbind_. destruct (ls !! v) as [l|] eqn:Hl; cbn [mbind option_bind]; [|unfold v_insert_at, mbind_; by rewrite HN].
      destruct (v_insert_at_ok w ls v l pos x R Hl) as (w' & -> & ?). simpl. eauto.
    - unfold mbind_, v_erase_at. destruct (ls !! v) as [l|] eqn:Hl; cbn [mbind option_bind]; [|unfold v_erase_index_range, mbind_; by rewrite HN].
      destruct (v_erase_range_ok w ls v l pos (pos + 1) R Hl) as (w' & -> & ?). simpl. eauto.
    - unfold mbind_. destruct (ls !! v) as [l|] eqn:Hl; cbn [mbind option_bind]; [|unfold v_erase_index_range, mbind_; by rewrite HN].
      destruct (v_erase_range_ok w ls v l first lst R Hl) as (w' & -> & ?). simpl. eauto.
    - unfold mbind_. destruct (ls !! v) as [l|] eqn:Hl; cbn [mbind option_bind]; [|unfold v_at, mbind_; by rewrite HN].
      rewrite (v_at_ok w ls v l pos R Hl). destruct (nth_ l pos); simpl; [|done]. unfold mret_. eauto.
    - unfold mbind_, v_front. destruct (ls !! v) as [l|] eqn:Hl; cbn [mbind option_bind]; [|unfold v_at, mbind_; by rewrite HN].
      rewrite (v_at_ok w ls v l 0 R Hl), nth_0. destruct (head l); simpl; [|done]. unfold mret_. eauto.
    - unfold mbind_, v_back, v_size, mbind_. destruct (ls !! v) as [l|] eqn:Hl; cbn [mbind option_bind]; [|by rewrite HN].
      destruct (rel_lookup _ _ _ _ R Hl) as (s & Hs & Hwf). assert (data v w = Ok (s, w)) as -> by (unfold data; by rewrite Hs). unfold mret_, len_.
      rewrite <-(wf_length _ _ _ Hwf). rewrite (v_at_ok w ls v l _ R Hl), nth_last. destruct (last l); simpl; [|done]. eauto.
    - unfold v_pop_back, v_empty, v_back, v_size, mbind_, mret_. destruct (ls !! v) as [l|] eqn:Hl; cbn [mbind option_bind]; [|by rewrite HN].
      destruct (rel_lookup _ _ _ _ R Hl) as (s & Hs & Hwf). assert (data v w = Ok (s, w)) as -> by (unfold data; by rewrite Hs).
      unfold len_. rewrite <-(wf_length _ _ _ Hwf). destruct l as [|y l']; [done|]. remember (y :: l') as l.
      destruct (Z.eqb_spec (Z.of_nat (length l)) 0); [subst; simpl in *; lia|].
      assert (data v w = Ok (s, w)) as E by (unfold data; by rewrite Hs). rewrite E.
      rewrite <-(wf_length _ _ _ Hwf). rewrite (v_at_ok w ls v l _ R Hl), nth_last.
      destruct (last l) as [z|] eqn:Hlast; [|apply last_None in Hlast; by subst]. simpl.
      rewrite E. unfold lift. rewrite <-(wf_length _ _ _ Hwf).
      destruct (v_take_ok w ls v l s (Z.of_nat (length l) - 1) R Hl Hs ltac:(lia)) as (s' & -> & HR). simpl.
      eexists. split; [done|]. replace (length l - 1)%nat with (Z.to_nat (Z.of_nat (length l) - 1)) by lia. done.
    - unfold v_reserve, mbind_, mret_. destruct (ls !! v) as [l|] eqn:Hl; cbn [mbind option_bind]; [|by rewrite HN].
      destruct (rel_lookup _ _ _ _ R Hl) as (s & Hs & Hwf). assert (data v w = Ok (s, w)) as -> by (unfold data; by rewrite Hs).
      pose proof (wf_length _ _ _ Hwf). pose proof (wf_cap _ _ _ Hwf). unfold cap_, len_.
      destruct (Z.leb_spec c (Z.of_nat (s_cap s))); [simpl; eauto|].
      destruct (make_copy_ok w ls v l s c R Hl Hs ltac:(lia)) as (d & m1 & m' & E1 & E2 & Hd & Hst & Ha & _).
      unfold lift. rewrite E1. simpl. rewrite E2. simpl. eexists. split; [done|].
      rewrite <-(list_insert_id ls v l) by done. eapply rel_update; [done|done|done|apply Hst|done|by right].
    - unfold v_shrink_to_fit, mbind_, mret_. destruct (ls !! v) as [l|] eqn:Hl; cbn [mbind option_bind]; [|by rewrite HN].
      destruct (rel_lookup _ _ _ _ R Hl) as (s & Hs & Hwf). assert (data v w = Ok (s, w)) as -> by (unfold data; by rewrite Hs).
      pose proof (wf_length _ _ _ Hwf). pose proof (wf_cap _ _ _ Hwf). unfold cap_, len_.
      destruct (Z.eqb_spec (Z.of_nat (s_len s)) (Z.of_nat (s_cap s))); [simpl; eauto|].
      destruct (make_copy_ok w ls v l s (Z.of_nat (s_len s)) R Hl Hs ltac:(lia)) as (d & m1 & m' & E1 & E2 & Hd & Hst & Ha & _).
      unfold lift. rewrite E1. simpl. rewrite E2. simpl. eexists. split; [done|].
      rewrite <-(list_insert_id ls v l) by done. eapply rel_update; [done|done|done|apply Hst|done|by right].
    - unfold v_clear, mbind_, mret_. destruct (ls !! v) as [l|] eqn:Hl; cbn [mbind option_bind]; [|by rewrite HN].
      destruct (rel_lookup _ _ _ _ R Hl) as (s & Hs & Hwf). assert (data v w = Ok (s, w)) as -> by (unfold data; by rewrite Hs).
      unfold lift. destruct (v_take_ok w ls v l s 0 R Hl Hs ltac:(lia)) as (s' & -> & HR). simpl. eauto.
    - unfold v_resize, mbind_, mret_. destruct (ls !! v) as [l|] eqn:Hl; cbn [mbind option_bind]; [|by rewrite HN].
      destruct (rel_lookup _ _ _ _ R Hl) as (s & Hs & Hwf). assert (data v w = Ok (s, w)) as -> by (unfold data; by rewrite Hs).
      unfold len_. rewrite <-(wf_length _ _ _ Hwf). destruct (Z.leb_spec (Z.of_nat (length l)) n).
      + rewrite bool_decide_eq_true_2 by lia. simpl. eauto.
      + rewrite bool_decide_eq_false_2 by lia. unfold lift. case_bool_decide.
        * destruct (v_take_ok w ls v l s n R Hl Hs ltac:(lia)) as (s' & -> & HR). simpl. eauto.
        * unfold s_to. destruct (Z.leb_spec 0 n); [lia|]. done.
    - unfold v_insert, mbind_, mret_. cbn [fst snd]. destruct (ls !! v) as [l|] eqn:Hl; cbn [mbind option_bind]; [|unfold v_insert_at, mbind_; by rewrite HN].
      destruct (v_insert_at_ok w ls v l i2 x R Hl) as (w' & -> & ?). simpl. eauto.
    - unfold v_erase, v_erase_at, mbind_, mret_. cbn [fst snd]. destruct (ls !! v) as [l|] eqn:Hl; cbn [mbind option_bind]; [|unfold v_erase_index_range, mbind_; by rewrite HN].
      destruct (v_erase_range_ok w ls v l i2 (i2 + 1) R Hl) as (w' & -> & ?). simpl. eauto.
    - unfold v_erase_range, mbind_, mret_. cbn [fst snd]. destruct (ls !! v) as [l|] eqn:Hl; cbn [mbind option_bind]; [|unfold v_erase_index_range, mbind_; by rewrite HN].
      destruct (v_erase_range_ok w ls v l f2 l2 R Hl) as (w' & -> & ?). simpl. eauto.
  Qed.

  Lemma v_history ops : agrees v_rel (run (v_step zero grow) ops world0) (srun v_spec ops []).
  Proof.
    apply (run_agrees _ _ _ good); [apply v_step_agrees| |apply world0_rel]. apply Forall_forall. done.
  Qed.

  Lemma v_reach ops rs w : run (v_step zero grow) ops world0 = Ok (rs, w) →
    ∃ ls, srun v_spec ops [] = Some (rs, ls) ∧ v_rel w ls.
  Proof.
    intros E. pose proof (v_history ops) as H. unfold agrees in H. destruct (srun _ _ _) as [[rs' ls]|].
    - destruct H as (w' & E' & ?). rewrite E in E'. simplify_eq. eauto.
    - by rewrite E in H.
  Qed.

  Lemma v_spec_frame o ls r ls' v l : v_spec o ls = Some (r, ls') → v_target o ≠ Some v → ls !! v = Some l → ls' !! v = Some l.
  Proof.
    intros E Ht Hl. pose proof (lookup_lt_Some _ _ _ Hl).
    assert (∀ u x, Some u ≠ Some v → <[u := x]> ls !! v = Some l) as Hins.
    { intros u x Hu. rewrite list_lookup_insert_ne; [done|congruence]. }
    destruct o as [c|u|u|u|u x|u pos x|u pos x|u pos|u first lst|u pos|u|u|u|u c|u|u|u n|u [i1 i2] x|u [i1 i2]|u [f1 f2] [l1 l2]];
      simpl in *; repeat case_bool_decide; unfold put, ret in *;
      try (destruct (ls !! u) as [lu|] eqn:Hu; simpl in E; [|done]);
      try (destruct (nth_ lu pos); simpl in E; [|done]); try (destruct (head lu); simpl in E; [|done]);
      try (destruct (last lu); simpl in E; [|done]); repeat case_bool_decide; simplify_eq; auto.
    all: by rewrite lookup_app_l.
  Qed.

  Lemma v_srun_frame ops ls rs ls' v l : srun v_spec ops ls = Some (rs, ls') →
    Forall (fun o => v_target o ≠ Some v) ops → ls !! v = Some l → ls' !! v = Some l.
  Proof.
    revert ls rs. induction ops as [|o ops IH]; intros ls rs E HF Hl; simpl in E; [by simplify_eq|].
    apply Forall_cons in HF as [? ?]. destruct (v_spec o ls) as [[r ls1]|] eqn:E1; [|done].
    destruct (srun v_spec ops ls1) as [[rs1 ls2]|] eqn:E2; [|done]. simplify_eq.
    eapply IH; [done|done|]. by eapply v_spec_frame.
  Qed.

  Lemma v_run_agrees w ls ops : v_rel w ls → agrees v_rel (run (v_step zero grow) ops w) (srun v_spec ops ls).
  Proof. intros R. apply (run_agrees _ _ _ good); [apply v_step_agrees| |done]. apply Forall_forall. done. Qed.

  Lemma v_obs w ls v l : v_rel w ls → ls !! v = Some l →
    v_size v w = Ok (Z.of_nat (length l), w) ∧
    ∀ i, v_at v i w = match nth_ l i with Some x => Ok (x, w) | None => Panic end.
  Proof.
    intros R Hl. split; [|intros; by eapply v_at_ok]. unfold v_size, mbind_, data.
    destruct (rel_lookup _ _ _ _ R Hl) as (s & -> & Hwf). unfold mret_, len_. by rewrite (wf_length _ _ _ Hwf).
  Qed.

  Lemma v_cap_ok w ls v l : v_rel w ls → ls !! v = Some l →
    ∃ c, v_capacity v w = Ok (c, w) ∧ Z.of_nat (length l) <= c ∧
      (∀ n, ∃ w' c', v_reserve zero v n w = Ok (tt, w') ∧ v_capacity v w' = Ok (c', w') ∧ n <= c' ∧ c <= c' ∧ v_rel w' ls) ∧
      ∃ w', v_shrink_to_fit zero v w = Ok (tt, w') ∧ v_capacity v w' = Ok (Z.of_nat (length l), w') ∧ v_rel w' ls.
  Proof.
    intros R Hl. destruct (rel_lookup _ _ _ _ R Hl) as (s & Hs & Hwf).
    assert (data v w = Ok (s, w)) as Hd by (unfold data; by rewrite Hs).
    pose proof (wf_length _ _ _ Hwf). pose proof (wf_cap _ _ _ Hwf). pose proof (lookup_lt_Some _ _ _ Hs) as Hlt.
    unfold v_capacity, v_reserve, v_shrink_to_fit, mbind_, mret_, cap_, len_. rewrite Hd.
    exists (Z.of_nat (s_cap s)). split_and!; [done|lia| |].
    - intros n. destruct (Z.leb_spec n (Z.of_nat (s_cap s))).
      + exists w. eexists. split; [done|]. rewrite Hd. split_and!; done.
      + destruct (make_copy_ok w ls v l s n R Hl Hs ltac:(lia)) as (d & m1 & m' & E1 & E2 & Hd' & Hst & Ha & Hc).
        unfold lift. rewrite E1. simpl. rewrite E2. simpl. unfold set_data. simpl. do 2 eexists. split; [done|].
        unfold data. simpl. rewrite list_lookup_insert by done. split_and!; [done|lia|lia|].
        rewrite <-(list_insert_id ls v l) by done. eapply rel_update; [done|done|done|apply Hst|done|by right].
    - destruct (Z.eqb_spec (Z.of_nat (s_len s)) (Z.of_nat (s_cap s))) as [Heq|].
      + exists w. split; [done|]. rewrite Hd. split; [|done]. do 2 f_equal. lia.
      + destruct (make_copy_ok w ls v l s (Z.of_nat (s_len s)) R Hl Hs ltac:(lia)) as (d & m1 & m' & E1 & E2 & Hd' & Hst & Ha & Hc).
        unfold lift. rewrite E1. simpl. rewrite E2. simpl. unfold set_data. simpl. eexists. split; [done|].
        unfold data. simpl. rewrite list_lookup_insert by done. split; [do 2 f_equal; lia|].
        rewrite <-(list_insert_id ls v l) by done. eapply rel_update; [done|done|done|apply Hst|done|by right].
  Qed.
End proofs.
