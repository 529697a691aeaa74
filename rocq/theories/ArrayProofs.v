From Verif Require Import Base History GoSliceModel GoSliceProofs VectorModel VectorSpec VectorProofs ArrayModel ArraySpec.
Open Scope Z_scope.

Set Default Proof Using "Type zero".
Section proofs.
  Context {T : Type} (zero : T).
  Implicit Types (w : world T) (ls : list (list T)).
  Definition gr (a b : nat) : nat := 0%nat.

  Lemma nth_a_nth (l : list T) pos : nth_ l pos = a_nth l pos.
  Proof.
    unfold nth_, a_nth, in_range. case_bool_decide; case_bool_decide; try done; try lia.
    symmetry. apply lookup_ge_None. lia.
  Qed.

  Lemma fill_loop_ok cnt i m s (l : list T) x : wf_slice m s l → (i + cnt = length l)%nat →
    ∃ m', fill_loop cnt (Z.of_nat i) s x m = Ok (tt, m') ∧ wf_slice m' s (take i l ++ replicate cnt x) ∧ mem_step (s_arr s) m m'.
  Proof.
    revert i m l. induction cnt as [|c IH]; intros i m l Hwf Hi; simpl.
    - exists m. rewrite app_nil_r, firstn_all2 by lia. split_and!; [done|done|apply mem_step_refl].
    - unfold mbind_. destruct (s_set_ok m s l (Z.of_nat i) x Hwf ltac:(lia)) as (m1 & -> & Hwf1 & Hs1 & _).
      rewrite Nat2Z.id in Hwf1. replace (Z.of_nat i + 1) with (Z.of_nat (S i)) by lia.
      destruct (IH (S i) m1 _ Hwf1) as (m' & -> & Hwf' & Hs'); [rewrite insert_length; lia|].
      exists m'. split_and!; [done| |by eapply mem_step_trans].
      rewrite (take_S_r _ _ x) in Hwf' by (by rewrite list_lookup_insert by lia).
      rewrite take_insert in Hwf' by lia. by rewrite <-app_assoc in Hwf'.
  Qed.

  Lemma rel_swap w ls a b s t l k : v_rel w ls → w_vecs w !! a = Some s → w_vecs w !! b = Some t →
    ls !! a = Some l → ls !! b = Some k →
    v_rel (MkWorld (w_mem w) (<[b := s]> (<[a := t]> (w_vecs w)))) (<[b := l]> (<[a := k]> ls)).
  Proof.
    intros [H1 H2] Hs Ht Hl Hk. pose proof (lookup_lt_Some _ _ _ Hs). pose proof (lookup_lt_Some _ _ _ Ht).
    pose proof (Forall2_length _ _ _ H1) as Hlen.
    assert (wf_slice (w_mem w) s l) by (by eapply Forall2_lookup_lr).
    assert (wf_slice (w_mem w) t k) by (by eapply Forall2_lookup_lr).
    split; simpl.
    - apply Forall2_same_length_lookup. split; [by rewrite !insert_length|]. intros i x y.
      destruct (decide (i = b)) as [->|Hb].
      + rewrite !list_lookup_insert by (rewrite insert_length; lia). naive_solver.
      + rewrite !(list_lookup_insert_ne _ b) by done. destruct (decide (i = a)) as [->|Ha].
        * rewrite !list_lookup_insert by lia. naive_solver.
        * rewrite !list_lookup_insert_ne by done. intros ? ?. by eapply Forall2_lookup_lr.
    - assert (∀ i x, <[b := s]> (<[a := t]> (w_vecs w)) !! i = Some x →
        w_vecs w !! (if decide (i = b) then a else if decide (i = a) then b else i) = Some x) as Hlook.
      { intros i x. destruct (decide (i = b)) as [->|Hb].
        - rewrite list_lookup_insert by (rewrite insert_length; lia). naive_solver.
        - rewrite (list_lookup_insert_ne _ b) by done. destruct (decide (i = a)) as [->|Ha].
          + rewrite list_lookup_insert by lia. naive_solver.
          + by rewrite list_lookup_insert_ne. }
      intros i j x y Hx Hy Hij. apply Hlook in Hx. apply Hlook in Hy. eapply H2; [exact Hx|exact Hy|].
      repeat case_decide; congruence.
  Qed.

  Lemma a_at_v_at a pos w : a_at a pos w = v_at a pos w.
  Proof. done. Qed.

  Lemma a_step_agrees o w ls : v_rel w ls → agrees v_rel (a_step zero o w) (a_spec zero o ls).
  Proof.
    intros R.
    assert (∀ v, ls !! v = None → data v w = Panic) as HN.
    { intros v Hv. unfold data. by rewrite (rel_lookup_None zero gr _ _ _ R Hv). }
    destruct o as [n|a|a x|a pos x|a pos|a|a|a|a|a b]; cbn [a_step a_spec]; unfold amap_; unfold agrees.
    - unfold a_new, mbind_, lift. case_bool_decide.
      + destruct (make_slice_ok zero n n (w_mem w) ltac:(lia)) as (s & m' & -> & Hwf & Hs & Ha & _). simpl.
        assert (length ls = length (w_vecs w)) as -> by (destruct R as [R _]; by apply Forall2_length in R).
        eexists. split; [done|]. apply (rel_new zero gr); [done|done|done|lia].
      + unfold make_slice. destruct (Z.ltb_spec n 0); [done|lia].
    - destruct (ls !! a) as [l|] eqn:Hl; cbn [mbind option_bind]; unfold a_from, mbind_; [|by rewrite HN].
      destruct (rel_lookup zero gr _ _ _ _ R Hl) as (s & Hs & Hwf). unfold data. rewrite Hs. unfold lift at 1.
      pose proof (wf_length _ _ _ Hwf).
      destruct (make_copy_ok zero gr w ls a l s (Z.of_nat (s_len s)) R Hl Hs ltac:(lia)) as (d & m1 & m' & E1 & E2 & Hd & Hst & Ha & _).
      unfold len_, cap_. rewrite E1. unfold new_vec. simpl. unfold lift. simpl. rewrite E2. simpl.
      assert (length ls = length (w_vecs w)) as -> by (destruct R as [R _]; by apply Forall2_length in R).
      eexists. split; [done|]. by apply (rel_new zero gr).
    - unfold a_fill, mbind_, mret_. destruct (ls !! a) as [l|] eqn:Hl; cbn [mbind option_bind]; [|by rewrite HN].
      destruct (rel_lookup zero gr _ _ _ _ R Hl) as (s & Hs & Hwf). assert (data a w = Ok (s, w)) as -> by (unfold data; by rewrite Hs).
      unfold lift. pose proof (wf_length _ _ _ Hwf) as Hlen.
      destruct (fill_loop_ok (s_len s) 0 (w_mem w) s l x Hwf) as (m' & E & Hwf' & Hst); [lia|].
      change (Z.of_nat 0) with 0 in E. rewrite E. eexists. split; [done|]. simpl in Hwf'. rewrite <-Hlen in Hwf'.
      by eapply (rel_mem zero gr).
    - unfold mbind_. destruct (ls !! a) as [l|] eqn:Hl; cbn [mbind option_bind]; [|unfold a_set, mbind_; by rewrite HN].
      destruct (v_set_at_ok zero gr w ls a l pos x R Hl) as (w' & E & HR).
      change (a_set a pos x w) with (v_set_at a pos x w). rewrite E. unfold mret_. eexists. split; [done|].
      unfold in_range in HR. case_bool_decide as H1; case_bool_decide as H2; try done; try lia.
      rewrite (list_insert_ge l) by lia. done.
    - unfold mbind_. destruct (ls !! a) as [l|] eqn:Hl; cbn [mbind option_bind]; [|unfold a_at, mbind_; by rewrite HN].
      rewrite a_at_v_at, (v_at_ok zero gr w ls a l pos R Hl), nth_a_nth. destruct (a_nth l pos); simpl; [|done]. unfold mret_. eauto.
    - unfold mbind_, a_front. destruct (ls !! a) as [l|] eqn:Hl; cbn [mbind option_bind]; [|unfold a_at, mbind_; by rewrite HN].
      rewrite a_at_v_at, (v_at_ok zero gr w ls a l 0 R Hl), (nth_0 zero gr). destruct (head l); simpl; [|done]. unfold mret_. eauto.
    - unfold mbind_, a_back, mbind_. destruct (ls !! a) as [l|] eqn:Hl; cbn [mbind option_bind]; [|by rewrite HN].
      destruct (rel_lookup zero gr _ _ _ _ R Hl) as (s & Hs & Hwf). assert (data a w = Ok (s, w)) as -> by (unfold data; by rewrite Hs).
      unfold mret_, len_. rewrite a_at_v_at.
      rewrite <-(wf_length _ _ _ Hwf). rewrite (v_at_ok zero gr w ls a l _ R Hl), (nth_last zero gr). destruct (last l); simpl; [|done]. eauto.
    - unfold a_size, mbind_. destruct (ls !! a) as [l|] eqn:Hl; cbn [mbind option_bind]; [|by rewrite HN].
      destruct (rel_lookup zero gr _ _ _ _ R Hl) as (s & Hs & Hwf). unfold data. rewrite Hs. simpl. exists w. split; [|done].
      unfold len_. by rewrite (wf_length _ _ _ Hwf).
    - unfold a_empty, mbind_. destruct (ls !! a) as [l|] eqn:Hl; cbn [mbind option_bind]; [|by rewrite HN].
      destruct (rel_lookup zero gr _ _ _ _ R Hl) as (s & Hs & Hwf). unfold data. rewrite Hs. simpl. exists w. split; [|done].
      unfold len_, mret_. rewrite <-(wf_length _ _ _ Hwf). do 3 f_equal. destruct l; done.
    - unfold a_swap, mbind_, mret_. destruct (ls !! a) as [l|] eqn:Hl; cbn [mbind option_bind]; [|by rewrite HN].
      destruct (rel_lookup zero gr _ _ _ _ R Hl) as (s & Hs & Hwf). assert (data a w = Ok (s, w)) as -> by (unfold data; by rewrite Hs).
      destruct (ls !! b) as [k|] eqn:Hk; cbn [mbind option_bind]; [|by rewrite HN].
      destruct (rel_lookup zero gr _ _ _ _ R Hk) as (t & Ht & Hwt). assert (data b w = Ok (t, w)) as -> by (unfold data; by rewrite Ht).
      unfold len_. rewrite <-(wf_length _ _ _ Hwf), <-(wf_length _ _ _ Hwt).
      destruct (Z.eqb_spec (Z.of_nat (length l)) (Z.of_nat (length k))); simpl.
      + rewrite bool_decide_eq_true_2 by lia. unfold set_data. simpl. eexists. split; [done|]. by apply rel_swap.
      + rewrite bool_decide_eq_false_2 by lia. eauto.
  Qed.

  Lemma a_history ops : agrees v_rel (run (a_step zero) ops world0) (srun (a_spec zero) ops []).
  Proof.
    apply (run_agrees _ _ _ (fun _ => True)); [intros; by apply a_step_agrees| |apply (world0_rel zero gr)]. apply Forall_forall. done.
  Qed.
  Lemma a_obs w ls a l : v_rel w ls → ls !! a = Some l →
    a_size a w = Ok (Z.of_nat (length l), w) ∧
    ∀ i, a_at a i w = match a_nth l i with Some x => Ok (x, w) | None => Panic end.
  Proof.
    intros R Hl. destruct (v_obs zero gr w ls a l R Hl) as [H1 H2]. split; [done|].
    intros i. rewrite a_at_v_at, H2, nth_a_nth. done.
  Qed.

  Lemma a_spec_len o ls r ls' a l : a_spec zero o ls = Some (r, ls') → ls !! a = Some l →
    ∃ l', ls' !! a = Some l' ∧ length l' = length l.
  Proof.
    intros E Hl. pose proof (lookup_lt_Some _ _ _ Hl) as Hlt.
    assert (∀ b l1 l2, ls !! b = Some l1 → length l2 = length l1 → ∃ l', <[b := l2]> ls !! a = Some l' ∧ length l' = length l) as Hins.
    { intros b l1 l2 Hb Hlen. destruct (decide (b = a)) as [->|].
      - rewrite list_lookup_insert by done. exists l2. split; [done|]. congruence.
      - rewrite list_lookup_insert_ne by done. eauto. }
    destruct o as [n|u|u x|u pos x|u pos|u|u|u|u|u b]; simpl in *; repeat case_bool_decide; simplify_eq;
      try (destruct (ls !! u) as [lu|] eqn:Hu; simpl in E; [|done]);
      try (destruct (a_nth lu pos); simpl in E; [|done]); try (destruct (head lu); simpl in E; [|done]);
      try (destruct (last lu); simpl in E; [|done]);
      try (destruct (ls !! b) as [lb|] eqn:Hb; simpl in E; [|done]); repeat case_bool_decide; simplify_eq; eauto.
    - rewrite lookup_app_l by done. eauto.
    - rewrite lookup_app_l by done. eauto.
    - eapply Hins; [done|]. by rewrite replicate_length.
    - eapply Hins; [done|]. by rewrite insert_length.
    - destruct (decide (b = a)) as [->|].
      + rewrite list_lookup_insert by (by rewrite insert_length). exists lu. split; [done|]. congruence.
      + rewrite list_lookup_insert_ne by done. eapply Hins; [done|done].
  Qed.
  Lemma a_srun_len ops ls rs ls' a l : srun (a_spec zero) ops ls = Some (rs, ls') → ls !! a = Some l →
    ∃ l', ls' !! a = Some l' ∧ length l' = length l.
  Proof.
    revert ls rs l. induction ops as [|o ops IH]; intros ls rs l E Hl; simpl in E; [simplify_eq; eauto|].
    destruct (a_spec zero o ls) as [[r ls1]|] eqn:E1; [|done].
    destruct (srun (a_spec zero) ops ls1) as [[rs1 ls2]|] eqn:E2; [|done]. simplify_eq.
    destruct (a_spec_len _ _ _ _ _ _ E1 Hl) as (l1 & H1 & H2). destruct (IH _ _ _ E2 H1) as (l' & ? & ?).
    exists l'. split; [done|congruence].
  Qed.
  Lemma a_run_rel ops w ls : v_rel w ls → agrees v_rel (run (a_step zero) ops w) (srun (a_spec zero) ops ls).
  Proof. intros R. apply (run_agrees _ _ _ (fun _ => True)); [intros; by apply a_step_agrees| |done]. apply Forall_forall. done. Qed.
  Lemma a_size_const ops more rs w rs' w' a n :
    run (a_step zero) ops world0 = Ok (rs, w) → run (a_step zero) more w = Ok (rs', w') →
    a_size a w = Ok (n, w) → a_size a w' = Ok (n, w').
  Proof.
    intros E E' Hn. pose proof (a_history ops) as H. unfold agrees in H.
    destruct (srun _ _ _) as [[rs1 ls]|]; [|by rewrite E in H]. destruct H as (w1 & E1 & R). rewrite E in E1. simplify_eq.
    pose proof (a_run_rel more w1 ls R) as H. unfold agrees in H.
    destruct (srun _ _ _) as [[rs2 ls']|] eqn:Es; [|by rewrite E' in H]. destruct H as (w2 & E2 & R'). rewrite E' in E2. simplify_eq.
    destruct (ls !! a) as [l|] eqn:Hl.
    - destruct (a_srun_len _ _ _ _ _ _ Es Hl) as (l' & Hl' & Hlen).
      destruct (a_obs _ _ _ _ R Hl) as [O _]. destruct (a_obs _ _ _ _ R' Hl') as [O' _].
      rewrite O in Hn. simplify_eq. by rewrite O', Hlen.
    - unfold a_size, mbind_, data in Hn. by rewrite (rel_lookup_None zero gr _ _ _ R Hl) in Hn.
  Qed.
End proofs.
