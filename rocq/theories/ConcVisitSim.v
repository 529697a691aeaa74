(** Nested read locks do not matter for what an execution returns: each execution with them is matched
    by one in which Traversal's visitor takes no locks. *)
From Verif Require Import Base History ConcModel ConcSpec ConcProofs ConcProps ConcVisitModel ConcVisit.

Section sim.
  Context {S O R : Type} (lock : O → mode) (body : O → prog S R).
  (** the visitor's calls without their locks (and, to be total, without any writes) *)
  Fixpoint alone (v : script S O R) : prog S R :=
    match v with
    | VRet r => PDone r
    | VAct w k => PAct id (λ s, alone (k s))
    | VCall o k => match lock o with
                   | Rd => PAct id (λ _, bindp (body o) (λ r, PAct id (λ _, alone (k r))))
                   | Wr => PAct id (λ s, alone (k (exec (body o) s).1)) end
    end.
  Definition alock (c : vcall S O R) : mode := match c with VMethod o => lock o | VTraversal _ => Rd end.
  Definition abody (c : vcall S O R) : prog S R := match c with VMethod o => body o | VTraversal v => alone v end.
  Context (Hplain : ∀ o, plain (body o)) (Hread : ∀ o, lock o = Rd → reading (body o)).
  Lemma reading_bind (q : prog S R) (k : R → prog S R) : reading q → (∀ r, reading (k r)) → reading (bindp q k).
  Proof using. intros Hq Hk. revert Hq. induction q as [r|w q IH| | | | |]; intros Hq; try done; [apply Hk|]. intros s. split; [apply Hq|]. by apply IH, Hq. Qed.
  Lemma alone_reading v : reading (alone v).
  Proof using Hread.
    induction v as [r|w v IH|o v IH]; cbn [alone]; [done | intros s; split; [done | apply IH]|]. destruct (lock o) eqn:E; intros s; (split; [done|]).
    - apply reading_bind; [by apply Hread|]. intros r s'. split; [done | apply IH].
    - apply IH.
  Qed.
  Lemma abody_plain c : plain (abody c). Proof using Hplain Hread. destruct c; [apply Hplain | apply reading_plain, alone_reading]. Qed.
  Lemma abody_reading c : alock c = Rd → reading (abody c). Proof using Hread. destruct c; [apply Hread | intros _; apply alone_reading]. Qed.

  (** p with n read locks held, and what matches it *)
  Inductive er : nat → prog S R → prog S R → Prop :=
  | er_done r : er 0 (PDone r) (PDone r)
  | er_act n w w' k k' : (∀ s, w s = w' s) → (∀ s, er n (k s) (k' s)) → er n (PAct w k) (PAct w' k')
  | er_rlock p p' : er 1 p p' → er 0 (PRLock 0 p) (PRLock 0 p')
  | er_rlock_in n p p' : er (2 + n) p p' → er (1 + n) (PRLock 0 p) (PAct id (λ _, p'))
  | er_runlock p p' : er 0 p p' → er 1 (PRUnlock 0 p) (PRUnlock 0 p')
  | er_runlock_in n p p' : er (1 + n) p p' → er (2 + n) (PRUnlock 0 p) (PAct id (λ _, p'))
  | er_lock p p' : er 0 p p' → er 0 (PLock 0 p) (PLock 0 p')
  | er_locking p p' : er 0 p p' → er 0 (PLocking 0 p) (PLocking 0 p')
  | er_unlock p p' : er 0 p p' → er 0 (PUnlock 0 p) (PUnlock 0 p').
  Lemma er_plain n (q : prog S R) (k k' : R → prog S R) : plain q → (∀ r, er n (k r) (k' r)) → er n (bindp q k) (bindp q k').
  Proof using. intros Hq Hk. revert Hq. induction q as [r|w q IH| | | | |]; intros Hq; try done; [apply Hk|]. cbn. constructor; [done|]. intros s. by apply IH. Qed.
  Lemma er_bind2 n (q : prog S R) (a b a' b' : R → prog S R) : plain q → (∀ r, er n (bindp (a r) b) (bindp (a' r) b')) → er n (bindp (bindp q a) b) (bindp (bindp q a') b').
  Proof using. intros Hq Hk. revert Hq. induction q as [r|w q IH| | | | |]; intros Hq; try done; [apply Hk|]. cbn. constructor; [done|]. intros s. by apply IH. Qed.
  Lemma er_bind3 n (q : prog S R) (x a b a' b' : R → prog S R) : plain q → (∀ r, er n (bindp (bindp (x r) a) b) (bindp (a' r) b')) → er n (bindp (bindp (bindp q x) a) b) (bindp (bindp q a') b').
  Proof using. intros Hq Hk. revert Hq. induction q as [r|w q IH| | | | |]; intros Hq; try done; [apply Hk|]. cbn. constructor; [done|]. intros s. by apply IH. Qed.
  Lemma er_expand v n (k k' : R → prog S R) : callbacks_read lock v → (∀ r, er (1 + n) (k r) (k' r)) → er (1 + n) (bindp (expand lock body v) k) (bindp (alone v) k').
  Proof using Hplain.
    intros Hv Hk. induction v as [r|w v IH|o v IH]; cbn [expand alone bindp].
    - apply Hk.
    - constructor; [intros s; apply Hv|]. intros s. apply IH, Hv.
    - destruct Hv as [Ho Hv]. unfold guarded, locked. rewrite Ho. cbn [bindp]. apply er_rlock_in. apply er_bind3; [apply Hplain|]. intros r. cbn [bindp]. apply er_runlock_in. by apply IH.
  Qed.
  Definition good (c : vcall S O R) : Prop := match c with VMethod _ => True | VTraversal v => callbacks_read lock v end.
  Lemma er_method c : good c → er 0 (vmethod lock body c) (guarded alock abody c).
  Proof using Hplain.
    destruct c as [o|v]; cbn [good vmethod]; intros Hg; unfold guarded; cbn [alock abody].
    - unfold locked. destruct (lock o).
      + apply er_rlock, er_plain; [apply Hplain|]. intros r. apply er_runlock, er_done.
      + apply er_lock, er_plain; [apply Hplain|]. intros r. apply er_unlock, er_done.
    - cbn [locked]. apply er_rlock. apply (er_expand v 0); [done|]. intros r. apply er_runlock, er_done.
  Qed.

  Notation vm := (vmethod lock body).
  Notation am := (guarded alock abody).
  Record matches (D : list nat) (c c' : config S R) : Prop := {
    mt_mem : mem c = mem c';
    mt_real : lks c 0%nat = MkRw (length D) (rw_writer (lks c' 0%nat));
    mt_readers : rw_readers (lks c' 0%nat) = size (list_to_set D : gset nat);
    mt_calls : ∀ i, match calls c !! i, calls c' !! i with
      | None, None | Some Returned, Some Returned => held i D = 0%nat
      | Some (Running p), Some (Running p') => er (held i D) p p'
      | _, _ => False end;
  }.
  Lemma matches_move D D' s f cs s' f' cs' i p p' m m' g g' q q' :
    matches D (MkCfg s f cs) (MkCfg s' f' cs') → cs !! i = Some (Running p) → cs' !! i = Some (Running p') →
    m = m' → g 0%nat = MkRw (length D') (rw_writer (g' 0%nat)) → rw_readers (g' 0%nat) = size (list_to_set D' : gset nat) →
    (∀ j, j ≠ i → held j D' = held j D) → er (held i D') q q' → matches D' (MkCfg m g (<[i := Running q]> cs)) (MkCfg m' g' (<[i := Running q']> cs')).
  Proof using.
    intros [H1 H2 H3 H4] Hi Hi' Hm Hg Hg' Hj Hq. split; cbn in *; [done..|]. intros j. destruct (decide (j = i)) as [->|Hne].
    - by rewrite !lookup_insert. - rewrite !lookup_insert_ne by done. rewrite Hj by done. apply H4.
  Qed.
  Lemma size_held D i : (i ∈ D → size (list_to_set (i :: D) : gset nat) = size (list_to_set D : gset nat)) ∧
                        (i ∉ D → size (list_to_set (i :: D) : gset nat) = Datatypes.S (size (list_to_set D : gset nat))).
  Proof using.
    clear. split; intros H; cbn.
    - f_equal. set_solver. - rewrite size_union by set_solver. rewrite size_singleton. done.
  Qed.
  Lemma size_perm D D' : D ≡ₚ D' → size (list_to_set D : gset nat) = size (list_to_set D' : gset nat).
  Proof using. clear. intros H. f_equal. set_unfold. intros x. by rewrite H. Qed.
  Lemma matches_step D c1 d1 c2 : matches D c1 d1 → mstep vm c1 None c2 → ∃ D' d2, matches D' c2 d2 ∧ mstep am d1 None d2.
  Proof using.
    intros Hm Hst. inversion Hst as [|s f cs i p p' s' f' Hi Hp|]; subst. destruct d1 as [ds df dcs]. pose proof (mt_mem _ _ _ Hm) as E. cbn in E. subst ds.
    pose proof (mt_real _ _ _ Hm) as Hl. pose proof (mt_readers _ _ _ Hm) as Hr. pose proof (mt_calls _ _ _ Hm i) as Hc. cbn in Hl, Hr, Hc. rewrite Hi in Hc.
    destruct (dcs !! i) as [[q|]|] eqn:Hdi; [|done..].
    assert (∃ b, df 0%nat = MkRw (size (list_to_set D : gset nat)) b) as [b Hdf]. { destruct (df 0%nat) as [r b]. cbn in Hr. subst r. eauto. } rewrite Hdf in Hl, Hr. cbn in Hl.
    inversion Hp; subst.
    - (* a memory step *)
      inversion Hc as [|? ? ? ? ? Hw Hk| | | | | | |]; subst. exists D. eexists. split; [|eapply ms_step; [exact Hdi | constructor]].
      eapply matches_move; [done | done | done | | cbn; rewrite Hdf; done | cbn; rewrite Hdf; done | done | apply Hk]. apply Hw.
    - (* RLock *)
      inversion Hc as [| |? ? Hk|? ? ? Hk Hn| | | | |]; subst.
      + rewrite Hl in H. injection H as En ->. exists (i :: D). eexists. assert (i ∉ D) as Hni by (rewrite <- held_elem; lia).
        split; [|eapply ms_step; [exact Hdi | apply ps_rlock; exact Hdf]]. eapply matches_move; [done | done | done | done | | | |].
        * rewrite !set_lock_same. cbn. by rewrite <- En. * rewrite set_lock_same. cbn [rw_readers]. by rewrite (proj2 (size_held D i) Hni).
        * intros j Hj. by rewrite held_cons, decide_False by done. * rewrite held_cons, decide_True by done. by replace (held i D) with 0%nat by done.
      + rewrite Hl in H. injection H as En ->. exists (i :: D). eexists. assert (i ∈ D) as Hin by (apply held_elem; lia).
        split; [|eapply ms_step; [exact Hdi | constructor]]. eapply matches_move; [done | done | done | done | | | |].
        * rewrite set_lock_same, Hdf. cbn. by rewrite <- En. * rewrite Hdf. cbn [rw_readers]. by rewrite (proj1 (size_held D i) Hin).
        * intros j Hj. by rewrite held_cons, decide_False by done. * rewrite held_cons, decide_True by done. by rewrite <- Hn.
    - (* RUnlock *)
      assert (0 < held i D)%nat as Hpos by (inversion Hc; lia). assert (i ∈ D) as Hin by (by apply held_elem). apply elem_of_Permutation in Hin as [D' HD].
      pose proof (held_perm i _ _ HD) as Eh. rewrite held_cons, decide_True in Eh by done. rewrite (size_perm _ _ HD) in Hdf.
      inversion Hc as [| | | |? ? Hk Hn|? ? ? Hk Hn| | |]; subst.
      + rewrite Hl in H. injection H as En ->. rewrite HD in En. cbn in En. exists D'. eexists. assert (i ∉ D') as Hni by (rewrite <- held_elem; lia).
        rewrite (proj2 (size_held D' i) Hni) in Hdf.
        split; [|eapply ms_step; [exact Hdi | apply ps_runlock; exact Hdf]]. eapply matches_move; [done | done | done | done | | | |].
        * rewrite !set_lock_same. cbn. f_equal. lia. * by rewrite set_lock_same.
        * intros j Hj. by rewrite (held_perm j _ _ HD), held_cons, decide_False by done. * by replace (held i D') with 0%nat by lia.
      + rewrite Hl in H. injection H as En ->. rewrite HD in En. cbn in En. exists D'. eexists. assert (i ∈ D') as Hin' by (apply held_elem; lia).
        rewrite (proj1 (size_held D' i) Hin') in Hdf.
        split; [|eapply ms_step; [exact Hdi | constructor]]. eapply matches_move; [done | done | done | done | | | |].
        * rewrite set_lock_same, Hdf. cbn. f_equal. lia. * by rewrite Hdf.
        * intros j Hj. by rewrite (held_perm j _ _ HD), held_cons, decide_False by done. * by replace (held i D') with (1 + n0)%nat by lia.
    - (* Lock *)
      inversion Hc as [| | | | | |? ? Hk| |]; subst. rewrite Hl in H. injection H as En ->. exists D. eexists.
      split; [|eapply ms_step; [exact Hdi | apply ps_lock; exact Hdf]]. eapply matches_move; [done | done | done | done | | | done |].
      + rewrite !set_lock_same. cbn. by rewrite <- En. + by rewrite set_lock_same. + rewrite <- H0. by constructor.
    - inversion Hc as [| | | | | | |? ? Hk|]; subst. rewrite Hl in H. injection H as En ->. exists D. eexists. destruct D; [|done].
      split; [|eapply ms_step; [exact Hdi | eapply ps_locking; exact Hdf]]. eapply matches_move; [done | done | done | done | | | done | done].
      + cbn. rewrite Hl, Hdf. done. + by rewrite Hdf.
    - inversion Hc as [| | | | | | | |? ? Hk]; subst. rewrite Hl in H. injection H as En ->. exists D. eexists.
      split; [|eapply ms_step; [exact Hdi | apply ps_unlock; exact Hdf]]. eapply matches_move; [done | done | done | done | | | done |].
      + rewrite !set_lock_same. cbn. by rewrite <- En. + by rewrite set_lock_same. + by rewrite <- H0.
  Qed.
  Lemma matches_execution s h c : execution vm s h c → (∀ i o, EInv i o ∈ h → good o) → ∃ D c', matches D c c' ∧ execution am s h c'.
  Proof using Hplain.
    induction 1 as [|h c c' _ IH Hst|h c c' e _ IH Hst]; intros Hg.
    - exists [], (start s). split; [|constructor]. split; cbn; [done..|]. intros i. by rewrite !lookup_empty.
    - destruct (IH Hg) as (D & d & Hm & Hex). destruct (matches_step _ _ _ _ Hm Hst) as (D' & d' & Hm' & Hst'). exists D', d'. split; [done|]. by eapply ex_silent.
    - destruct IH as (D & d & Hm & Hex). { intros i o Hi. eapply Hg. apply elem_of_app. left. exact Hi. } destruct d as [ds df dcs]. destruct Hm as [H1 H2 H3 H4].
      inversion Hst as [m f cs i o Hi| |m f cs i r Hi]; subst; cbn in *; subst ds.
      + pose proof (H4 i) as Hc. rewrite Hi in Hc. destruct (dcs !! i) as [[]|] eqn:Hdi; [done..|].
        exists D, (MkCfg m df (<[i := Running (am o)]> dcs)). split; [|eapply ex_event; [exact Hex | by constructor]]. split; cbn; [done..|]. intros j. destruct (decide (j = i)) as [->|Hne].
        * rewrite !lookup_insert, Hc. apply er_method. eapply Hg. apply elem_of_app. right. left.
        * rewrite !lookup_insert_ne by done. apply H4.
      + pose proof (H4 i) as Hc. rewrite Hi in Hc. destruct (dcs !! i) as [[q|]|] eqn:Hdi; [|done..]. inversion Hc; subst.
        exists D, (MkCfg m df (<[i := Returned]> dcs)). split; [|eapply ex_event; [exact Hex | by constructor]]. split; cbn; [done..|]. intros j. destruct (decide (j = i)) as [->|Hne].
        * by rewrite !lookup_insert. * rewrite !lookup_insert_ne by done. apply H4.
  Qed.
End sim.
