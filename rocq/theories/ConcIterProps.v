(** Property C68: iterators of a goroutine-safe container and concurrent calls. *)
From Verif Require Import Base History ConcModel ConcSpec ConcProofs ConcProps ConcTables ConcPlay RbModel RbSpec MapModel MapSpec MapProofs MapProps ConcInst ConcIterModel ConcVisitModel ConcVisit ConcVisitProps.

(** a body does, run alone, what the sequential model of the operation does (inj: how its results are presented) *)
Definition implements_as {S O R0 R} (inj : R0 → R) (step : O → M S R0) (body : O → prog S (option R)) : Prop := ∀ o s,
  match step o s with Ok (r, s') => exec (body o) s = (Some (inj r), s') | Panic => exec (body o) s = (None, s) | Fuel => True end.
(** the statement of C64: two memory steps that could be taken next by different calls are both reads *)
Definition race_free {S O R} (method : O → prog S R) (s : S) : Prop := ∀ h c i j w k w' k', execution method s h c → i ≠ j →
  calls c !! i = Some (Running (PAct w k)) → calls c !! j = Some (Running (PAct w' k')) → (∀ m, w m = m) ∧ (∀ m, w' m = m).

(** ---------- the part that holds ---------- *)
Section readers.
  Context {S O I R : Type} (lock : O → mode) (body : O → prog S R) (ibody : I → prog S R).
  Notation im := (imethod lock body ibody).
  Context (Hbody : ∀ o, lock o = Rd → reading (body o)).
  (** what is left of a call that only reads *)
  Fixpoint reads (n : nat) (r : R) (s : S) (p : prog S R) : Prop :=
    match p with
    | PDone r' => n = 0%nat ∧ r' = r
    | PAct w k => (∀ s, w s = s) ∧ reads n r s (k s)
    | PRLock l p => l = 0%nat ∧ reads (Datatypes.S n) r s p
    | PRUnlock l p => l = 0%nat ∧ ∃ m, n = Datatypes.S m ∧ reads m r s p
    | _ => False
    end.
  Lemma reads_bind (q : prog S R) (k : R → prog S R) n r s : reading q → reads n r s (k (exec q s).1) → reads n r s (bindp q k).
  Proof using.
    induction q as [x|w q IH| | | | |]; intros Hq Hk; try done. cbn [bindp reads]. split; [intros s'; apply Hq|]. apply IH; [apply Hq|]. cbn [exec] in Hk. by rewrite (proj1 (Hq s)) in Hk.
  Qed.
  Lemma reads_plain (q : prog S R) s : reading q → reads 0 (exec q s).1 s q.
  Proof using.
    induction q as [x|w q IH| | | | |]; intros Hq; try done. cbn [reads exec]. split; [intros s'; apply Hq|]. rewrite (proj1 (Hq s)). apply IH, Hq.
  Qed.
  Definition only_reads (c : icall O I) : Prop := match c with CMethod o => lock o = Rd | CIter i => reading (ibody i) end.
  Lemma reads_method c s : only_reads c → reads 0 (exec (im c) s).1 s (im c).
  Proof using Hbody.
    destruct c as [o|i]; cbn [only_reads imethod]; intros Ho; [|by apply reads_plain]. unfold guarded. rewrite exec_locked, Ho. cbn [locked reads]. split; [done|]. apply reads_bind; [by apply Hbody|]. cbn. eauto.
  Qed.
  Record quiet (s : S) (D : list nat) (h : list (event (icall O I) R)) (c : config S R) : Prop := {
    qt_mem : mem c = s;
    qt_lock : lks c 0%nat = MkRw (length D) false;
    qt_run : ∀ i p, calls c !! i = Some (Running p) → ∃ o, EInv i o ∈ h ∧ reads (held i D) (exec (im o) s).1 s p;
    qt_idle : ∀ i, (∀ p, calls c !! i ≠ Some (Running p)) → held i D = 0%nat;
    qt_ret : ∀ i r, ERet i r ∈ h → ∃ o, EInv i o ∈ h ∧ r = (exec (im o) s).1;
  }.
  Lemma quiet_execution s h c : execution im s h c → (∀ i o, EInv i o ∈ h → only_reads o) → ∃ D, quiet s D h c.
  Proof using Hbody.
    induction 1 as [|h c c' _ IH Hst|h c c' e _ IH Hst]; intros Hg.
    - exists []. split; cbn; [done | done | | done |]. + intros i p E. by rewrite lookup_empty in E. + intros i r E. by apply elem_of_nil in E.
    - destruct (IH Hg) as [D [H1 H2 H3 H4 H5]]. inversion Hst as [|m f cs i p p' s' f' Hi Hp|]; subst. cbn in *.
      destruct (H3 i p Hi) as (o & Ho & Hr).
      assert (∀ D' g, g 0%nat = MkRw (length D') false → (∀ j, j ≠ i → held j D' = held j D) → reads (held i D') (exec (im o) m).1 m p' → s' = m → ∃ D, quiet m D h (MkCfg s' g (<[i := Running p']> cs))) as Hx.
      { intros D' g Hl Hj Hr' ->. exists D'. split; cbn; [done | done | | | done].
        - intros j q. destruct (decide (j = i)) as [->|Hne]; [rewrite lookup_insert; intros [= <-]; eauto|]. rewrite lookup_insert_ne, Hj by done. apply H3.
        - intros j. destruct (decide (j = i)) as [->|Hne]; [intros E; exfalso; eapply E, lookup_insert|]. rewrite lookup_insert_ne, Hj by done. apply H4. }
      inversion Hp; subst; cbn [reads] in Hr; try done.
      + destruct Hr as [Hw Hr]. by apply (Hx D).
      + destruct Hr as [-> Hr]. rewrite H2 in H. injection H as <-. apply (Hx (i :: D)); [by rewrite set_lock_same | | | done].
        * intros j Hj. by rewrite held_cons, decide_False by done. * by rewrite held_cons, decide_True by done.
      + destruct Hr as (-> & n' & En & Hr). rewrite H2 in H. injection H as El <-. assert (i ∈ D) as Hin by (apply held_elem; lia). apply elem_of_Permutation in Hin as [D' HD].
        rewrite (held_perm i _ _ HD), held_cons, decide_True in En by done. apply (Hx D'); [rewrite set_lock_same; f_equal; rewrite HD in El; cbn in El; lia | | | done].
        * intros j Hj. by rewrite (held_perm j _ _ HD), held_cons, decide_False by done. * by replace (held i D') with n' by lia.
    - destruct IH as [D [H1 H2 H3 H4 H5]]. { intros i o Hi. eapply Hg, elem_of_app. left. exact Hi. } exists D.
      inversion Hst as [m f cs i o Hi| |m f cs i r Hi]; subst; cbn in *.
      + split; cbn; [done | done | | |].
        * intros j q. destruct (decide (j = i)) as [->|Hne].
          -- rewrite lookup_insert. intros [= <-]. exists o. split; [set_solver|]. rewrite (H4 i) by (by rewrite Hi). apply reads_method. eapply Hg. apply elem_of_app. right. left.
          -- rewrite lookup_insert_ne by done. intros E. destruct (H3 j q E) as (o' & Ho' & Hr). exists o'. split; [set_solver | done].
        * intros j. destruct (decide (j = i)) as [->|Hne]; [intros E; exfalso; eapply E, lookup_insert|]. rewrite lookup_insert_ne by done. apply H4.
        * intros j r Hr. assert (ERet j r ∈ h) as (o' & Ho & Hb)%H5 by set_solver. exists o'. split; [set_solver | done].
      + destruct (H3 i _ Hi) as (o & Ho & E0 & ->). split; cbn; [done | done | | |].
        * intros j p. destruct (decide (j = i)) as [->|Hne]; [by rewrite lookup_insert|]. rewrite lookup_insert_ne by done. intros E. destruct (H3 j p E) as (o' & Ho' & Hb'). exists o'. split; [set_solver | done].
        * intros j. destruct (decide (j = i)) as [->|Hne]; [by intros _|]. rewrite lookup_insert_ne by done. apply H4.
        * intros j r' Hr. apply elem_of_app in Hr as [Hr|Hr%elem_of_list_singleton].
          -- destruct (H5 j r' Hr) as (o' & Ho' & Hb'). exists o'. split; [set_solver | done].
          -- injection Hr as -> ->. exists o. split; [set_solver|done].
  Qed.
End readers.
(** C68, the part that holds: while no call updates the container, iterators may be read from any number
    of goroutines beside the reading methods: nothing is written, each call returns what it returns alone,
    and all calls can go on (and end: locked_calls_end). *)
Theorem iterators_partial {S O I R} (lock : O → mode) (body : O → prog S R) (ibody : I → prog S R) s h c :
  (∀ o, lock o = Rd → reading (body o)) →
  execution (imethod lock body ibody) s h c → (∀ i o, EInv i (CMethod o) ∈ h → lock o = Rd) → (∀ i x, EInv i (CIter x) ∈ h → reading (ibody x)) →
  mem c = s ∧ (∀ i w k, calls c !! i = Some (Running (PAct w k)) → ∀ m, w m = m) ∧
  (∀ i r, ERet i r ∈ h → ∃ o, EInv i o ∈ h ∧ r = (exec (imethod lock body ibody o) s).1) ∧
  (∀ i p, calls c !! i = Some (Running p) → ∃ c', goes_on (imethod lock body ibody) c c').
Proof.
  intros Hb Hex H1 H2. destruct (quiet_execution lock body ibody Hb s h c Hex) as [D Hq]. { intros i [o|x] Hi; [by eapply H1 | by eapply H2]. }
  destruct Hq as [Q1 Q2 Q3 Q4 Q5]. split_and!; [done | | done |].
  - intros i w k Hi. destruct (Q3 i _ Hi) as (o & _ & Hw & _). exact Hw.
  - intros i p Hi. destruct (Q3 i _ Hi) as (o & _ & Hr). destruct c as [m f cs]. cbn in *. destruct p as [r|w k|l p|l p|l p|l p|l p]; cbn [reads] in Hr; try done.
    + eexists. right. eexists _, _. by constructor.
    + eexists. left. eapply ConcModel.ms_step; [done|]. constructor.
    + destruct Hr as [-> _]. eexists. left. eapply ConcModel.ms_step; [done|]. by constructor.
    + destruct Hr as (-> & n & En & _). assert (i ∈ D) as Hin by (apply held_elem; lia). destruct D; [by apply elem_of_nil in Hin|]. eexists. left. eapply ConcModel.ms_step; [done|]. by econstructor.
Qed.
Print Assumptions iterators_partial.

(** ---------- the full statement is false ---------- *)
(** two calls: an unlocked one that begins with a memory step, and one that changes the memory *)
Lemma unlocked_races {S O I R} (lock : O → mode) (body : O → prog S R) (ibody : I → prog S R) s o x w k : plain (body o) → lock o = Wr → (exec (body o) s).2 ≠ s →
  ibody x = PAct w k → ¬ race_free (imethod lock body ibody) s.
Proof.
  intros Hp Hl Hne Hx Hrf.
  assert (∀ (q : prog S R) m h f cs, plain q → cs !! 0%nat = Some (Running (PAct w k)) → cs !! 1%nat = Some (Running (bindp q (fin Wr))) → execution (imethod lock body ibody) s h (MkCfg m f cs) → (exec q m).2 = m) as Hq.
  { induction q as [r|w' q IH| | | | |]; intros m h f cs Hq H0 H1 Hex; try done. cbn [exec].
    destruct (Hrf h _ 0%nat 1%nat w k w' (λ s, bindp (q s) (fin Wr)) Hex) as [_ Hw]; [done.. |]. rewrite Hw.
    eapply (IH m m h f (<[1%nat := Running (bindp (q m) (fin Wr))]> cs)); [apply Hq | by rewrite lookup_insert_ne | by rewrite lookup_insert |]. rewrite <- (Hw m) at 1. eapply ex_silent; [exact Hex|].
    eapply ConcModel.ms_step; [exact H1|]. cbn [bindp]. constructor. }
  apply Hne. set (im := imethod lock body ibody).
  set (cs1 := <[0%nat := Running (PAct w k)]> ∅ : gmap nat (thread S R)).
  assert (execution im s [EInv 0%nat (CIter x)] (MkCfg s (λ _, rw_free) cs1)) as X1.
  { eapply (ex_event _ _ []); [apply ex_start|]. unfold cs1. rewrite <- Hx. by apply (ms_call im s (λ _, rw_free) ∅ 0%nat (CIter x)). }
  set (cs2 := <[1%nat := Running (im (CMethod o))]> cs1).
  assert (execution im s ([EInv 0%nat (CIter x)] ++ [EInv 1%nat (CMethod o)]) (MkCfg s (λ _, rw_free) cs2)) as X2 by (eapply ex_event; [exact X1 | by apply ms_call]).
  set (q := bindp (body o) (fin Wr)). set (f3 := set_lock (λ _, rw_free) 0%nat (MkRw 0 true)). set (cs3 := <[1%nat := Running (PLocking 0 q)]> cs2).
  assert (execution im s ([EInv 0%nat (CIter x)] ++ [EInv 1%nat (CMethod o)]) (MkCfg s f3 cs3)) as X3.
  { eapply ex_silent; [exact X2|]. eapply ConcModel.ms_step; [apply lookup_insert|]. unfold im, imethod, guarded, locked. rewrite Hl. by apply ps_lock. }
  set (cs4 := <[1%nat := Running q]> cs3).
  assert (execution im s ([EInv 0%nat (CIter x)] ++ [EInv 1%nat (CMethod o)]) (MkCfg s f3 cs4)) as X4.
  { eapply ex_silent; [exact X3|]. eapply ConcModel.ms_step; [apply lookup_insert|]. by eapply ps_locking. }
  eapply (Hq (body o) s _ _ _ (Hp)); [| |exact X4].
  - unfold cs4, cs3, cs2. rewrite !lookup_insert_ne by done. apply lookup_insert.
  - apply lookup_insert.
Qed.
(** a map with one entry: reading the entry's value through an iterator while it is erased is a data race,
    whatever the memory steps of the methods are *)
Theorem iterator_race_refuted {K V W} (cmp : K → K → Z) (CO : CmpOK cmp) (k : K) (v : V)
    (body : map_op K V W → prog (rb K V) (option (map_res K V W + it_res K V))) (ibody : it_op V → prog (rb K V) (option (map_res K V W + it_res K V))) :
  implements_as inl (map_step cmp) body → implements_as inr mi_step ibody → (∀ o, plain (body o)) → (∀ i, plain (ibody i)) →
  ∃ s, map_step (W := W) cmp (MInsert k v) map_new = Ok (RUnit, s) ∧ ¬ race_free (imethod map_lock body ibody) s.
Proof.
  intros Hb Hi Hp Hip. assert (mholds cmp (map_new (K := K) (V := V)) []) as H0 by (split; [by apply holds_new | constructor]).
  pose proof (map_agrees (W := W) cmp CO (MInsert k v) _ _ H0) as (s & E & H1). exists s. split; [done|].
  pose proof (map_agrees (W := W) cmp CO (MErase k) _ _ H1) as (s' & E' & H2). pose proof (map_agrees (W := W) cmp CO MSize _ _ H1) as (s1 & S1 & _). pose proof (map_agrees (W := W) cmp CO MSize _ _ H2) as (s2 & S2 & _).
  pose proof (map_agrees (W := W) cmp CO (MValueAt 0) _ _ H1) as (s3 & S3 & _).
  cbn [map_step times] in S3. unfold mbind_ in S3. destruct (map_Begin s) as [[p s4]| |] eqn:EB; [|done..]. cbn in S3. destruct p as [a|]; [|done].
  destruct (ibody (IValue (Some a))) as [r|w k'|l q|l q|l q|l q|l q] eqn:Eb; try (specialize (Hip (IValue (Some a))); rewrite Eb in Hip; done).
  { exfalso. pose proof (Hi (IValue (Some a)) s4) as I1. pose proof (Hi (IValue (Some a)) map_new) as I2. rewrite Eb in I1, I2. cbn [mi_step] in I1, I2. unfold mi_Value, mbind_ in I1, I2, S3.
    destruct (value (Some a) s4) as [[y s5]| |]; [|done..]. cbn [exec mret_] in I1. injection I1 as I1 _.
    assert (value (Some a) (map_new (K := K) (V := V)) = Panic) as Ev by done. rewrite Ev in I2. cbn [exec] in I2. injection I2 as I2. congruence. }
  eapply (unlocked_races map_lock body ibody s (MErase k) (IValue (Some a)) w k'); [apply Hp | done | | done].
  pose proof (Hb (MErase k) s) as I3. rewrite E' in I3. rewrite I3. cbn [snd]. intros ->. rewrite S1 in S2. injection S2 as S2 _.
  cbn in S2. rewrite decide_False in S2; [done|]. intros Hk. apply Hk. apply Is_true_true_2. unfold is_k. cbn. by rewrite (cmp_refl cmp CO), Z.eqb_refl.
Qed.
Print Assumptions iterator_race_refuted.
(** methods split into single steps meet the hypotheses *)
Example iterator_race_example :
  let inj_body {S O R0 R} (inj : R0 → R) (step : O → M S R0) (o : O) := bindp (whole step o) (λ r, PDone (inj <$> r)) : prog S (option R) in
  let body := inj_body (inl (B := it_res Z Z)) (map_step (V := Z) (W := unit) Z.sub) in let ibody := inj_body (inr (A := map_res Z Z unit)) (mi_step (K := Z) (V := Z)) in
  implements_as inl (map_step Z.sub) body ∧ implements_as inr mi_step ibody ∧ (∀ o, plain (body o)) ∧ (∀ i, plain (ibody i)) ∧
  (* and the reading hypotheses of iterators_partial *)
  (∀ o, map_lock o = Rd → reading (body o)) ∧ (∀ p, reading (ibody (IValue p))).
Proof.
  cbv zeta. split_and!.
  - intros o s. rewrite exec_bind. unfold whole. cbn [exec]. by destruct (map_step Z.sub o s) as [[r s']| |].
  - intros o s. rewrite exec_bind. unfold whole. cbn [exec]. by destruct (mi_step o s) as [[r s']| |].
  - by intros o s. - by intros o s.
  - intros o Ho s. split; [|done]. destruct (map_step Z.sub o s) as [[r s']| |] eqn:E; [|done..]. by eapply map_readers_read.
  - intros p s. split; [|done]. destruct (mi_step (IValue p) s) as [[r s']| |] eqn:E; [|done..]. revert E. change (mi_step (IValue p) s = Ok (r, s') → s' = s). revert s r s'. change (ConcRo.ro (mi_step (K := Z) (V := Z) (IValue p))). cbn [mi_step]. unfold mi_Value. ConcRo.ro_go.
Qed.
