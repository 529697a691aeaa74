(** Property C67: visitors that call back into the container. *)
From Verif Require Import Base History ConcModel ConcSpec ConcProofs ConcProps ConcTables ConcPlay RbModel SetModel SetSpec ConcVisitModel.

Section count.
  Definition held (i : nat) (D : list nat) : nat := length (filter (λ j, j = i) D).
  Lemma held_cons i j D : held i (j :: D) = ((if decide (j = i) then 1 else 0) + held i D)%nat.
  Proof. unfold held. rewrite filter_cons. by destruct (decide (j = i)). Qed.
  Lemma held_perm i D D' : D ≡ₚ D' → held i D = held i D'.
  Proof. intros H. unfold held. by rewrite H. Qed.
  Lemma held_elem i D : (0 < held i D)%nat ↔ i ∈ D.
  Proof.
    induction D as [|j D IH]; [split; [cbn; lia | intros H; inversion H]|]. rewrite held_cons, elem_of_cons. destruct (decide (j = i)) as [->|Hn]; [split; [by left | lia]|].
    rewrite Nat.add_0_l, IH. split; [by right | intros [->|?]; done].
  Qed.
  Lemma held_le i D : (held i D ≤ length D)%nat.
  Proof. apply filter_length. Qed.
End count.

Lemma set_lock_same f l x : set_lock f l x l = x.
Proof. unfold set_lock. by rewrite decide_True. Qed.
(** ---------- counting read locks ---------- *)
Section gen.
  Context {S O R : Type} (method : O → prog S R).
  (** a property of what call o still has to do while it holds n read locks, kept by every step that
      is possible when the lock is used properly *)
  Record kept (P : O → nat → prog S R → Prop) : Prop := {
    kp_start : ∀ o, P o 0%nat (method o);
    kp_done : ∀ o n r, P o n (PDone r) → n = 0%nat;
    kp_act : ∀ o n w k s, P o n (PAct w k) → P o n (k s);
    kp_rlock : ∀ o n l p, P o n (PRLock l p) → l = 0%nat ∧ P o (Datatypes.S n) p;
    kp_runlock : ∀ o n l p, P o n (PRUnlock l p) → l = 0%nat ∧ ∃ m, n = Datatypes.S m ∧ P o m p;
    kp_lock : ∀ o n l p, P o n (PLock l p) → l = 0%nat ∧ P o n (PLocking l p);
    kp_locking : ∀ o n l p, P o n (PLocking l p) → l = 0%nat ∧ (n = 0%nat → P o n p);
    kp_unlock : ∀ o n l p, P o n (PUnlock l p) → l = 0%nat ∧ P o n p;
  }.
  Context (P : O → nat → prog S R → Prop) (HP : kept P).
  Record counted (D : list nat) (h : list (event O R)) (c : config S R) : Prop := {
    cn_lock : rw_readers (lks c 0%nat) = length D;
    cn_run : ∀ i p, calls c !! i = Some (Running p) → ∃ o, EInv i o ∈ h ∧ P o (held i D) p;
    cn_idle : ∀ i, (∀ p, calls c !! i ≠ Some (Running p)) → held i D = 0%nat;
    cn_ret : ∀ i r, ERet i r ∈ h → ∃ o, EInv i o ∈ h ∧ P o 0%nat (PDone r);
    cn_live : ∀ i o, EInv i o ∈ h → calls c !! i = Some Returned → ∃ r, ERet i r ∈ h;
  }.
  Lemma counted_move D D' h s f cs i p p' s' f' : counted D h (MkCfg s f cs) → cs !! i = Some (Running p) → rw_readers (f' 0%nat) = length D' →
    (∀ j, j ≠ i → held j D' = held j D) → (∀ o, P o (held i D) p → P o (held i D') p') → counted D' h (MkCfg s' f' (<[i := Running p']> cs)).
  Proof using.
    intros [H1 H2 H3 H4 H5] Hi Hl Hj Hp. cbn in *. split; cbn; [done | | | done |].
    - intros j q. destruct (decide (j = i)) as [->|Hne].
      + rewrite lookup_insert. intros [= <-]. destruct (H2 i p Hi) as (o & Ho & HPo). eauto.
      + rewrite lookup_insert_ne by done. rewrite Hj by done. apply H2.
    - intros j. destruct (decide (j = i)) as [->|Hne]; [intros E; exfalso; eapply E, lookup_insert|]. rewrite lookup_insert_ne by done. rewrite Hj by done. apply H3.
    - intros j o Hx. destruct (decide (j = i)) as [->|Hne]; [by rewrite lookup_insert|]. rewrite lookup_insert_ne by done. by eapply H5.
  Qed.
  Lemma counted_step D h (c : config S R) c' : counted D h c → mstep method c None c' → ∃ D', counted D' h c'.
  Proof using HP.
    intros Hcn Hst. inversion Hst as [|s f cs i p p' s' f' Hi Hp|]; subst. destruct (cn_run _ _ _ Hcn i p Hi) as (o & Ho & Hb). cbn in Hb. pose proof (cn_lock _ _ _ Hcn) as Hl. cbn in Hl.
    inversion Hp; subst.
    - exists D. eapply counted_move; try done. intros o' H. by eapply kp_act in H.
    - pose proof (kp_rlock _ HP _ _ _ _ Hb) as [-> _]. exists (i :: D). eapply counted_move; try done.
      + rewrite set_lock_same. cbn. rewrite H in Hl. cbn in Hl. lia.
      + intros j Hj. by rewrite held_cons, decide_False by done.
      + intros o' H'. rewrite held_cons, decide_True by done. by apply (kp_rlock _ HP) in H' as [_ H'].
    - pose proof (kp_runlock _ HP _ _ _ _ Hb) as (-> & m & Em & _). assert (i ∈ D) as Hin by (apply held_elem; lia). apply elem_of_Permutation in Hin as [D' HD].
      pose proof Em as Em'. rewrite (held_perm i _ _ HD), held_cons, decide_True in Em' by done.
      exists D'. eapply counted_move; try done.
      + rewrite set_lock_same. cbn. rewrite H in Hl. cbn in Hl. rewrite HD in Hl. cbn in Hl. lia.
      + intros j Hj. by rewrite (held_perm j _ _ HD), held_cons, decide_False by done.
      + intros o' H'. apply (kp_runlock _ HP) in H' as (_ & m' & Em2 & H'). by replace (held i D') with m' by lia.
    - pose proof (kp_lock _ HP _ _ _ _ Hb) as [-> _]. exists D. eapply counted_move; try done.
      + rewrite set_lock_same. cbn. by rewrite H in Hl. + intros o' H'. by apply (kp_lock _ HP) in H' as [_ H'].
    - pose proof (kp_locking _ HP _ _ _ _ Hb) as [-> _]. exists D. eapply counted_move; try done.
      intros o' H'. apply (kp_locking _ HP) in H' as [_ H']. apply H'. rewrite H in Hl. cbn in Hl. pose proof (held_le i D). lia.
    - pose proof (kp_unlock _ HP _ _ _ _ Hb) as [-> _]. exists D. eapply counted_move; try done.
      + rewrite set_lock_same. cbn. by rewrite H in Hl. + intros o' H'. by apply (kp_unlock _ HP) in H' as [_ H'].
  Qed.
  Lemma counted_event D h (c : config S R) e c' : counted D h c → mstep method c (Some e) c' → counted D (h ++ [e]) c'.
  Proof using HP.
    intros [H1 H2 H3 H4 H5] Hst. inversion Hst as [s f cs i o Hi| |s f cs i r Hi]; subst; cbn in *.
    - split; cbn; [done | | | |].
      + intros j p. destruct (decide (j = i)) as [->|Hne].
        * rewrite lookup_insert. intros [= <-]. exists o. split; [set_solver|]. rewrite (H3 i) by (rewrite Hi; done). apply (kp_start _ HP).
        * rewrite lookup_insert_ne by done. intros E. destruct (H2 j p E) as (o' & Ho & Hb). exists o'. split; [set_solver | done].
      + intros j. destruct (decide (j = i)) as [->|Hne]; [intros E; exfalso; eapply E, lookup_insert|]. rewrite lookup_insert_ne by done. apply H3.
      + intros j r Hr. assert (ERet j r ∈ h) as (o' & Ho & Hb)%H4 by set_solver. exists o'. split; [set_solver | done].
      + intros j o' Ho. destruct (decide (j = i)) as [->|Hne]; [by rewrite lookup_insert|]. rewrite lookup_insert_ne by done. intros E.
        assert (EInv j o' ∈ h) as Ho'. { apply elem_of_app in Ho as [?|Ho%elem_of_list_singleton]; [done|]. congruence. } destruct (H5 j o' Ho' E) as [r Hr]. exists r. set_solver.
    - destruct (H2 i _ Hi) as (o & Ho & Hb). pose proof (kp_done _ HP _ _ _ Hb) as E0. split; cbn; [done | | | |].
      + intros j p. destruct (decide (j = i)) as [->|Hne]; [by rewrite lookup_insert|]. rewrite lookup_insert_ne by done. intros E. destruct (H2 j p E) as (o' & Ho' & Hb'). exists o'. split; [set_solver | done].
      + intros j. destruct (decide (j = i)) as [->|Hne]; [by intros _|]. rewrite lookup_insert_ne by done. apply H3.
      + intros j r' Hr. apply elem_of_app in Hr as [Hr|Hr%elem_of_list_singleton].
        * destruct (H4 j r' Hr) as (o' & Ho' & Hb'). exists o'. split; [set_solver | done].
        * injection Hr as -> ->. exists o. split; [set_solver|]. by rewrite E0 in Hb.
      + intros j o' Ho'. destruct (decide (j = i)) as [->|Hne]; [intros _; exists r; set_solver|]. rewrite lookup_insert_ne by done. intros E.
        assert (EInv j o' ∈ h) as Ho2. { apply elem_of_app in Ho' as [?|Ho2%elem_of_list_singleton]; [done|]. congruence. } destruct (H5 j o' Ho2 E) as [r' Hr]. exists r'. set_solver.
  Qed.
  Lemma counted_execution s h c : execution method s h c → ∃ D, counted D h c.
  Proof using HP.
    induction 1 as [|h c c' _ [D IH] Hst|h c c' e _ [D IH] Hst].
    - exists []. split; cbn; [done | | done | |].
      + intros i p E. by rewrite lookup_empty in E. + intros i r E. by apply elem_of_nil in E. + intros i o E. by apply elem_of_nil in E.
    - by eapply counted_step. - exists D. by eapply counted_event.
  Qed.
End gen.

(** ---------- programs made by expand ---------- *)
Section visit.
  Context {S O R : Type} (lock : O → mode) (body : O → prog S R).
  Fixpoint balanced (n : nat) (p : prog S R) : Prop :=
    match p with
    | PDone _ => n = 0%nat
    | PAct w k => ∀ s, balanced n (k s)
    | PRLock l p => l = 0%nat ∧ balanced (Datatypes.S n) p
    | PRUnlock l p => l = 0%nat ∧ ∃ m, n = Datatypes.S m ∧ balanced m p
    | PLock l p | PLocking l p | PUnlock l p => l = 0%nat ∧ balanced n p
    end.
  Fixpoint doomed (n : nat) (p : prog S R) : Prop :=
    match p with
    | PDone _ => False
    | PAct w k => ∀ s, doomed n (k s)
    | PRLock l p => doomed (Datatypes.S n) p
    | PRUnlock l p => doomed (pred n) p
    | PLock l p | PLocking l p => (0 < n)%nat ∨ doomed n p
    | PUnlock l p => doomed n p
    end.
  Lemma balanced_plain (q : prog S R) (k : R → prog S R) n : plain q → (∀ r, balanced n (k r)) → balanced n (bindp q k).
  Proof using. intros Hq Hk. revert Hq. induction q as [r|w q IH| | | | |]; intros Hq; try done; [apply Hk|]. intros s. by apply IH. Qed.
  Lemma balanced_locked m (q : prog S R) (k : R → prog S R) n : plain q → (∀ r, balanced n (k r)) → balanced n (bindp (locked m q) k).
  Proof using.
    intros Hq Hk. destruct m; cbn [locked bindp balanced]; (split; [done|]); (induction q as [r|w q IH| | | | |]; try done; [cbn; split; [done|]; eauto|]); intros s; by apply IH.
  Qed.
  Lemma doomed_plain (q : prog S R) (k : R → prog S R) n : plain q → (∀ r, doomed n (k r)) → doomed n (bindp q k).
  Proof using. intros Hq Hk. revert Hq. induction q as [r|w q IH| | | | |]; intros Hq; try done; [apply Hk|]. intros s. by apply IH. Qed.
  Lemma doomed_locked m (q : prog S R) (k : R → prog S R) n : plain q → (m = Wr ∧ (0 < n)%nat) ∨ (∀ r, doomed n (k r)) → doomed n (bindp (locked m q) k).
  Proof using.
    intros Hq H. destruct m; cbn [locked bindp doomed].
    - destruct H as [[? _]|H]; [done|]. induction q as [r|w q IH| | | | |]; try done; [cbn; apply H|]. intros s. by apply IH.
    - destruct H as [[_ H]|H]; [by left|]. right. induction q as [r|w q IH| | | | |]; try done; [cbn; apply H|]. intros s. by apply IH.
  Qed.
  Context (Hplain : ∀ o, plain (body o)).
  Lemma balanced_expand v (k : R → prog S R) n : (∀ r, balanced n (k r)) → balanced n (bindp (expand lock body v) k).
  Proof using Hplain.
    intros Hk. induction v as [r|w v IH|o v IH]; cbn [expand bindp]; [apply Hk | intros s; apply IH|].
    unfold guarded. 
    assert (∀ m (q : prog S R), plain q → (∀ r, balanced n (bindp (expand lock body (v r)) k)) → balanced n (bindp (bindp (locked m q) (λ r, expand lock body (v r))) k)) as Hx.
    { clear. intros m q Hq Hk. destruct m; cbn [locked bindp balanced]; (split; [done|]); (induction q as [r|w q IH| | | | |]; try done; [cbn; split; [done|]; eauto|]); intros s; by apply IH. }
    by apply Hx.
  Qed.
  Lemma doomed_expand v (k : R → prog S R) n : (0 < n)%nat → must_write lock v → doomed n (bindp (expand lock body v) k).
  Proof using Hplain.
    intros Hn. induction v as [r|w v IH|o v IH]; cbn [expand bindp must_write]; [done | intros Hv s; by apply IH|]. intros Hv.
    assert (∀ m (q : prog S R), plain q → m = Wr ∨ (∀ r, doomed n (bindp (expand lock body (v r)) k)) → doomed n (bindp (bindp (locked m q) (λ r, expand lock body (v r))) k)) as Hx.
    { clear -Hn. intros m q Hq H. destruct m; cbn [locked bindp doomed].
      - destruct H as [?|H]; [done|]. induction q as [r|w q IH| | | | |]; try done; [cbn; apply H|]. intros s. by apply IH.
      - by left. }
    apply Hx; [done|]. destruct Hv as [Hv|Hv]; [by left|]. right. intros r. by apply IH.
  Qed.
  Lemma balanced_method c : balanced 0 (vmethod lock body c).
  Proof using Hplain.
    destruct c as [o|v]; cbn [vmethod].
    - unfold guarded, locked. destruct (lock o); cbn; (split; [done|]); (apply balanced_plain; [done|]); intros r; cbn; eauto.
    - cbn. split; [done|]. apply balanced_expand. intros r. cbn. eauto.
  Qed.
  Definition dies (c : vcall S O R) : Prop := match c with VMethod _ => False | VTraversal v => must_write lock v end.
  Lemma doomed_method c : dies c → doomed 0 (vmethod lock body c).
  Proof using Hplain. destruct c as [o|v]; [done|]. cbn. intros H. apply doomed_expand; [lia | done]. Qed.
  Lemma visit_kept : kept (vmethod lock body) (λ c n p, balanced n p ∧ (dies c → doomed n p)).
  Proof using Hplain.
    split.
    - intros c. split; [apply balanced_method | apply doomed_method].
    - by intros c n r [H _].
    - intros c n w k s [H1 H2]. split; [apply H1|]. intros Hd. by apply H2.
    - intros c n l p [[-> H1] H2]. done.
    - intros c n l p [(-> & m & -> & H1) H2]. split; [done|]. exists m. done.
    - intros c n l p [[-> H1] H2]. done.
    - intros c n l p [[-> H1] H2]. split; [done|]. intros ->. split; [done|]. intros Hd. destruct (H2 Hd) as [?|?]; [lia | done].
    - intros c n l p [[-> H1] H2]. done.
  Qed.
End visit.
