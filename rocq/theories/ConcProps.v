(** Properties C56 and C64 for any object whose methods hold its lock throughout. *)
From Verif Require Import Base History ConcModel ConcSpec ConcProofs.

(** every history of concurrent calls has the results of some order of the calls, one after the
    other, that keeps the real-time order *)
Theorem locked_linearizable {S O R} (lock : O → mode) (body : O → prog S R) s h c :
  (∀ o, plain (body o)) → (∀ o, lock o = Rd → reading (body o)) → execution (guarded lock body) s h c →
  ∃ L s', linearizes h L ∧ one_by_one body L s s'.
Proof.
  intros Hp Hr Hex. destruct (inv_execution lock body Hp Hr s h c Hex) as (L & A & rs & w & win & Hinv). exists L, A. split; apply Hinv.
Qed.
Print Assumptions locked_linearizable.
(** if the sequential model of the object does what a specification allows, the results are the specified ones *)
Theorem guarded_linearizable {S O R A} (step : O → M S R) (allows : O → A → option R → A → Prop) (rel : S → A → Prop) (good : O → Prop)
    (lock : O → mode) (body : O → prog S (option R)) s a h c :
  (∀ o s a, good o → rel s a → match step o s with Ok (r, s') => ∃ a', allows o a (Some r) a' ∧ rel s' a' | Panic => allows o a None a | Fuel => False end) →
  rel s a → implements step body → disciplined lock body →
  execution (guarded lock body) s h c → (∀ i o, EInv i o ∈ h → good o) →
  ∃ L, linearizes h L ∧ legal allows L a.
Proof.
  intros Hag Hrel Himp Hdis Hex Hgood. destruct (locked_linearizable lock body s h c) as (L & s' & Hlin & Hone); [apply Hdis | apply Hdis | done|].
  exists L. split; [done|]. assert (Forall (λ x, good x.1.2) L) as HL.
  { apply Forall_forall. intros [[i o] r] Hx. eapply Hgood, (lin_called _ _ Hlin), Hx. }
  clear Hlin Hgood Hex. revert s a Hrel Hone HL. induction L as [|[[i o] r] L IH]; intros s a Hrel Hone HL; [done|]. cbn [one_by_one legal] in *. destruct Hone as (s1 & E & Hone). inversion HL as [|? ? Ho HL']; subst. cbn in Ho.
  pose proof (Hag o s a Ho Hrel) as Hstep. pose proof (Himp o s) as Hi. destruct (step o s) as [[x s2]| |]; [| |done].
  - destruct Hstep as (a' & Ha & Hr2). rewrite Hi in E. injection E as <- <-. exists a'. split; [done|]. by eapply IH.
  - rewrite Hi in E. injection E as <- <-. exists a. split; [done|]. by eapply IH.
Qed.
Print Assumptions guarded_linearizable.
Lemma guarded_by_spec {S O R A} (step : O → M S R) (spec : O → A → option (R * A)) (rel : S → A → Prop) (good : O → Prop)
    (lock : O → mode) (body : O → prog S (option R)) s a h c :
  (∀ o s a, good o → rel s a → agrees rel (step o s) (spec o a)) → rel s a → implements step body → disciplined lock body →
  execution (guarded lock body) s h c → (∀ i o, EInv i o ∈ h → good o) → ∃ L, linearizes h L ∧ legal (by_spec spec) L a.
Proof.
  intros Hag. apply guarded_linearizable with (rel := rel). intros o s1 a1 Ho Hrel. specialize (Hag o s1 a1 Ho Hrel). unfold agrees, by_spec in *.
  destruct (spec o a1) as [[x a']|]; [|by rewrite Hag]. destruct Hag as (s' & -> & Hr). eauto.
Qed.
(** bodies that meet the hypotheses exist when the operations that take RLock change nothing *)
Definition whole {S O R} (step : O → M S R) (o : O) : prog S (option R) :=
  PAct (λ s, match step o s with Ok (_, s') => s' | _ => s end) (λ s, PDone (match step o s with Ok (r, _) => Some r | _ => None end)).
Definition readers_read {S O R} (lock : O → mode) (step : O → M S R) : Prop := ∀ o s r s', lock o = Rd → step o s = Ok (r, s') → s' = s.
Theorem bodies_exist {S O R} (lock : O → mode) (step : O → M S R) : readers_read lock step → implements step (whole step) ∧ disciplined lock (whole step).
Proof.
  intros H. split.
  - intros o s. unfold whole. cbn [exec]. by destruct (step o s) as [[r s']| |].
  - intros o. split; [done|]. intros Ho s. split; [|done]. destruct (step o s) as [[r s']| |] eqn:E; [|done..]. by eapply H.
Qed.
Print Assumptions bodies_exist.
(** two memory steps that could be taken next by different calls are both reads *)
Theorem locked_race_free {S O R} (lock : O → mode) (body : O → prog S R) s h c i j w k w' k' :
  (∀ o, plain (body o)) → (∀ o, lock o = Rd → reading (body o)) → execution (guarded lock body) s h c → i ≠ j →
  calls c !! i = Some (Running (PAct w k)) → calls c !! j = Some (Running (PAct w' k')) → (∀ m, w m = m) ∧ (∀ m, w' m = m).
Proof. intros Hp Hr. by apply no_race. Qed.
Print Assumptions locked_race_free.
(** as long as some call has not returned the program can go on ... *)
Theorem locked_no_deadlock {S O R} (lock : O → mode) (body : O → prog S R) s h c i p :
  (∀ o, plain (body o)) → (∀ o, lock o = Rd → reading (body o)) → execution (guarded lock body) s h c →
  calls c !! i = Some (Running p) → ∃ c', goes_on (guarded lock body) c c'.
Proof. intros Hp Hr. by apply progress. Qed.
Print Assumptions locked_no_deadlock.
(** ... and it does so only finitely often before all calls have returned, if no new calls begin *)
Theorem locked_calls_end {S O R} (lock : O → mode) (body : O → prog S R) (run : nat → config S R) :
  ¬ ∀ n, goes_on (guarded lock body) (run n) (run (Datatypes.S n)).
Proof. apply no_infinite_run. Qed.
Print Assumptions locked_calls_end.
(** a call is made once *)
Theorem calls_unique {S O R} (method : O → prog S R) s h c : execution method s h c → ∀ h1 h2 i o o', h = h1 ++ EInv i o :: h2 → EInv i o' ∉ h1 ++ h2.
Proof.
  intros Hex. assert ((∀ i o, EInv i o ∈ h → is_Some (calls c !! i)) ∧ ∀ h1 h2 i o o', h = h1 ++ EInv i o :: h2 → EInv i o' ∉ h1 ++ h2) as [_ H]; [|done].
  induction Hex as [|h c c' _ [IH1 IH2] Hst|h c c' e _ [IH1 IH2] Hst].
  - split; [intros i o E; inversion E | intros h1 h2 i o o' E; by destruct h1].
  - split; [|done]. intros i o E. apply IH1 in E. inversion Hst; subst; cbn in *. destruct (decide (i = i0)) as [->|]; [by rewrite lookup_insert | by rewrite lookup_insert_ne].
  - split.
    + intros i o [E|E%elem_of_list_singleton]%elem_of_app.
      * apply IH1 in E. inversion Hst; subst; cbn in *; (destruct (decide (i = i0)) as [->|]; [by rewrite lookup_insert | by rewrite lookup_insert_ne]).
      * subst e. inversion Hst; subst. cbn. by rewrite lookup_insert.
    + intros h1 h2 i o o' E. destruct h2 as [|z h2 _] using rev_ind.
      * apply app_inj_tail in E as [<- ->]. rewrite app_nil_r. intros Hx%IH1. inversion Hst as [s1 f1 cs1 i1 o1 Hn| |]; subst. cbn in Hx. rewrite Hn in Hx. by destruct Hx.
      * assert (E' : h ++ [e] = (h1 ++ EInv i o :: h2) ++ [z]) by (rewrite E, <- app_assoc; done). apply app_inj_tail in E' as [-> ->].
        intros Hx. rewrite app_assoc in Hx. apply elem_of_app in Hx as [Hx|Hx%elem_of_list_singleton]; [by eapply (IH2 h1 h2) in Hx|].
        subst z. assert (is_Some (calls c !! i)) as Hs. { apply (IH1 i o). apply elem_of_app. right. left. } inversion Hst as [s1 f1 cs1 i1 o1 Hn| |]; subst. cbn in Hs. rewrite Hn in Hs. by destruct Hs.
Qed.
Print Assumptions calls_unique.
