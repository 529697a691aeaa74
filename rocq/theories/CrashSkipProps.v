(** C86: Skiplist with a comparison function that panics. *)
From Verif Require Import Base History RbSpec MapSpec SkipModel SkipSpec SkipProofs SkipOps SkipProps CrashModel CrashSpec CrashProofs CrashSkipModel.
Open Scope Z_scope.
Open Scope go_scope.
Open Scope x_scope.

Section attempts.
  Context {S C A O R : Type} (x : O → X (S * C) R) (m : O → M S R) (spec : O → A → option (R * A)) (may : O → Prop) (partway : O → A → A → Prop) (rel : S → A → Prop) (ok : O → Prop).
  Lemma attempts_recovered_ok : (∀ o s a, ok o → rel s a → agrees rel (m o s) (spec o a) ∧ cr (λ s', ∃ a', partway o a a' ∧ rel s' a') (may o) (x o) (m o) s) →
    ∀ ops s a c, Forall ok ops → rel s a → ∃ rs s' c' a', attempts x ops (s, c) = Some (rs, (s', c')) ∧ recovered spec may partway ops a rs a' ∧ rel s' a'.
  Proof.
    intros Hst ops. induction ops as [|o ops IH]; intros s a c Hok Hr. { exists [], s, c, a. split_and!; [done|constructor|done]. }
    apply Forall_cons in Hok as [Ho Hok]. destruct (Hst o s a Ho Hr) as [H1 H2]. specialize (H2 c). cbn [attempts]. unfold agrees in H1.
    assert (∀ s1 c1 a1, (spec o a = None ∨ may o) → x o (s, c) = (Panic, (s1, c1)) → partway o a a1 → rel s1 a1 → ∃ rs s' c' a', match x o (s, c) with (Ok r, s') => (λ p, (Answer r :: p.1, p.2)) <$> attempts x ops s' | (Panic, s') => (λ p, (Recovered :: p.1, p.2)) <$> attempts x ops s' | (Fuel, _) => None end = Some (rs, (s', c')) ∧ recovered spec may partway (o :: ops) a rs a' ∧ rel s' a') as Hp.
    { intros s1 c1 a1 Hm -> Hp Hr1. destruct (IH s1 a1 c1 Hok Hr1) as (rs & s' & c' & a' & E1 & Hrec & Hr'). exists (Recovered :: rs), s', c', a'. rewrite E1. split_and!; [done|by eapply rec_panic|done]. }
    destruct (spec o a) as [[r a1]|] eqn:Es.
    - destruct H1 as (s1 & E1 & Hr1). rewrite E1 in H2. destruct H2 as [(c1 & E2)|(Hm & s2 & c2 & E2 & a2 & Hp2 & Hr2)]; [|by eapply Hp; eauto].
      destruct (IH s1 a1 c1 Hok Hr1) as (rs & s' & c' & a' & E3 & Hrec & Hr'). exists (Answer r :: rs), s', c', a'. rewrite E2, E3. split_and!; [done|by eapply rec_answer|done].
    - rewrite H1 in H2. destruct H2 as (s2 & c2 & E2 & a2 & Hp2 & Hr2). eapply Hp; eauto.
  Qed.
End attempts.

Section skiplist.
  Context {K V W C : Type} (u : user_cmp K C) (cmp : K → K → Z) (Hu : agrees_with u cmp).
  Implicit Types s : skip K V.
  Notation Q := (can_panic u).
  (** the same but for the scratch slice of findPrevNodes *)
  Definition scratch s0 s : Prop := sk_els s = sk_els s0 ∧ sk_head s = sk_head s0 ∧ sk_max s = sk_max s0 ∧ sk_len s = sk_len s0 ∧ length (sk_cache s) = length (sk_cache s0).
  Lemma ro_el p s a s' : el p s = Ok (a, s') → s' = s.
  Proof using. unfold el. destruct p as [p|]; [|done]. destruct (sk_els s !! p); [|done]. by intros [= _ ->]. Qed.
  Lemma ro_nextat r i s a s' : nextat r i s = Ok (a, s') → s' = s.
  Proof using. unfold nextat. destruct r as [p|]; [destruct (sk_els s !! p) as [e|]; [|done]|]; destruct (idx _ _); try done; by intros [= _ ->]. Qed.
  Lemma ro_prevat i s a s' : prevat i s = Ok (a, s') → s' = s.
  Proof using. unfold prevat. destruct (idx _ _) as [[?|]| |]; try done. by intros [= _ ->]. Qed.
  Lemma setprev_scratch s0 i r s a s' : scratch s0 s → setprev i r s = Ok (a, s') → scratch s0 s'.
  Proof using.
    intros (H1 & H2 & H3 & H4 & H5). unfold setprev. destruct (upd _ _ _) as [c| |] eqn:E; try done. intros [= _ <-]. unfold scratch. cbn. split_and!; try done. rewrite <-H5.
    revert E. unfold upd. destruct (_ && _); [|done]. intros [= <-]. by rewrite insert_length.
  Qed.
  Ltac rd H := apply cr_runb; [done|intros ? ? E1; pose proof (H _ _ _ _ E1) as ->; clear E1].
  Ltac rd2 H := apply cr_runb; [done|intros ? ? E1; pose proof (H _ _ _ _ _ E1) as ->; clear E1].
  Lemma c_walk s0 f key i p n s : scratch s0 s → cr (scratch s0) Q (x_walk u f key i p n) (walk cmp f key i p n) s.
  Proof using Hu.
    intros Hs. revert p n. induction f as [|f IH]; intros p n; cbn [x_walk walk]; [apply cr_fuel|]. destruct n as [n|]; [|apply cr_ret]. rd ro_el. eapply cr_cmp; [exact Hu|done|done|].
    destruct (_ >=? _); [apply cr_ret|]. rd2 ro_nextat. apply IH.
  Qed.
  Lemma walk_same f key i p n s a s' : walk cmp f key i p n s = Ok (a, s') → s' = s.
  Proof using.
    revert p n. induction f as [|f IH]; intros p n; cbn [walk]; [done|]. destruct n as [n|]; [|by intros [= _ ->]]. unfold mbind_. destruct (el _ s) as [[e s1]| |] eqn:E; [|done|done]. pose proof (ro_el _ _ _ _ E). subst s1.
    destruct (_ >=? _); [by intros [= _ ->]|]. destruct (nextat _ _ s) as [[q s1]| |] eqn:E1; [|done|done]. pose proof (ro_nextat _ _ _ _ _ E1). subst s1. apply IH.
  Qed.
  Lemma c_prev_loop s0 lv f key p s : scratch s0 s → cr (scratch s0) Q (x_prev_loop u lv f key p) (prev_loop cmp lv f key p) s.
  Proof using Hu.
    revert p s. induction lv as [|lv IH]; intros p s Hs; cbn [x_prev_loop prev_loop]; [apply cr_ret|]. cbv zeta. rd2 ro_nextat. apply cr_bind.
    { destruct a; [|apply cr_ret]. rd2 ro_nextat. by apply c_walk. }
    intros q s1 E1. assert (s1 = s) as ->.
    { destruct a; [|by injection E1]. revert E1. unfold mbind_. destruct (nextat p _ s) as [[q1 s2]| |] eqn:E2; [|done|done]. pose proof (ro_nextat _ _ _ _ _ E2). subst s2. apply walk_same. }
    apply cr_runb; [done|]. intros ? s2 E2. apply IH. by eapply setprev_scratch.
  Qed.
  Lemma prev_loop_scratch s0 lv f key p s a s' : scratch s0 s → prev_loop cmp lv f key p s = Ok (a, s') → scratch s0 s'.
  Proof using.
    revert p s. induction lv as [|lv IH]; intros p s Hs; cbn [prev_loop]; [by intros [= _ <-]|]. cbv zeta. unfold mbind_ at 1. destruct (nextat None _ s) as [[h s1]| |] eqn:E; [|done|done]. pose proof (ro_nextat _ _ _ _ _ E). subst s1.
    unfold mbind_ at 1. match goal with |- match ?X with _ => _ end = _ → _ => destruct X as [[q s1]| |] eqn:E1; [|done|done] end. assert (s1 = s) as ->.
    { destruct h; [|by injection E1]. revert E1. unfold mbind_. destruct (nextat p _ s) as [[q1 s2]| |] eqn:E2; [|done|done]. pose proof (ro_nextat _ _ _ _ _ E2). subst s2. apply walk_same. }
    unfold mbind_ at 1. destruct (setprev _ _ s) as [[? s2]| |] eqn:E2; [|done|done]. apply IH. by eapply setprev_scratch.
  Qed.
  Lemma c_find key s : cr (scratch s) Q (x_findPrevNodes u key) (findPrevNodes cmp key) s.
  Proof using Hu. unfold x_findPrevNodes, findPrevNodes. apply cr_runb; [done|]. intros ? ? [= <- <-]. apply cr_runb; [done|]. intros ? ? [= <- <-]. by apply c_prev_loop. Qed.
  Lemma find_scratch key s a s' : findPrevNodes cmp key s = Ok (a, s') → scratch s s'.
  Proof using. unfold findPrevNodes, mbind_, getmax, walkfuel. by apply prev_loop_scratch. Qed.
  Lemma c_insert w key v s : cr (scratch s) Q (x_sk_Insert u w key v) (sk_Insert cmp w key v) s.
  Proof using Hu.
    unfold x_sk_Insert, sk_Insert. apply cr_bind; [apply c_find|]. intros ? s1 Hs%find_scratch. rd ro_prevat. rd2 ro_nextat. apply cr_bind.
    { destruct a1; [|apply cr_ret]. rd ro_el. eapply cr_cmp; [exact Hu|done|done|]. apply cr_ret. }
    intros same s2 E. assert (s2 = s1) as ->.
    { destruct a1; [|by injection E]. revert E. unfold mbind_. destruct (el _ s1) as [[e s3]| |] eqn:E1; [|done|done]. pose proof (ro_el _ _ _ _ E1). subst s3. by intros [= _ ->]. }
    by apply cr_run.
  Qed.
  Lemma c_remove key s : cr (scratch s) Q (x_sk_Remove u key) (sk_Remove cmp key) s.
  Proof using Hu.
    unfold x_sk_Remove, sk_Remove. apply cr_bind; [apply c_find|]. intros ? s1 Hs%find_scratch. rd ro_prevat. rd2 ro_nextat. destruct a1; [|apply cr_ret]. rd ro_el. eapply cr_cmp; [exact Hu|done|done|]. by apply cr_run.
  Qed.
  Lemma c_get_walk s0 f key i p n s : scratch s0 s → cr (scratch s0) Q (x_get_walk u f key i p n) (get_walk cmp f key i p n) s.
  Proof using Hu.
    intros Hs. revert p n. induction f as [|f IH]; intros p n; cbn [x_get_walk get_walk]; [apply cr_fuel|]. destruct n as [n|]; [|apply cr_ret]. rd ro_el. eapply cr_cmp; [exact Hu|done|done|].
    destruct (_ =? _); [apply cr_ret|]. destruct (_ >? _); [apply cr_ret|]. rd2 ro_nextat. apply IH.
  Qed.
  Lemma get_walk_same f key i p n s a s' : get_walk cmp f key i p n s = Ok (a, s') → s' = s.
  Proof using.
    revert p n. induction f as [|f IH]; intros p n; cbn [get_walk]; [done|]. destruct n as [n|]; [|by intros [= _ ->]]. unfold mbind_. destruct (el _ s) as [[e s1]| |] eqn:E; [|done|done]. pose proof (ro_el _ _ _ _ E). subst s1.
    destruct (_ =? _); [by intros [= _ ->]|]. destruct (_ >? _); [by intros [= _ ->]|]. destruct (nextat _ _ s) as [[q s1]| |] eqn:E1; [|done|done]. pose proof (ro_nextat _ _ _ _ _ E1). subst s1. apply IH.
  Qed.
  Lemma c_get key s : cr (scratch s) Q (x_sk_Get u key) (sk_Get cmp key) s.
  Proof using Hu.
    unfold x_sk_Get, sk_Get. apply cr_runb; [done|]. intros ? ? [= <- <-]. apply cr_runb; [done|]. intros ? ? [= <- <-]. generalize (@None nat). generalize (S (length (sk_els s))). intros f.
    induction (Z.to_nat (sk_max s)) as [|lv IH]; intros p; cbn [x_get_loop get_loop]; [apply cr_ret|]. cbv zeta. rd2 ro_nextat. apply cr_bind; [by apply c_get_walk|]. intros r s1 E1. apply get_walk_same in E1 as ->. destruct r; [apply cr_ret|apply IH].
  Qed.
  (** the operations that compare keys *)
  Definition sk_compares (o : sk_op K V W) : bool := match o with SInsert _ _ _ | SGet _ | SRemove _ => true | _ => false end.
  Lemma sholds_scratch (max : nat) s s' l : sholds cmp max s l → scratch s s' → sholds cmp max s' l.
  Proof using.
    intros [xs H] (H1 & H2 & H3 & H4 & H5). exists xs. replace s' with (with_cache s (sk_cache s')); [by apply inv_with_cache|]. destruct s, s'. unfold with_cache. cbn in *. by subst.
  Qed.
  Lemma c_step (CO : CmpOK cmp) (max : nat) (o : sk_op K V W) s l : sk_op_ok o → sholds cmp max s l → cr (λ s', ∃ l', untouched o l l' ∧ sholds cmp max s' l') (sk_compares o = true ∧ Q) (x_sk_step u o) (sk_step cmp o) s.
  Proof using Hu.
    intros Ho Hh. assert (∀ s', scratch s s' → ∃ l', untouched o l l' ∧ sholds cmp max s' l') as Hsc by (intros s' H; exists l; split; [done|by eapply sholds_scratch]).
    assert (cr (scratch s) (sk_compares o = true ∧ Q) (x_sk_step u o) (sk_step cmp o) s) as H; [|eapply cr_mono; [exact H|exact Hsc]].
    destruct o as [w k v|k|k| | |vis w]; cbn [x_sk_step sk_step sk_compares].
    1-3: eapply cr_weak; [apply cr_bind; [first [apply c_insert|apply c_get|apply c_remove]|intros ? ? _; apply cr_ret]|done|done].
    all: apply cr_run; intros _; done.
  Qed.
  (** every call answers as the ascending list of pairs does, or ends in the panic of the comparison function and
      changes nothing *)
  Theorem skiplist_survives_panics (CO : CmpOK cmp) max (ops : list (sk_op K V W)) c : 1 <= max <= 64 → Forall sk_op_ok ops →
    ∃ s0 rs w l, sk_New max = Ok s0 ∧ attempts (x_sk_step u) ops (s0, c) = Some (rs, w) ∧ recovered (sk_spec cmp) (λ o, sk_compares o = true ∧ can_panic u) untouched ops [] rs l.
  Proof using Hu.
    intros Hm Hok. destruct (new_inv (V := V) cmp (Z.to_nat max)) as (s0 & E0 & Hinv); [lia|]. rewrite Z2Nat.id in E0 by lia.
    destruct (attempts_recovered_ok (x_sk_step u) (sk_step cmp) (sk_spec cmp) (λ o, sk_compares o = true ∧ can_panic u) untouched (sholds cmp (Z.to_nat max)) sk_op_ok) with (ops := ops) (s := s0) (a := @nil (K * V)) (c := c) as (rs & s' & c' & l & H1 & H2 & _).
    - intros o s l Ho Hh. split; [by apply step_agrees|by apply c_step].
    - done.
    - by exists [].
    - by exists s0, rs, (s', c'), l.
  Qed.
End skiplist.
Print Assumptions skiplist_survives_panics.

(** panics once, after n comparisons *)
Definition sbomb : user_cmp Z nat := λ a b n, match n with 1%nat => (None, 0%nat) | S n => (Some (a - b), n) | O => (Some (a - b), 0%nat) end.
Example sbomb_agrees : agrees_with sbomb Z.sub.
Proof. intros a b [|[|n]] z c'; cbn; intros [= <- _]; done. Qed.
Definition panicking : list (sk_op Z Z unit) := [SInsert 5 3 30; SInsert 6 1 10; SInsert 1 2 20; SLen; SKeys; SInsert 1 2 20; SGet 2; SKeys].
Example panicking_ok : Forall sk_op_ok panicking. Proof. repeat constructor; cbn; lia. Qed.
Example panicking_run : ∃ s0 rs w, sk_New 4 = Ok s0 ∧ attempts (x_sk_step sbomb) panicking (s0, 4%nat) = Some (rs, w) ∧
  rs = [Answer SUnit; Answer SUnit; Recovered; Answer (SInt 2); Answer (SKeyList [1; 3]); Answer SUnit; Answer (SVal (Some 20)); Answer (SKeyList [1; 2; 3])].
Proof. eexists _, _, _. split; [reflexivity|]. split; [vm_compute; reflexivity|reflexivity]. Qed.
