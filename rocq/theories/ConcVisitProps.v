(** Property C67: what a visitor may do to the goroutine-safe container that calls it. *)
From Verif Require Import Base History ConcModel ConcSpec ConcProofs ConcProps ConcTables ConcPlay RbModel SetModel SetSpec ConcVisitModel ConcVisit ConcVisitSim RbTree RbRot RbIns RbIns2 RbDel RbNav RbDel2 RbSpec RbFind RbProps RbApi MapModel MapSpec MapProofs SetProofs ConcInst.

Section props.
  Context {S O R : Type} (lock : O → mode) (body : O → prog S R).
  Lemma exec_bind {R0} (q : prog S R0) (k : R0 → prog S R) s : exec (bindp q k) s = exec (k (exec q s).1) (exec q s).2.
  Proof using. revert s. induction q as [r|w q IH|l q IH|l q IH|l q IH|l q IH|l q IH]; intros s; cbn [bindp exec]; [done | apply IH | apply IH..]. Qed.
  Lemma exec_locked m (q : prog S R) s : exec (locked m q) s = exec q s.
  Proof using. destruct m; cbn [locked exec]; rewrite exec_bind; cbn; by destruct (exec q s). Qed.
  Lemma exec_alone v s : (∀ o, lock o = Rd → reading (body o)) → callbacks_read lock v → exec (alone lock body v) s = exec (expand lock body v) s.
  Proof using.
    intros Hr. revert s. induction v as [r|w v IH|o v IH]; intros s Hv; cbn [alone expand exec]; [done | |].
    - destruct (Hv s) as [-> H]. by apply IH.
    - destruct Hv as [Ho Hv]. rewrite Ho. cbn [exec]. unfold guarded. rewrite !exec_bind, exec_locked. cbn [exec]. by apply IH.
  Qed.
  Context (Hplain : ∀ o, plain (body o)) (Hread : ∀ o, lock o = Rd → reading (body o)).

  (** with visitors that call only reading methods, beside all other methods: every history has the
      results of an order of the calls (a Traversal with all its visits being one call) ... *)
  Theorem callbacks_linearizable_aux s h c : execution (vmethod lock body) s h c → (∀ i v, EInv i (VTraversal v) ∈ h → callbacks_read lock v) →
    ∃ L s', linearizes h L ∧ one_by_one (vmethod lock body) L s s'.
  Proof using Hplain Hread.
    intros Hex Hg. destruct (matches_execution lock body Hplain s h c Hex) as (D & c' & _ & Hex'). { intros i [o|v] Hi; [done|]. by eapply Hg. }
    destruct (locked_linearizable _ _ s h c' (abody_plain lock body Hplain Hread) (abody_reading lock body Hread) Hex') as (L & s' & Hlin & Hone).
    exists L, s'. split; [done|]. assert (Forall (λ x : nat * vcall S O R * R, match x.1.2 with VTraversal v => callbacks_read lock v | _ => True end) L) as HL.
    { apply Forall_forall. intros [[i o] r] Hx. destruct o; [done|]. cbn. eapply Hg, (lin_called _ _ Hlin), Hx. }
    clear -HL Hone Hread. revert s Hone. induction HL as [|[[i o] r] L Ho HL IH]; intros s; cbn [one_by_one]; [done|]. intros (s1 & E & Hone). exists s1. split; [|by apply IH].
    rewrite <- E. destruct o as [o|v]; cbn [vmethod abody]; unfold guarded; rewrite exec_locked; [done|]. symmetry. by apply exec_alone.
  Qed.
  (** ... memory accesses that may happen at the same time are reads ... *)
  Lemma er_act_inv n w k p' : er n (PAct (S := S) (R := R) w k) p' → ∃ w' k', p' = PAct w' k' ∧ ∀ s, w s = w' s.
  Proof using. intros H. inversion H; subst. eauto. Qed.
  Lemma callbacks_no_race s h c i j w k w' k' : execution (vmethod lock body) s h c → (∀ i v, EInv i (VTraversal v) ∈ h → callbacks_read lock v) → i ≠ j →
    calls c !! i = Some (Running (PAct w k)) → calls c !! j = Some (Running (PAct w' k')) → (∀ m, w m = m) ∧ (∀ m, w' m = m).
  Proof using Hplain Hread.
    intros Hex Hg Hne Hi Hj. destruct (matches_execution lock body Hplain s h c Hex) as (D & d & Hm & Hex'). { intros a [o|v] Ha; [done|]. by eapply Hg. }
    pose proof (mt_calls _ _ _ Hm i) as H1. pose proof (mt_calls _ _ _ Hm j) as H2. rewrite Hi in H1. rewrite Hj in H2.
    destruct (calls d !! i) as [[p|]|] eqn:Ei; [|done..]. destruct (calls d !! j) as [[q|]|] eqn:Ej; [|done..].
    apply er_act_inv in H1 as (w1 & k1 & -> & H1). apply er_act_inv in H2 as (w2 & k2 & -> & H2).
    destruct (no_race _ _ (abody_plain lock body Hplain Hread) (abody_reading lock body Hread) s h d i j _ _ _ _ Hex' Hne Ei Ej) as [A B].
    split; intros m; rewrite ?H1, ?H2; auto.
  Qed.
  (** ... and when nothing can go on although a call has not returned, a visitor waits for RLock
      because a call of a writing method, which waits for Traversal to end, has asked for Lock *)
  Lemma callbacks_stuck s h c i p : execution (vmethod lock body) s h c → (∀ i v, EInv i (VTraversal v) ∈ h → callbacks_read lock v) →
    calls c !! i = Some (Running p) →
    (∃ c', goes_on (vmethod lock body) c c') ∨
    ∃ j o k p' q, EInv j (VMethod o) ∈ h ∧ lock o = Wr ∧ calls c !! j = Some (Running (PLocking 0 q)) ∧ calls c !! k = Some (Running (PRLock 0 p')) ∧ (0 < rw_readers (lks c 0%nat))%nat.
  Proof using Hplain Hread.
    intros Hex Hg Hi. destruct (matches_execution lock body Hplain s h c Hex) as (D & d & Hm & Hex'). { intros a [o|v] Ha; [done|]. by eapply Hg. }
    pose proof (mt_calls _ _ _ Hm i) as H1. rewrite Hi in H1. destruct (calls d !! i) as [[p'|]|] eqn:Ei; [|done..].
    destruct (progress _ _ (abody_plain lock body Hplain Hread) (abody_reading lock body Hread) s h d i p' Hex' Ei) as [d' Hgo].
    destruct c as [cs cf cc], d as [ds df dc]. destruct Hm as [M1 M2 M3 M4]. cbn in *. subst ds.
    destruct Hgo as [Hgo|(j & r & Hgo)]; inversion Hgo as [|a1 a2 a3 j' q q' s' f' Hj Hp|a1 a2 a3 j' r' Hj]; subst.
    2:{ left. pose proof (M4 j) as Hc. rewrite Hj in Hc. destruct (cc !! j) as [[q|]|] eqn:Ej; [|done..]. inversion Hc; subst. eexists. right. eexists _, _. by constructor. }
    pose proof (M4 j') as Hc. rewrite Hj in Hc. destruct (cc !! j') as [[a|]|] eqn:Ej; [|done..].
    assert (Hgo' : (∃ p' s' f', pstep a cs cf p' s' f') → ∃ c', goes_on (vmethod lock body) (MkCfg cs cf cc) c'). { intros (x & y & z & Hx). eexists. left. by eapply ConcModel.ms_step. }
    inversion Hp; subst; inversion Hc; subst.
    - left. apply Hgo'. do 3 eexists. constructor.
    - (* the visitor's RLock *) rename p0 into a.
      match type of M2 with context[rw_writer (?g 0%nat)] => destruct (rw_writer (g 0%nat)) eqn:Ew end; [|left; apply Hgo'; do 3 eexists; constructor; exact M2]. right.
      destruct (inv_execution _ _ (abody_plain lock body Hplain Hread) (abody_reading lock body Hread) _ _ _ Hex') as (L & A & rs & w & win & Hinv).
      pose proof (iv_lock _ _ _ _ _ _ _ _ _ _ Hinv) as Hlk. cbn in Hlk. rewrite Hlk in Ew. cbn in Ew. apply bool_decide_eq_true in Ew as [x ->].
      assert (size rs ≠ 0%nat) as Hrs. { rewrite Hlk in M3. cbn in M3. rewrite M3. assert (j' ∈ D) as Hin by (apply held_elem; lia). intros E0. apply size_empty_inv in E0. set_solver. }
      pose proof (iv_call _ _ _ _ _ _ _ _ _ _ Hinv x) as Hx. cbn in Hx. pose proof (M4 x) as Mx. destruct (dc !! x) as [[q|]|]; [| by destruct Hx | by destruct Hx as (_ & _ & _ & ? & ?)].
      destruct Hx as (_ & o & Ho & Hph). destruct Hph as [(_ & _ & _ & E)|[(Hw & -> & _)|[(_ & _ & E & _)|[(_ & _ & _ & E & _)|(_ & E & _)]]]]; [done | | done | subst rs; by rewrite size_empty in Hrs | done].
      destruct o as [o|v]; [|done]. cbn in Hw. destruct (cc !! x) as [[b|]|] eqn:Ex; [|done..]. inversion Mx; subst.
      exists x, o, j', a, p0. split_and!; [done.. |]. rewrite M2. cbn. pose proof (held_le j' D). lia.
    - left. apply Hgo'. assert (j' ∈ D) as Hin by (apply held_elem; lia). destruct D; [by apply elem_of_nil in Hin|]. do 3 eexists. eapply ps_runlock. exact M2.
    - left. apply Hgo'. do 3 eexists. constructor. rewrite M2. rewrite H. done.
    - left. apply Hgo'. assert (j' ∈ D) as Hin by (apply held_elem; lia). destruct D; [by apply elem_of_nil in Hin|]. do 3 eexists. eapply ps_runlock. exact M2.
    - left. apply Hgo'. do 3 eexists. constructor. rewrite M2. rewrite H. done.
    - left. apply Hgo'. do 3 eexists. eapply ps_locking. rewrite M2. rewrite H in M3. cbn in M3. symmetry in M3. apply size_empty_inv in M3. destruct D; [done|]. set_solver.
    - left. apply Hgo'. do 3 eexists. constructor. rewrite M2. rewrite H. done.
  Qed.
  (** a traversal whose visitor surely calls a writing method never returns *)
  Lemma callbacks_write_never s h c i v : execution (vmethod lock body) s h c → EInv i (VTraversal v) ∈ h → must_write lock v → ∀ r, ERet i r ∉ h.
  Proof using Hplain.
    intros Hex Hi Hv r Hr. destruct (counted_execution _ _ (visit_kept lock body Hplain) s h c Hex) as [D Hc].
    destruct (cn_ret _ _ _ _ Hc i r Hr) as (o & Ho & Hb). assert (o = VTraversal v) as ->.
    { apply elem_of_list_split in Hi as (h1 & h2 & E). rewrite E in Ho. pose proof (calls_unique _ _ _ _ Hex h1 h2 i (VTraversal v) o E) as Hu.
      apply elem_of_app in Ho as [Ho|[Ho|Ho]%elem_of_cons]; [by destruct Hu; apply elem_of_app; left | congruence | by destruct Hu; apply elem_of_app; right]. }
    by apply Hb in Hv.
  Qed.
End props.

(** C67, the part that holds.  Visitors that call only reading methods (of any container whose methods
    hold its lock throughout): calls stay linearizable, nothing is accessed in a race; the one thing that
    can go wrong is the deadlock described under callbacks_stuck; it needs a call of a writing method, so
    without such calls all goes on; and the number of steps is always finite. *)
Theorem callbacks_partial {S O R} (lock : O → mode) (body : O → prog S R) s h c :
  (∀ o, plain (body o)) → (∀ o, lock o = Rd → reading (body o)) →
  execution (vmethod lock body) s h c → (∀ i v, EInv i (VTraversal v) ∈ h → callbacks_read lock v) →
  (∃ L s', linearizes h L ∧ one_by_one (vmethod lock body) L s s') ∧
  (∀ i j w k w' k', i ≠ j → calls c !! i = Some (Running (PAct w k)) → calls c !! j = Some (Running (PAct w' k')) → (∀ m, w m = m) ∧ (∀ m, w' m = m)) ∧
  ((∀ i o, EInv i (VMethod o) ∈ h → lock o = Rd) → ∀ i p, calls c !! i = Some (Running p) → ∃ c', goes_on (vmethod lock body) c c') ∧
  (∀ i p, calls c !! i = Some (Running p) → (∃ c', goes_on (vmethod lock body) c c') ∨
     ∃ j o k p' q, EInv j (VMethod o) ∈ h ∧ lock o = Wr ∧ calls c !! j = Some (Running (PLocking 0 q)) ∧ calls c !! k = Some (Running (PRLock 0 p')) ∧ (0 < rw_readers (lks c 0%nat))%nat).
Proof.
  intros Hp Hr Hex Hg. split_and!.
  - by apply (callbacks_linearizable_aux lock body Hp Hr s h c).
  - intros i j w k w' k'. by apply (callbacks_no_race lock body Hp Hr s h c).
  - intros Hrd i p Hi. destruct (callbacks_stuck lock body Hp Hr s h c i p Hex Hg Hi) as [?|(j & o & _ & _ & _ & Hj & Ho & _)]; [done|]. rewrite (Hrd j o Hj) in Ho. done.
  - intros i p Hi. by apply (callbacks_stuck lock body Hp Hr s h c i p).
Qed.
Print Assumptions callbacks_partial.
(** a visitor that surely calls a writing method keeps Traversal from ever returning, even if no other
    call is ever made *)
Theorem callback_write_never_returns {S O R} (lock : O → mode) (body : O → prog S R) s h c i v :
  (∀ o, plain (body o)) → execution (vmethod lock body) s h c → EInv i (VTraversal v) ∈ h → must_write lock v → ∀ r, ERet i r ∉ h.
Proof. intros Hp. by apply callbacks_write_never. Qed.
Print Assumptions callback_write_never_returns.

(** ---------- the set ---------- *)
(** methods return lists of results, as the visitor collects them *)
Definition implements1 {S O R} (step : O → M S R) (body : O → prog S (option (list R))) : Prop := ∀ o s,
  match step o s with Ok (r, s') => exec (body o) s = (Some [r], s') | Panic => exec (body o) s = (None, s) | Fuel => True end.
Definition whole1 {S O R} (step : O → M S R) (o : O) : prog S (option (list R)) := bindp (whole step o) (λ r, PDone ((λ x, [x]) <$> r)).
(** specification: a method answers as in C33; Traversal visits the elements in ascending order and
    each call of the visitor is answered for the same contents *)
Definition answer {T} (cmp : T → T → Z) (l : list T) (o : set_op T unit) : list (set_res T unit) := match set_spec cmp o l with Some (r, _) => [r] | None => [] end.
Definition visit_allows {T} (cmp : T → T → Z) (c : vcall (rb T bool) (set_op T unit) (option (list (set_res T unit)))) (l : list T) (r : option (list (set_res T unit))) (l' : list T) : Prop :=
  match c with
  | VMethod o => match set_spec cmp o l with Some (x, l1) => r = Some [x] ∧ l' = l1 | None => r = None ∧ l' = l end
  | VTraversal v => ∃ vis, v = set_visit vis ∧ l' = l ∧ r = Some (mjoin ((λ x, mjoin (answer cmp l <$> vis x)) <$> l))
  end.
Section set.
  Context {T : Type} (cmp : T → T → Z) (CO : CmpOK cmp).
  Notation SR := (option (list (set_res T unit))).
  Context (body : set_op T unit → prog (rb T bool) SR) (Himp : implements1 (set_step cmp) body).
  Notation lk := (set_lock_ (T := T) (W := unit)).
  Lemma read_answer (o : set_op T unit) l : lk o = Rd → ∃ r, set_spec cmp o l = Some (r, l).
  Proof using. destruct o; cbn; intros Hl; try discriminate Hl; eauto. Qed.
  Lemma exec_read (o : set_op T unit) s l : lk o = Rd → asholds cmp s l → exec (body o) s = (Some (answer cmp l o), s).
  Proof using CO Himp.
    intros Hl H. destruct (read_answer o l Hl) as [r Hr]. pose proof (set_agrees (W := unit) cmp CO o s l H) as A. rewrite Hr in A. destruct A as (s' & E & _).
    pose proof (set_readers_read cmp o s r s' Hl E) as ->. pose proof (Himp o s) as Hi. rewrite E in Hi. rewrite Hi. unfold answer. by rewrite Hr.
  Qed.
  Notation ex := (λ v s, exec (expand lk body v) s).
  Lemma exec_calls os acc k s l : (∀ o, o ∈ os → lk o = Rd) → asholds cmp s l → ex (visit_calls os acc k) s = ex (k (acc ++ mjoin (answer cmp l <$> os))) s.
  Proof using CO Himp.
    intros Ho H. revert acc. induction os as [|o os IH]; intros acc; cbn [visit_calls fmap list_fmap mjoin list_join]; [by rewrite app_nil_r|].
    cbn [expand]. unfold guarded. rewrite exec_bind, exec_locked. rewrite (exec_read o s l) by (try done; apply Ho; left). cbn [fst snd]. rewrite IH by set_solver. by rewrite <- app_assoc.
  Qed.
  Lemma exec_nodes vis s t l L R f acc : (∀ x o, o ∈ vis x → lk o = Rd) → asholds cmp s l → tinv cmp s t → io t = L ++ R → (length R < f)%nat →
    ex (visit_nodes f (hd R) vis acc) s = (Some (acc ++ mjoin ((λ x, mjoin (answer cmp l <$> vis x)) <$> R.*2.*1)), s).
  Proof using CO Himp.
    intros Hv Ha H. pose proof (tinv_rep _ _ _ H) as Hp. revert L R acc. induction f as [|f IH]; intros L R acc E1 Hf; [lia|]. destruct R as [|[a [k v]] R]; [cbn; by rewrite app_nil_r|].
    cbn [visit_nodes hd head fmap option_fmap option_map fst]. unfold look at 1. cbn [expand exec]. rewrite (key_ok _ _ _ _ _ _ _ Hp E1). change (id s) with s. cbn [snd fst].
    rewrite (exec_calls _ _ _ s l) by (try done; intros o; apply Hv). unfold look. cbn [expand exec]. rewrite (next_ok _ _ _ _ _ _ _ Hp E1). change (id s) with s.
    change (fst <$> head R) with (hd R). rewrite (IH (L ++ [(a, (k, v))])); [|by rewrite <- app_assoc|cbn in Hf; lia]. cbn. by rewrite <- app_assoc.
  Qed.
  Lemma exec_visit vis s l : (∀ x o, o ∈ vis x → lk o = Rd) → asholds cmp s l → exec (vmethod lk body (VTraversal (set_visit vis))) s = (Some (mjoin ((λ x, mjoin (answer cmp l <$> vis x)) <$> l)), s).
  Proof using CO Himp.
    intros Hv H. cbn [vmethod]. rewrite exec_locked. pose proof H as [(t & Ht & El) _]. pose proof (tinv_rep _ _ _ Ht) as Hp. unfold set_visit, look. cbn [expand exec]. rewrite (hd_first _ _ Hp). change (id s) with s.
    unfold RbModel.fuel. cbn [expand exec]. change (id s) with s. rewrite (exec_nodes vis s t l [] (io t)); [by rewrite El | done..|]. pose proof (count_ok _ _ Hp). lia.
  Qed.
End set.
(** a goroutine-safe set, with visitors calling its reading methods beside all other calls *)
Theorem set_callbacks_partial {T} (cmp : T → T → Z) (CO : CmpOK cmp) (body : set_op T unit → prog (rb T bool) (option (list (set_res T unit)))) h c :
  implements1 (set_step cmp) body → (∀ o, plain (body o)) → (∀ o, set_lock_ o = Rd → reading (body o)) →
  (∀ i o, EInv i (VMethod o) ∈ h → set_call o) →
  (∀ i v, EInv i (VTraversal v) ∈ h → ∃ vis, v = set_visit vis ∧ ∀ x o, o ∈ vis x → set_lock_ o = Rd) →
  execution (vmethod set_lock_ body) set_new h c → ∃ L, linearizes h L ∧ legal (visit_allows cmp) L [].
Proof.
  intros Himp Hp Hr _ Hv Hex.
  assert (∀ vis : T → list (set_op T unit), (∀ x o, o ∈ vis x → set_lock_ o = Rd) → callbacks_read set_lock_ (set_visit vis)) as Hcr.
  { clear. intros vis Hv. assert (∀ f n acc, callbacks_read set_lock_ (visit_nodes f n vis acc)) as Hn.
    { intros f. induction f as [|f IH]; intros n acc; [done|]. destruct n as [a|]; [|done]. cbn [visit_nodes]. intros s. split; [done|]. destruct (key (Some a) s) as [[x s']| |]; [|done..].
      assert (∀ (os : list (set_op T unit)) acc k, (∀ o, o ∈ os → set_lock_ o = Rd) → (∀ acc, callbacks_read set_lock_ (k acc)) → callbacks_read set_lock_ (visit_calls (T := T) (R := set_res T unit) os acc k)) as Hc.
      { clear. induction os as [|o os IH]; intros acc k Ho Hk; [apply Hk|]. split; [apply Ho; left|]. intros [r|]; [|done]. apply IH; [set_solver | done]. }
      apply Hc; [apply Hv|]. intros acc' s2. split; [done|]. by destruct (next (Some a) s2) as [[x2 s3]| |]. }
    intros s. split; [done|]. destruct (rb_First s) as [[n s']| |]; [|done..]. intros s2. split; [done|]. apply Hn. }
  destruct (callbacks_linearizable_aux set_lock_ body Hp Hr set_new h c Hex) as (L & s' & Hlin & Hone). { intros i v Hi. destruct (Hv i v Hi) as (vis & -> & Hvis). by apply Hcr. }
  exists L. split; [done|].
  assert (Forall (λ x : nat * vcall _ _ _ * _, match x.1.2 with VMethod _ => True | VTraversal v => ∃ vis, v = set_visit vis ∧ ∀ y (o : set_op T unit), o ∈ vis y → set_lock_ o = Rd end) L) as HL.
  { apply Forall_forall. intros [[i o] r] Hx. destruct o; [done|]. cbn. eapply Hv, (lin_called _ _ Hlin), Hx. }
  assert (asholds cmp set_new []) as H0. { split; [|constructor]. apply sholds_holds. exists []. split; [by apply holds_new | done]. }
  clear -HL Hone H0 CO Himp. generalize dependent (@nil T). generalize dependent (set_new (T := T)).
  induction HL as [|[[i o] r] L Ho HL IH]; intros s Hone l Hl; [done|]. cbn [one_by_one legal] in *. destruct Hone as (s1 & E & Hone). destruct o as [o|v].
  - pose proof (set_agrees (W := unit) cmp CO o s l Hl) as A. cbn [vmethod] in E. unfold guarded in E. rewrite exec_locked in E. pose proof (Himp o s) as Hi. cbn [visit_allows]. unfold agrees in A.
    destruct (set_spec cmp o l) as [[x l1]|].
    + destruct A as (s2 & E2 & Hl2). rewrite E2 in Hi. rewrite Hi in E. injection E as <- <-. exists l1. split; [done|]. by eapply IH.
    + rewrite A in Hi. rewrite Hi in E. injection E as <- <-. exists l. split; [done|]. by eapply IH.
  - destruct Ho as (vis & -> & Hvis). rewrite (exec_visit cmp CO body Himp vis s l Hvis Hl) in E. injection E as <- <-. exists l. split; [by exists vis|]. by eapply IH.
Qed.
Print Assumptions set_callbacks_partial.

(** the full statement is false: a goroutine-safe set holding 1; one goroutine traverses it with a
    visitor that asks for the size, another inserts 2; both wait for ever *)
Notation zbody := (whole1 (set_step (T := Z) (W := unit) Z.sub)).
Definition stuck {S O R} (method : O → prog S R) (c : config S R) : Prop := ∀ c', ¬ goes_on method c c'.
(** a test for the deadlock: calls 0 and 1 are the only ones; 0 waits for RLock, 1 for Lock *)
Definition two_waiting {S R} (c : config S R) : bool :=
  match calls c !! 0%nat, calls c !! 1%nat, lks c 0%nat with
  | Some (Running (PRLock 0 _)), Some (Running (PLocking 0 _)), MkRw (Datatypes.S _) true => bool_decide (dom (calls c) = ({[0%nat; 1%nat]} : gset nat))
  | _, _, _ => false end.
Lemma two_waiting_stuck {S O R} (method : O → prog S R) (c : config S R) : two_waiting c = true → stuck method c.
Proof.
  unfold two_waiting. destruct (calls c !! 0%nat) as [[[r0|w0 k0|l p|l0 p0|l0 p0|l0 p0|l0 p0]|]|] eqn:Hi; try done. destruct l; [|done].
  destruct (calls c !! 1%nat) as [[[r0|w0 k0|l0 p0|l0 p0|l0 p0|l q|l0 p0]|]|] eqn:Hj; try done. destruct l; [|done]. destruct (lks c 0%nat) as [[|n] []] eqn:Hl; try done.
  intros Hd%bool_decide_eq_true cx [Hgo|(k & r & Hgo)]; inversion Hgo as [|a1 a2 a3 k' x x' s' f' Hk Hp|a1 a2 a3 k' r' Hk]; subst; cbn in *.
  - assert (k' = 0%nat ∨ k' = 1%nat) as [-> | ->]. { assert (k' ∈ dom a3) as Hin by (apply elem_of_dom; eauto). rewrite Hd in Hin. set_solver. }
    + rewrite Hk in Hi. injection Hi as ->. inversion Hp; congruence.
    + rewrite Hk in Hj. injection Hj as ->. inversion Hp; congruence.
  - assert (k = 0%nat ∨ k = 1%nat) as [-> | ->]; [|congruence..]. assert (k ∈ dom a3) as Hin by (apply elem_of_dom; eauto). rewrite Hd in Hin. set_solver.
Qed.
Definition size_asker : vcall (rb Z bool) (set_op Z unit) (option (list (set_res Z unit))) := VTraversal (set_visit (λ _, [SSize])).
Definition dead_schedule : list (action (vcall (rb Z bool) (set_op Z unit) (option (list (set_res Z unit))))) :=
  [ACall 0 size_asker; AStep 0; AStep 0; AStep 0; AStep 0; ACall 1 (VMethod (SInsert 2%Z)); AStep 1].
Theorem visitor_deadlock_refuted : ∃ s c,
  set_step (W := unit) Z.sub (SInsert 1%Z) set_new = Ok (QUnit, s) ∧
  execution (vmethod set_lock_ zbody) s [EInv 0%nat size_asker; EInv 1%nat (VMethod (SInsert 2%Z))] c ∧
  stuck (vmethod set_lock_ zbody) c ∧ (∀ i, i = 0%nat ∨ i = 1%nat → ∃ p, calls c !! i = Some (Running p)).
Proof.
  destruct (set_step (W := unit) Z.sub (SInsert 1%Z) set_new) as [[r s]| |] eqn:E; [|exfalso; vm_compute in E; discriminate..].
  assert (r = QUnit) as -> by (vm_compute in E; congruence). assert (s = match set_step (W := unit) Z.sub (SInsert 1%Z) set_new with Ok (_, s) => s | _ => set_new end) as Es by (by rewrite E).
  destruct (play (vmethod set_lock_ zbody) dead_schedule (start s)) as [[h c]|] eqn:Ep.
  2:{ exfalso. assert ((match play (vmethod set_lock_ zbody) dead_schedule (start s) with Some _ => true | None => false end) = true) as Hx; [|by rewrite Ep in Hx]. clear Ep; rewrite Es. vm_compute. reflexivity. }
  exists s, c. split; [done|].
  assert ((match play (vmethod set_lock_ zbody) dead_schedule (start s) with Some (_, c) => two_waiting c | None => false end) = true) as Hw. { rewrite Es. vm_compute. reflexivity. }
  rewrite Ep in Hw. assert (h = [EInv 0%nat size_asker; EInv 1%nat (VMethod (SInsert 2%Z))]) as ->.
  { revert Ep. unfold dead_schedule. cbn [play]. repeat match goal with |- context[play1 ?m ?c ?a] => destruct (play1 m c a) as [[? ?]|] eqn:? ; [|done] end. intros [= <- _].
    repeat match goal with H : play1 _ ?c (AStep ?i) = Some (?l, _) |- _ => assert (l = []) as -> by (cbn [play1] in H; destruct (calls c !! i) as [[?|]|]; [|done..]; destruct (play_step _ _ _) as [[[? ?] ?]|]; [|done]; by injection H as <-); clear H end.
    repeat match goal with H : play1 _ ?c (ACall ?i ?o) = Some (?l, _) |- _ => assert (l = [EInv i o]) as -> by (cbn [play1] in H; destruct (calls c !! i); [done|]; by injection H as <-); clear H end. done. }
  split; [by eapply play_sound|]. split; [by apply two_waiting_stuck|]. clear -Hw. unfold two_waiting in Hw. intros i [-> | ->].
  - destruct (calls c !! 0%nat) as [[p|]|]; [by eexists|done..].
  - destruct (calls c !! 0%nat) as [[[r0|w0 k0|l p|l0 p0|l0 p0|l0 p0|l0 p0]|]|]; try done. destruct l; [|done]. destruct (calls c !! 1%nat) as [[p'|]|]; [by eexists|done..].
Qed.
Print Assumptions visitor_deadlock_refuted.
(** the hypotheses are met: a set into which 1 and 2 are inserted, then traversed with a visitor that asks
    for the size, while Contains runs *)
Example callbacks_example :
  let vis : Z → list (set_op Z unit) := λ x, [SSize; SContains x] in
  implements1 (set_step Z.sub) zbody ∧ (∀ o, plain (zbody o)) ∧ (∀ o, set_lock_ o = Rd → reading (zbody o)) ∧ (∀ x o, o ∈ vis x → set_lock_ o = Rd) ∧
  ∃ c, execution (vmethod set_lock_ zbody) set_new
    [EInv 0%nat (VMethod (SInsert 1%Z)); ERet 0%nat (Some [QUnit]); EInv 1%nat (VTraversal (set_visit vis)); EInv 2%nat (VMethod (SContains 5%Z)); ERet 2%nat (Some [QBool false]); ERet 1%nat (Some [QInt 1; QBool true])] c.
Proof.
  cbv zeta. destruct (bodies_exist set_lock_ (set_step (T := Z) (W := unit) Z.sub) (set_readers_read Z.sub)) as [H1 H2]. split_and!.
  - intros o s. specialize (H1 o s). unfold whole1. rewrite exec_bind. destruct (set_step Z.sub o s) as [[r s']| |]; [by rewrite H1|by rewrite H1|done].
  - intros o s. exact I.
  - intros o Ho s. destruct (H2 o) as [_ Hr]. specialize (Hr Ho s). split; [apply Hr | exact I].
  - intros x o [->|[->|Ho%elem_of_nil]%elem_of_cons]%elem_of_cons; [done..|by destruct Ho].
  - apply (history_sound (vmethod set_lock_ zbody) _ ([ACall 0 (VMethod (SInsert 1%Z)); AStep 0; AStep 0; AStep 0; AStep 0; ARet 0; ACall 1 (VTraversal (set_visit (λ x, [SSize; SContains x]))); ACall 2 (VMethod (SContains 5%Z)); AStep 1; AStep 1; AStep 2; AStep 2; AStep 2]
      ++ [ARet 2] ++ replicate 9 (AStep 1) ++ [AStep 1; ARet 1])).
    vm_compute. reflexivity.
Qed.
Example must_write_example : must_write (set_lock_ (T := Z) (W := unit)) (R := option (list (set_res Z unit))) (S := rb Z bool) (VCall SSize (λ _, VCall (SErase 1%Z) (λ r, VRet r))).
Proof. right. intros r. by left. Qed.
