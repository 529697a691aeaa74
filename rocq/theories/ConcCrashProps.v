(** C102: linearizability of the goroutine-safe containers when the comparison function panics. *)
From Verif Require Import Base History ConcModel ConcSpec ConcProofs ConcProps ConcRo ConcTables ConcInst ConcPlay.
From Verif Require Import RbModel RbSpec MapModel MapSpec MapProofs MapProps SetModel SetSpec SetProofs SetProps HeapModel AnyCmpProps.
From Verif Require Import CrashModel CrashSpec CrashProofs CrashShift CrashStep CrashProps CrashAlgModel CrashAlgProofs CrashAlgProps ConcCrashSpec.
From Verif Require SkipModel SkipSpec SkipProofs SkipOps SkipProps CrashSkipModel CrashSkipProps.
Open Scope Z_scope.
Open Scope go_scope.
Open Scope x_scope.

(* ---------- any object ---------- *)
Section generic.
  Context {S C O R A : Type} (x : O → X (S * C) R) (lock : O → mode) (body : O * C → prog S (option R)).
  (** from steps to histories *)
  Lemma x_legal (allows : O * C → A → option R → A → Prop) (rel : S → A → Prop) (good : O → Prop) s a h cf :
    (∀ o c s a, good o → rel s a → match x o (s, c) with (Ok r, (s', _)) => ∃ a', allows (o, c) a (Some r) a' ∧ rel s' a' | (Panic, (s', _)) => ∃ a', allows (o, c) a None a' ∧ rel s' a' | (Fuel, _) => False end) →
    rel s a → x_implements x body → disciplined (call_lock lock) body →
    execution (guarded (call_lock lock) body) s h cf → (∀ i oc, EInv i oc ∈ h → good oc.1) → ∃ L, linearizes h L ∧ legal allows L a.
  Proof.
    intros Hst Hrel Himp Hdis Hex Hgood. destruct (locked_linearizable (call_lock lock) body s h cf) as (L & s' & Hlin & Hone); [apply Hdis | apply Hdis | done|].
    exists L. split; [done|]. assert (Forall (λ z, good z.1.2.1) L) as HL.
    { apply Forall_forall. intros [[i oc] r] Hx. eapply Hgood, (lin_called _ _ Hlin), Hx. }
    clear Hlin Hgood Hex. revert s a Hrel Hone HL. induction L as [|[[i [o c]] r] L IH]; intros s a Hrel Hone HL; [done|]. cbn [one_by_one legal] in *. destruct Hone as (s1 & E & Hone). inversion HL as [|? ? Ho HL']; subst. cbn in Ho.
    pose proof (Hst o c s a Ho Hrel) as Hstep. pose proof (Himp o c s) as Hi. destruct (x o (s, c)) as [[v| |] [s2 c2]]; [| |done].
    - destruct Hstep as (a' & Ha & Hr2). rewrite Hi in E. injection E as <- <-. exists a'. split; [done|]. by eapply IH.
    - destruct Hstep as (a' & Ha & Hr2). rewrite Hi in E. injection E as <- <-. exists a'. split; [done|]. by eapply IH.
  Qed.
  Lemma cr_legal (m : O → M S R) (spec : O → A → option (R * A)) (may : O → Prop) (partway : O → A → A → Prop) (rel : S → A → Prop) (good : O → Prop) s a h cf :
    (∀ o s a, good o → rel s a → agrees rel (m o s) (spec o a) ∧ cr (λ s', ∃ a', partway o a a' ∧ rel s' a') (may o) (x o) (m o) s) →
    rel s a → x_implements x body → disciplined (call_lock lock) body →
    execution (guarded (call_lock lock) body) s h cf → (∀ i oc, EInv i oc ∈ h → good oc.1) → ∃ L, linearizes h L ∧ legal (interruptible spec may partway) L a.
  Proof.
    intros Hst. apply x_legal. clear s a h cf. intros o c s a Ho Hr. destruct (Hst o s a Ho Hr) as [H1 H2]. specialize (H2 c). unfold agrees in H1.
    destruct (spec o a) as [[r a1]|] eqn:Es.
    - destruct H1 as (s1 & E1 & Hr1). rewrite E1 in H2. destruct H2 as [(c1 & ->)|(Hm & s2 & c2 & -> & a2 & Hp2 & Hr2)].
      + exists a1. by split.
      + exists a2. split; [|done]. split; [by right|done].
    - rewrite H1 in H2. destruct H2 as (s2 & c2 & -> & a2 & Hp2 & Hr2). exists a2. split; [|done]. split; [by left|done].
  Qed.
End generic.
(** bodies that meet the hypotheses exist when the operations that take RLock change nothing, whether they return or panic *)
Definition x_whole {S C O R} (x : O → X (S * C) R) (oc : O * C) : prog S (option R) :=
  PAct (λ s, (x oc.1 (s, oc.2)).2.1) (λ s, PDone (match (x oc.1 (s, oc.2)).1 with Ok r => Some r | _ => None end)).
Definition x_readers_read {S C O R} (lock : O → mode) (x : O → X (S * C) R) : Prop := ∀ o s c, lock o = Rd → (x o (s, c)).2.1 = s.
Theorem x_bodies_exist {S C O R} (lock : O → mode) (x : O → X (S * C) R) : x_readers_read lock x → x_implements x (x_whole x) ∧ disciplined (call_lock lock) (x_whole x).
Proof.
  intros H. split.
  - intros o c s. unfold x_whole. cbn [exec fst snd]. by destruct (x o (s, c)) as [[v| |] [s2 c2]].
  - intros [o c]. split; [done|]. intros Ho s. split; [|done]. by apply H.
Qed.
Print Assumptions x_bodies_exist.

(* ---------- what only reads ---------- *)
Definition xro {S C A} (x : X (S * C) A) : Prop := ∀ s c, (x (s, c)).2.1 = s.
Section xro.
  Context {S C : Type}.
  Lemma xro_ret {A} (a : A) : xro (xret a : X (S * C) A). Proof. done. Qed.
  Lemma xro_fuel {A} : xro (xfuel : X (S * C) A). Proof. done. Qed.
  Lemma xro_bind {A B} (m : X (S * C) A) (k : A → X (S * C) B) : xro m → (∀ a, xro (k a)) → xro (xbind m k).
  Proof. intros Hm Hk s c. unfold xbind. specialize (Hm s c). destruct (m (s, c)) as [[a| |] [s1 c1]]; cbn in Hm; subst s1; [apply Hk|done..]. Qed.
  Lemma xro_run {A} (m : M S A) : ro m → xro (xrun (C := C) m).
  Proof. intros Hm s c. unfold xrun. cbn [fst snd]. destruct (m s) as [[a s1]| |] eqn:E; [|done..]. cbn. by rewrite (Hm _ _ _ E). Qed.
  Lemma xro_cmp {K} (u : user_cmp K C) a b : xro (xcmp (S := S) u a b).
  Proof. intros s c. unfold xcmp. cbn [fst snd]. by destruct (u a b c) as [[z|] c']. Qed.
End xro.
Create HintDb xro.
#[local] Hint Resolve ro_get ro_root ro_size ro_fuel_ ro_parent ro_left ro_right ro_key ro_value ro_first ro_last ro_next : ro.
Ltac xro_go := repeat first [apply xro_ret | apply xro_fuel | apply xro_cmp | assumption | solve [eauto with xro] | apply xro_bind; [|intros ?] | apply xro_run; solve [ro_go] | progress case_match | progress cbn beta iota].
Section rb.
  Context {K V C : Type} (u : user_cmp K C).
  Lemma xro_lowerl f : ∀ x k, xro (x_find_lower (V := V) u f x k). Proof. induction f; intros x k; cbn [x_find_lower]; xro_go. Qed.
  Hint Resolve xro_lowerl : xro.
  Lemma xro_lower k : xro (x_FindLowerBoundNode (V := V) u k). Proof. unfold x_FindLowerBoundNode. xro_go. Qed.
  Hint Resolve xro_lower : xro.
  Lemma xro_findnode k : xro (x_FindNode (V := V) u k). Proof. unfold x_FindNode. xro_go. Qed.
  Hint Resolve xro_findnode : xro.
  Lemma xro_get k : xro (x_map_Get (V := V) u k). Proof. unfold x_map_Get. xro_go. Qed.
  Lemma xro_contains k : xro (x_map_Contains (V := V) u k). Proof. unfold x_map_Contains, x_Find. xro_go. Qed.
End rb.
#[local] Hint Resolve xro_get xro_contains : xro.

(* ---------- Map, MultiMap ---------- *)
Section maps.
  Context {K V W C : Type} (u : user_cmp K C) (cmp : K → K → Z) (CO : CmpOK cmp) (Hu : agrees_with u cmp).
  Notation op := (map_op K V W).
  Notation may := (λ o : op, map_compares o = true ∧ can_panic u).
  Context (body : op * C → prog (rb K V) (option (map_res K V W))).
  Notation calls_of h := (∀ i oc, EInv i oc ∈ h → map_call oc.1).
  (** a call ends as specified or in a panic of the comparison function, which changes no entry (MultiMap.Erase: may have
      erased some of its entries); Size may be too large by one for each interrupted Insert since the last Clear *)
  Theorem map_linearizable_panics h cf : x_implements (x_map_step u) body → disciplined (call_lock map_lock) body → calls_of h →
    execution (guarded (call_lock map_lock) body) map_new h cf →
    ∃ L, linearizes h L ∧ legal (interruptible (surplus (map_spec cmp)) may (counts untouched)) L ([], 0%nat).
  Proof using CO Hu.
    intros Hi Hd Hc Hex. apply (cr_legal (x_map_step u) map_lock body (map_step cmp) _ may (counts untouched) (mrel cmp) map_call map_new ([], 0%nat) h cf); [|..|done|done|done|done].
    - intros o s a _. apply (map_any u cmp CO Hu).
    - exists map_new. split; [split; [by apply holds_new|constructor]|done].
  Qed.
  Theorem multimap_linearizable_panics h cf : x_implements (x_mm_step u) body → disciplined (call_lock map_lock) body → calls_of h →
    execution (guarded (call_lock map_lock) body) rb_new h cf →
    ∃ L, linearizes h L ∧ legal (interruptible (surplus (mm_spec cmp)) may (counts (mm_left cmp))) L ([], 0%nat).
  Proof using CO Hu.
    intros Hi Hd Hc Hex. apply (cr_legal (x_mm_step u) map_lock body (mm_step cmp) _ may (counts (mm_left cmp)) (drel cmp) map_call rb_new ([], 0%nat) h cf); [|..|done|done|done|done].
    - intros o s a _. apply (mm_any u cmp CO Hu).
    - exists rb_new. split; [by apply holds_new|done].
  Qed.
  (** if it depends on the arguments only whether the comparison function panics, Size is right too *)
  Theorem map_linearizable_no_effect (Ha : by_args u) h cf : x_implements (x_map_step u) body → disciplined (call_lock map_lock) body → calls_of h →
    execution (guarded (call_lock map_lock) body) map_new h cf → ∃ L, linearizes h L ∧ legal (interruptible (map_spec cmp) may untouched) L [].
  Proof using CO Hu.
    intros Hi Hd Hc Hex. apply (cr_legal (x_map_step u) map_lock body (map_step cmp) _ may untouched (mholds cmp) map_call map_new [] h cf); [|..|done|done|done|done].
    - intros o s a _. apply (map_args u cmp CO Hu Ha).
    - split; [by apply holds_new|constructor].
  Qed.
  Theorem multimap_linearizable_no_effect (Ha : by_args u) h cf : x_implements (x_mm_step u) body → disciplined (call_lock map_lock) body → calls_of h →
    execution (guarded (call_lock map_lock) body) rb_new h cf → ∃ L, linearizes h L ∧ legal (interruptible (mm_spec cmp) may (mm_left cmp)) L [].
  Proof using CO Hu.
    intros Hi Hd Hc Hex. apply (cr_legal (x_mm_step u) map_lock body (mm_step cmp) _ may (mm_left cmp) (holds cmp) map_call rb_new [] h cf); [|..|done|done|done|done].
    - intros o s a _. apply (mm_args u cmp CO Hu Ha).
    - by apply holds_new.
  Qed.
End maps.
Theorem map_readers_read_panics {K V W C} (u : user_cmp K C) : x_readers_read map_lock (x_map_step (V := V) (W := W) u).
Proof.
  intros o s c Hl. revert s c. change (xro (x_map_step (W := W) u o)).
  destruct o; try discriminate Hl; cbn [x_map_step]; try (apply xro_run; intros s0 r s1; by apply map_readers_read); xro_go.
Qed.
Theorem multimap_readers_read_panics {K V W C} (u : user_cmp K C) : x_readers_read map_lock (x_mm_step (V := V) (W := W) u).
Proof.
  intros o s c Hl. revert s c. change (xro (x_mm_step (W := W) u o)).
  destruct o; try discriminate Hl; cbn [x_mm_step]; try (apply xro_run; intros s0 r s1; by apply multimap_readers_read); xro_go.
Qed.
Print Assumptions map_linearizable_panics.
Print Assumptions multimap_linearizable_panics.
Print Assumptions map_linearizable_no_effect.
Print Assumptions multimap_linearizable_no_effect.
Print Assumptions map_readers_read_panics.
Print Assumptions multimap_readers_read_panics.

(* ---------- Set, MultiSet ---------- *)
Section sets.
  Context {T W C : Type} (u : user_cmp T C) (cmp : T → T → Z) (CO : CmpOK cmp) (Hu : agrees_with u cmp).
  Notation op := (set_op T W).
  Notation may := (λ o : op, set_compares o = true ∧ can_panic u).
  Context (body : op * C → prog (rb T bool) (option (set_res T W))).
  Theorem set_linearizable_panics h cf : x_implements (x_set_step u) body → disciplined (call_lock set_lock_) body → (∀ i oc, EInv i oc ∈ h → set_call oc.1) →
    execution (guarded (call_lock set_lock_) body) set_new h cf →
    ∃ L, linearizes h L ∧ legal (interruptible (s_surplus (set_spec cmp)) may (s_counts untouched)) L ([], 0%nat).
  Proof using CO Hu.
    intros Hi Hd Hc Hex. apply (cr_legal (x_set_step u) set_lock_ body (set_step cmp) _ may (s_counts untouched) (sarel cmp) set_call set_new ([], 0%nat) h cf); [|..|done|done|done|done].
    - intros o s a _. apply (set_any u cmp CO Hu).
    - exists set_new. split; [split; [by apply sholds_new|constructor]|done].
  Qed.
  Theorem multiset_linearizable_panics h cf : x_implements (x_ms_step u) body → disciplined (call_lock set_lock_) body → (∀ i oc, EInv i oc ∈ h → multiset_call oc.1) →
    execution (guarded (call_lock set_lock_) body) set_new h cf →
    ∃ L, linearizes h L ∧ legal (interruptible (s_surplus (ms_spec cmp)) may (s_counts (ms_left cmp))) L ([], 0%nat).
  Proof using CO Hu.
    intros Hi Hd Hc Hex. apply (cr_legal (x_ms_step u) set_lock_ body (ms_step cmp) _ may (s_counts (ms_left cmp)) (sdrel cmp) multiset_call set_new ([], 0%nat) h cf); [|..|done|done|done|done].
    - intros o s a _. apply (ms_any u cmp CO Hu).
    - exists set_new. split; [by apply sholds_new|done].
  Qed.
  Theorem set_linearizable_no_effect (Ha : by_args u) h cf : x_implements (x_set_step u) body → disciplined (call_lock set_lock_) body → (∀ i oc, EInv i oc ∈ h → set_call oc.1) →
    execution (guarded (call_lock set_lock_) body) set_new h cf → ∃ L, linearizes h L ∧ legal (interruptible (set_spec cmp) may untouched) L [].
  Proof using CO Hu.
    intros Hi Hd Hc Hex. apply (cr_legal (x_set_step u) set_lock_ body (set_step cmp) _ may untouched (asholds cmp) set_call set_new [] h cf); [|..|done|done|done|done].
    - intros o s a _. apply (set_args u cmp CO Hu Ha).
    - split; [by apply sholds_new|constructor].
  Qed.
  Theorem multiset_linearizable_no_effect (Ha : by_args u) h cf : x_implements (x_ms_step u) body → disciplined (call_lock set_lock_) body → (∀ i oc, EInv i oc ∈ h → multiset_call oc.1) →
    execution (guarded (call_lock set_lock_) body) set_new h cf → ∃ L, linearizes h L ∧ legal (interruptible (ms_spec cmp) may (ms_left cmp)) L [].
  Proof using CO Hu.
    intros Hi Hd Hc Hex. apply (cr_legal (x_ms_step u) set_lock_ body (ms_step cmp) _ may (ms_left cmp) (sholds cmp) multiset_call set_new [] h cf); [|..|done|done|done|done].
    - intros o s a _. apply (ms_args u cmp CO Hu Ha).
    - by apply sholds_new.
  Qed.
End sets.
Lemma xro_countl {T C} (u : user_cmp T C) f : ∀ x p n, xro (x_ms_count_loop u f x p n). Proof. induction f; intros x p n; cbn [x_ms_count_loop]; xro_go. Qed.
#[local] Hint Resolve xro_countl : xro.
Lemma xro_count {T C} (u : user_cmp T C) x : xro (x_ms_Count u x). Proof. unfold x_ms_Count. xro_go. Qed.
#[local] Hint Resolve xro_count : xro.
Theorem set_readers_read_panics {T W C} (u : user_cmp T C) : x_readers_read set_lock_ (x_set_step (W := W) u).
Proof.
  intros o s c Hl. revert s c. change (xro (x_set_step (W := W) u o)).
  destruct o; try discriminate Hl; cbn [x_set_step]; try (apply xro_run; intros s0 r s1; by apply set_readers_read); xro_go.
Qed.
Theorem multiset_readers_read_panics {T W C} (u : user_cmp T C) : x_readers_read set_lock_ (x_ms_step (W := W) u).
Proof.
  intros o s c Hl. revert s c. change (xro (x_ms_step (W := W) u o)).
  destruct o; try discriminate Hl; cbn [x_ms_step]; try (apply xro_run; intros s0 r s1; by apply multiset_readers_read); xro_go.
Qed.
Print Assumptions set_linearizable_panics.
Print Assumptions multiset_linearizable_panics.
Print Assumptions set_linearizable_no_effect.
Print Assumptions multiset_linearizable_no_effect.
Print Assumptions set_readers_read_panics.
Print Assumptions multiset_readers_read_panics.

(* ---------- Skiplist ---------- *)
Section skip.
  Import SkipModel SkipSpec SkipProofs SkipOps SkipProps CrashSkipModel CrashSkipProps.
  Context {K V W C : Type} (u : user_cmp K C) (cmp : K → K → Z) (CO : CmpOK cmp) (Hu : agrees_with u cmp).
  Theorem skiplist_linearizable_panics max (body : sk_op K V W * C → prog (skip K V) (option (sk_res K V W))) s0 h cf :
    1 <= max <= 64 → sk_New max = Ok s0 → x_implements (x_sk_step u) body → disciplined (call_lock skip_lock) body → (∀ i oc, EInv i oc ∈ h → sk_op_ok oc.1) →
    execution (guarded (call_lock skip_lock) body) s0 h cf →
    ∃ L, linearizes h L ∧ legal (interruptible (sk_spec cmp) (λ o, sk_compares o = true ∧ can_panic u) untouched) L [].
  Proof using CO Hu.
    intros Hm E0 Hi Hd Hc Hex. destruct (new_inv (V := V) cmp (Z.to_nat max)) as (s1 & E1 & Hinv); [lia|]. rewrite Z2Nat.id in E1 by lia. rewrite E0 in E1. injection E1 as <-.
    apply (cr_legal (x_sk_step u) skip_lock body (sk_step cmp) _ (λ o, sk_compares o = true ∧ can_panic u) untouched (sholds cmp (Z.to_nat max)) sk_op_ok s0 [] h cf); [|..|done|done|done|done].
    - intros o s l Ho Hh. split; [by apply step_agrees|by apply c_step].
    - by exists [].
  Qed.
  Lemma xro_el p : ro (el (K := K) (V := V) p). Proof. intros s r s'. apply ro_el. Qed.
  Lemma xro_nextat p i : ro (nextat (K := K) (V := V) p i). Proof. intros s r s'. apply ro_nextat. Qed.
  Hint Resolve xro_el xro_nextat : ro.
  Lemma xro_getwalk f : ∀ key i p n, xro (x_get_walk (V := V) u f key i p n). Proof using. induction f; intros; cbn [x_get_walk]; xro_go. Qed.
  Hint Resolve xro_getwalk : xro.
  Lemma xro_getloop lv : ∀ f key p, xro (x_get_loop (V := V) u lv f key p). Proof using. induction lv; intros; cbn [x_get_loop]; xro_go. Qed.
  Hint Resolve xro_getloop : xro.
  Lemma xro_skget key : xro (x_sk_Get (V := V) u key).
  Proof using. unfold x_sk_Get. apply xro_bind; [apply xro_run; by intros s r s' [= _ <-]|intros max]. apply xro_bind; [apply xro_run; by intros s r s' [= _ <-]|intros f]. apply xro_getloop. Qed.
  Theorem skiplist_readers_read_panics : x_readers_read skip_lock (x_sk_step (V := V) (W := W) u).
  Proof using.
    intros o s c Hl. revert s c. change (xro (x_sk_step (V := V) (W := W) u o)).
    destruct o; try discriminate Hl; cbn [x_sk_step]; try (apply xro_run; intros s0 r s1; by apply skiplist_readers_read). apply xro_bind; [apply xro_skget|intros; apply xro_ret].
  Qed.
End skip.
Print Assumptions skiplist_linearizable_panics.
Print Assumptions skiplist_readers_read_panics.

(* ---------- PriorityQueue ---------- *)
Section pq.
  Context {T C : Type} (u : user_cmp T C).
  Theorem priority_queue_linearizable_panics (body : pq_op T * C → prog (list T) (option (pq_out T))) h cf :
    x_implements (x_pq_step u) body → disciplined (call_lock pq_lock) body →
    execution (guarded (call_lock pq_lock) body) [] h cf → ∃ L, linearizes h L ∧ legal (bag_interruptible (can_panic u)) L [].
  Proof.
    intros Hi Hd Hex. eapply (x_legal (x_pq_step u) pq_lock body _ Permutation (λ _, True)); [|reflexivity|done..].
    intros o c l s _ Hl. destruct (bag_rec u [o] l s c Hl) as (rs & l' & c' & s' & E & Hb & Hl'). cbn [attempts] in E. destruct (x_pq_step u o (l, c)) as [[r| |] [l1 c1]]; cbn in E; [| |done].
    - injection E as <- -> ->. exists s'. split; [|done]. inversion Hb as [|? ? ? ? ? ? ? Ha Hb'| | |]; subst. inversion Hb'; subst. exact Ha.
    - injection E as <- -> ->. exists s'. split; [|done]. inversion Hb as [| |x ? ? ? ? Hc Hb'|? ? ? ? Hc Hb'|p ? ? ? Hp Hb']; subst; inversion Hb'; subst; cbn; [done|split; [by left|done]|].
      destruct Hp as [-> | ->]; [split; [by right|done]|done].
  Qed.
  Theorem priority_queue_readers_read_panics : x_readers_read pq_lock (x_pq_step u).
  Proof.
    intros o s c Hl. revert s c. change (xro (x_pq_step u o)).
    destruct o; try discriminate Hl; cbn [x_pq_step]; apply xro_run; intros s0 r s1; by apply priority_queue_readers_read.
  Qed.
End pq.
Print Assumptions priority_queue_linearizable_panics.
Print Assumptions priority_queue_readers_read_panics.

(* ---------- a run with overlapping calls, one of them interrupted ---------- *)
(** panics at the comparison number n of a call *)
Definition at_nth (a b : Z) (n : nat) : option Z * nat := match n with 1%nat => (None, 0%nat) | S n => (Some (a - b), n) | O => (Some (a - b), 0%nat) end.
Lemma at_nth_agrees : agrees_with at_nth Z.sub.
Proof. intros a b [|[|n]] z c'; cbn; intros [= <- _]; done. Qed.
Notation mapcalls := (guarded (call_lock map_lock) (x_whole (x_map_step (V := Z) (W := unit) at_nth))).
(** Insert 2 (call 1) is interrupted at its third comparison, after the entry was counted; Get 2 (call 2) and Size (call 3) wait for it *)
Notation interrupted_history := [EInv 0%nat (MInsert 1 10, 0%nat); ERet 0%nat (Some RUnit); EInv 1%nat (MInsert 2 20, 3%nat); EInv 2%nat (MGet 2, 0%nat); EInv 3%nat (MSize, 0%nat); ERet 1%nat None; ERet 2%nat (Some (ROpt None)); ERet 3%nat (Some (RInt 2))].
Example interrupted_run : ∃ c, execution mapcalls map_new interrupted_history c.
Proof.
  apply (history_sound mapcalls _ [ACall 0 (MInsert 1 10, 0%nat); AStep 0; AStep 0; AStep 0; AStep 0; ARet 0; ACall 1 (MInsert 2 20, 3%nat); AStep 1; ACall 2 (MGet 2, 0%nat); ACall 3 (MSize, 0%nat); AStep 1; AStep 1; AStep 1; AStep 2; AStep 3; ARet 1; AStep 2; AStep 2; ARet 2; AStep 3; AStep 3; ARet 3]).
  vm_compute. reflexivity.
Qed.
Example interrupted_linearizable : ∃ L, linearizes interrupted_history L ∧ legal (interruptible (surplus (map_spec Z.sub)) (λ o : map_op Z Z unit, map_compares o = true ∧ can_panic at_nth) (counts untouched)) L ([], 0%nat).
Proof.
  destruct interrupted_run as [c Hc]. destruct (x_bodies_exist map_lock _ (map_readers_read_panics (V := Z) (W := unit) at_nth)) as [H1 H2].
  apply (map_linearizable_panics at_nth Z.sub zcmp_ok at_nth_agrees _ _ c H1 H2); [|done].
  intros i oc. rewrite !elem_of_cons, elem_of_nil. intros Hx. destruct_or!; simplify_eq; done.
Qed.
