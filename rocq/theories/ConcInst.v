(** Property C56 for the goroutine-safe containers.  Each theorem holds for every way of splitting
    the methods into memory steps ([body]) that does, run alone, what the method's sequential model
    does and writes nothing under RLock; [.._readers_read] shows that such bodies exist. *)
From Verif Require Import Base History ConcModel ConcSpec ConcProofs ConcProps ConcRo ConcTables.
From Verif Require Import RbModel RbSpec MapModel MapSpec MapProofs MapProps SetModel SetSpec SetProofs SetProps.
From Verif Require Import DequeModel DequeSpec DequeOps DequeHist BidlistModel AdapterModel AdapterSpec AdapterProps HeapModel HeapSpec HeapProofs HamtModel HamtSpec BloomModel BloomSpec BloomProofs.
From Verif Require HamtProps SkipModel SkipSpec SkipProofs SkipOps SkipProps.
Open Scope Z_scope.
Open Scope go_scope.

(* ---------- Map, MultiMap ---------- *)
Theorem map_linearizable {K V W} (cmp : K → K → Z) (CO : CmpOK cmp) (body : map_op K V W → prog (rb K V) (option (map_res K V W))) h c :
  implements (map_step cmp) body → disciplined map_lock body → (∀ i o, EInv i o ∈ h → map_call o) →
  execution (guarded map_lock body) map_new h c → ∃ L, linearizes h L ∧ legal (by_spec (map_spec cmp)) L [].
Proof.
  intros Hi Hd Hg Hex. eapply (guarded_by_spec (map_step cmp) (map_spec cmp) (mholds cmp) map_call); [|split; [by apply holds_new | constructor]|done..].
  intros o s l _ H. by apply map_agrees.
Qed.
Theorem map_readers_read {K V W} (cmp : K → K → Z) : readers_read map_lock (map_step (K := K) (V := V) (W := W) cmp).
Proof. intros o s r s' Hl. revert s r s'. change (ro (map_step cmp o)). destruct o; try discriminate Hl; cbn [map_step]; unfold map_Size, map_Traversal; ro_go; try (unfold rb_Size; ro_go). Qed.
Theorem multimap_linearizable {K V W} (cmp : K → K → Z) (CO : CmpOK cmp) (body : map_op K V W → prog (rb K V) (option (map_res K V W))) h c :
  implements (mm_step cmp) body → disciplined map_lock body → (∀ i o, EInv i o ∈ h → map_call o) →
  execution (guarded map_lock body) rb_new h c → ∃ L, linearizes h L ∧ legal (by_spec (mm_spec cmp)) L [].
Proof.
  intros Hi Hd Hg Hex. eapply (guarded_by_spec (mm_step cmp) (mm_spec cmp) (holds cmp) map_call); [|by apply holds_new|done..].
  intros o s l _ H. by apply mm_agrees.
Qed.
Theorem multimap_readers_read {K V W} (cmp : K → K → Z) : readers_read map_lock (mm_step (K := K) (V := V) (W := W) cmp).
Proof. intros o s r s' Hl. revert s r s'. change (ro (mm_step cmp o)). destruct o; try discriminate Hl; cbn [mm_step]; unfold mm_Size, mm_Traversal; ro_go; try (unfold rb_Size; ro_go). Qed.

(* ---------- Set, MultiSet ---------- *)
Theorem set_linearizable {T W} (cmp : T → T → Z) (CO : CmpOK cmp) (body : set_op T W → prog (rb T bool) (option (set_res T W))) h c :
  implements (set_step cmp) body → disciplined set_lock_ body → (∀ i o, EInv i o ∈ h → set_call o) →
  execution (guarded set_lock_ body) set_new h c → ∃ L, linearizes h L ∧ legal (by_spec (set_spec cmp)) L [].
Proof.
  intros Hi Hd Hg Hex. eapply (guarded_by_spec (set_step cmp) (set_spec cmp) (asholds cmp) set_call); [|split; [|constructor]|done..].
  - intros o s l _ H. by apply set_agrees.
  - apply sholds_holds. exists []. split; [by apply holds_new | done].
Qed.
Theorem set_readers_read {T W} (cmp : T → T → Z) : readers_read set_lock_ (set_step (T := T) (W := W) cmp).
Proof. intros o s r s' Hl. revert s r s'. change (ro (set_step cmp o)). destruct o; try discriminate Hl; cbn [set_step]; unfold set_Size, rb_Size; ro_go. Qed.
Theorem multiset_linearizable {T W} (cmp : T → T → Z) (CO : CmpOK cmp) (body : set_op T W → prog (rb T bool) (option (set_res T W))) h c :
  implements (ms_step cmp) body → disciplined set_lock_ body → (∀ i o, EInv i o ∈ h → multiset_call o) →
  execution (guarded set_lock_ body) rb_new h c → ∃ L, linearizes h L ∧ legal (by_spec (ms_spec cmp)) L [].
Proof.
  intros Hi Hd Hg Hex. eapply (guarded_by_spec (ms_step cmp) (ms_spec cmp) (sholds cmp) multiset_call); [| |done..].
  - intros o s l _ H. by apply ms_agrees.
  - apply sholds_holds. exists []. split; [by apply holds_new | done].
Qed.
Theorem multiset_readers_read {T W} (cmp : T → T → Z) : readers_read set_lock_ (ms_step (T := T) (W := W) cmp).
Proof. intros o s r s' Hl. revert s r s'. change (ro (ms_step cmp o)). destruct o; try discriminate Hl; cbn [ms_step]; unfold ms_Size, rb_Size; ro_go. Qed.

(* ---------- Queue, Stack, over both containers ---------- *)
Lemma ro_call {T A} (p : option nat) (m : M (segment T) A) : ro m → ro (call p m).
Proof.
  intros Hm d r d'. unfold call. destruct p as [a|]; [|done]. destruct (dq_heap d !! a) as [sg|] eqn:E; [|done]. destruct (m sg) as [[x sg']| |] eqn:Em; [|done..].
  intros [= <- <-]. rewrite (Hm _ _ _ Em), list_insert_id by done. by destruct d.
Qed.
Lemma ro_dget {T} : ro (dget (T := T)).
Proof. by intros s r s' [= _ <-]. Qed.
Lemma ro_sget {T} : ro (sget (T := T)).
Proof. by intros s r s' [= _ <-]. Qed.
Theorem queue_linearizable {S T} (c : container S T) (rel : S → list T → Prop) (body : q_op T → prog S (option (ad_out T))) s h cf :
  cont_law c rel → rel s [] → implements (q_step c) body → disciplined queue_lock body →
  execution (guarded queue_lock body) s h cf → ∃ L, linearizes h L ∧ legal (by_spec q_spec) L [].
Proof.
  intros L Hr Hi Hd Hex. eapply (guarded_by_spec (q_step c) q_spec rel (λ _, True)); [|done..].
  intros o s1 l _ H. pose proof (queue_over_any_container c rel L [o] s1 l H) as Hq. cbn [run srun] in Hq. unfold agrees in *.
  destruct (q_spec o l) as [[x l']|]; cbn in Hq.
  - destruct Hq as (s' & E & Hr'). destruct (q_step c o s1) as [[y s2]| |]; [|done..]. injection E as -> ->. eauto.
  - by destruct (q_step c o s1) as [[y s2]| |].
Qed.
Theorem stack_linearizable {S T} (c : container S T) (rel : S → list T → Prop) (body : st_op T → prog S (option (ad_out T))) s h cf :
  cont_law c rel → rel s [] → implements (st_step c) body → disciplined stack_lock body →
  execution (guarded stack_lock body) s h cf → ∃ L, linearizes h L ∧ legal (by_spec st_spec) L [].
Proof.
  intros L Hr Hi Hd Hex. eapply (guarded_by_spec (st_step c) st_spec (λ s l, rel s (reverse l)) (λ _, True)); [|done..].
  intros o s1 l _ H. pose proof (stack_over_any_container c rel L [o] s1 _ H) as Hq. rewrite reverse_involutive in Hq. cbn [run srun] in Hq. unfold agrees in *.
  destruct (st_spec o l) as [[x l']|]; cbn in Hq.
  - destruct Hq as (s' & E & Hr'). destruct (st_step c o s1) as [[y s2]| |]; [|done..]. injection E as -> ->. eauto.
  - by destruct (st_step c o s1) as [[y s2]| |].
Qed.
Lemma ro_gomod {S} a b : ro (gomod a b : M S Z).
Proof. unfold gomod. case_match; ro_go. Qed.
Lemma ro_idx {T} i : ro (s_read (T := T) i).
Proof. intros s r s'. unfold s_read. case_match; intros; by simplify_eq. Qed.
Lemma ro_seg_get {T} i : ro (seg_get (T := T) i).
Proof. intros s r s'. unfold seg_get. case_match; intros; by simplify_eq. Qed.
Lemma ro_at {T} p : ro (s_at (T := T) p).
Proof. unfold s_at, s_capacity. pose proof (@ro_sget T). pose proof (@ro_idx T). pose proof (@ro_gomod (segment T)). ro_go; eauto. Qed.
Lemma ro_deque_reads {T} (zero : T) : ro (c_Front (deque_container zero)) ∧ ro (c_Back (deque_container zero)) ∧ ro (c_Size (deque_container zero)) ∧ ro (c_Empty (deque_container zero)).
Proof.
  cbn [deque_container c_Front c_Back c_Size c_Empty]. unfold dq_front, dq_back, dq_Size, dq_Empty, first_segment, last_segment, d_pre, d_len.
  pose proof (@ro_dget T). pose proof (@ro_sget T). pose proof (@ro_at T). pose proof (@ro_seg_get T). pose proof (@ro_gomod (deque T)).
  assert (ro (s_front (T := T))) by (unfold s_front; eauto). assert (ro (s_back (T := T))) by (unfold s_back; ro_go; eauto).
  split_and!; ro_go; eauto using ro_call.
Qed.
Lemma ro_nd {T} p : ro (nd (T := T) p).
Proof. intros s r s'. unfold nd. repeat case_match; intros; by simplify_eq. Qed.
Lemma ro_ls {T} l : ro (ls (T := T) l).
Proof. intros s r s'. unfold ls. repeat case_match; intros; by simplify_eq. Qed.
Lemma ro_list_reads {T} l : ro (c_Front (list_container (T := T) l)) ∧ ro (c_Back (list_container (T := T) l)) ∧ ro (c_Size (list_container (T := T) l)) ∧ ro (c_Empty (list_container (T := T) l)).
Proof.
  cbn [list_container c_Front c_Back c_Size c_Empty]. unfold b_Front, b_Back, b_Len, b_Empty.
  pose proof (@ro_nd T). pose proof (@ro_ls T). split_and!; ro_go; eauto.
Qed.
Lemma queue_reads {S T} (c : container S T) : ro (c_Front c) ∧ ro (c_Back c) ∧ ro (c_Size c) ∧ ro (c_Empty c) → readers_read queue_lock (q_step c).
Proof.
  intros (H1 & H2 & H3 & H4) o s r s' Hl. revert s r s'. change (ro (q_step c o)).
  destruct o; try discriminate Hl; cbn [q_step]; unfold q_Front, q_Back, q_Size, q_Empty; ro_go.
Qed.
Lemma stack_reads {S T} (c : container S T) : ro (c_Front c) ∧ ro (c_Back c) ∧ ro (c_Size c) ∧ ro (c_Empty c) → readers_read stack_lock (st_step c).
Proof.
  intros (H1 & H2 & H3 & H4) o s r s' Hl. revert s r s'. change (ro (st_step c o)).
  destruct o; try discriminate Hl; cbn [st_step]; unfold st_Top, st_Size, st_Empty; ro_go.
Qed.
Theorem queue_readers_read {T} (zero : T) : readers_read queue_lock (q_step (deque_container zero)) ∧ readers_read queue_lock (q_step (list_container (T := T) 0)).
Proof. split; apply queue_reads; [apply ro_deque_reads | apply ro_list_reads]. Qed.
Theorem stack_readers_read {T} (zero : T) : readers_read stack_lock (st_step (deque_container zero)) ∧ readers_read stack_lock (st_step (list_container (T := T) 0)).
Proof. split; apply stack_reads; [apply ro_deque_reads | apply ro_list_reads]. Qed.
(** queue.New() over its default container and over WithListContainer() *)
Theorem deque_queue_linearizable {T} (zero : T) (body : q_op T → prog (deque T) (option (ad_out T))) h cf :
  implements (q_step (deque_container zero)) body → disciplined queue_lock body →
  execution (guarded queue_lock body) deque_start h cf → ∃ L, linearizes h L ∧ legal (by_spec q_spec) L [].
Proof. eapply queue_linearizable; [apply deque_is_container | apply dinv_new]. Qed.
Theorem list_queue_linearizable {T} (body : q_op T → prog (bworld T) (option (ad_out T))) h cf :
  implements (q_step (list_container 0)) body → disciplined queue_lock body →
  execution (guarded queue_lock body) list_start h cf → ∃ L, linearizes h L ∧ legal (by_spec q_spec) L [].
Proof. eapply queue_linearizable; [apply list_is_container | apply list_start_holds]. Qed.
Theorem deque_stack_linearizable {T} (zero : T) (body : st_op T → prog (deque T) (option (ad_out T))) h cf :
  implements (st_step (deque_container zero)) body → disciplined stack_lock body →
  execution (guarded stack_lock body) deque_start h cf → ∃ L, linearizes h L ∧ legal (by_spec st_spec) L [].
Proof. eapply stack_linearizable; [apply deque_is_container | apply dinv_new]. Qed.
Theorem list_stack_linearizable {T} (body : st_op T → prog (bworld T) (option (ad_out T))) h cf :
  implements (st_step (list_container 0)) body → disciplined stack_lock body →
  execution (guarded stack_lock body) list_start h cf → ∃ L, linearizes h L ∧ legal (by_spec st_spec) L [].
Proof. eapply stack_linearizable; [apply list_is_container | apply list_start_holds]. Qed.

(* ---------- PriorityQueue ---------- *)
(** a priority queue answers as [pq_allows] permits; Pop and Top panic on an empty one *)
Definition pq_object {T} (cmp : T → T → Z) (o : pq_op T) (a : list T) (r : option (pq_out T)) (a' : list T) : Prop :=
  match r with Some x => pq_allows cmp o a x a' | None => pq_panics o a ∧ a' = a end.
Theorem priority_queue_linearizable {T} (cmp : T → T → Z) (CO : CmpOK cmp) (body : pq_op T → prog (list T) (option (pq_out T))) h c :
  implements (pq_step cmp) body → disciplined pq_lock body →
  execution (guarded pq_lock body) [] h c → ∃ L, linearizes h L ∧ legal (pq_object cmp) L [].
Proof.
  intros Hi Hd Hex. eapply (guarded_linearizable (pq_step cmp) (pq_object cmp) (pq_rel cmp) (λ _, True)); [| |done..].
  - intros o s a _ H. destruct (pq_step_ok cmp CO o s a H) as [[Hp ->]|(r & l' & s' & -> & Ha & Hr)]; [by split|]. by exists s'.
  - split; [|done]. intros k x y _ E. by rewrite lookup_nil in E.
Qed.
Theorem priority_queue_readers_read {T} (cmp : T → T → Z) : readers_read pq_lock (pq_step cmp).
Proof.
  intros o s r s' Hl. revert s r s'. change (ro (pq_step cmp o)).
  assert (ro (h_len (T := T))) by (by intros s r s' [= _ <-]).
  destruct o; try discriminate Hl; cbn [pq_step]; ro_go.
  unfold h_top. intros s r s'. repeat case_match; intros; by simplify_eq.
Qed.

(* ---------- Hamt ---------- *)
Definition hamt_object {T W} (o : hm_op T W) (m : gmap key T) (r : option (hm_res T W)) (m' : gmap key T) : Prop :=
  match r with Some a => hm_answer m o a ∧ m' = hm_after m o | None => False end.
Theorem hamt_linearizable {T W} (hf : key → BinNums.N) (body : hm_op T W → prog (hamt T) (option (hm_res T W))) h c :
  (∀ k, is_bytes k → (hf k < 2 ^ 64)%N) →
  implements (hm_step hf) body → disciplined hamt_lock body → (∀ i o, EInv i o ∈ h → hm_op_ok o) →
  execution (guarded hamt_lock body) hm_new h c → ∃ L, linearizes h L ∧ legal hamt_object L ∅.
Proof.
  intros Hhf Hi Hd Hg Hex. eapply (guarded_linearizable (hm_step hf) hamt_object (HamtProps.holds hf) hm_op_ok); [|by apply HamtProps.holds_new|done..].
  intros o s a Ho H. destruct (HamtProps.step_ok hf Hhf o s a Ho H) as (r & h' & -> & Ha & Hr). by exists (hm_after a o).
Qed.
Theorem hamt_readers_read {T W} (hf : key → BinNums.N) : readers_read hamt_lock (hm_step (T := T) (W := W) hf).
Proof.
  intros o s r s' Hl. destruct o; try discriminate Hl; cbn [hm_step]; unfold bindr; case_match; intros; by simplify_eq.
Qed.

(* ---------- Skiplist ---------- *)
Theorem skiplist_linearizable {K V W} (cmp : K → K → Z) (CO : CmpOK cmp) max (body : SkipSpec.sk_op K V W → prog (SkipModel.skip K V) (option (SkipSpec.sk_res K V W))) s0 h c :
  1 <= max <= 64 → SkipModel.sk_New max = Ok s0 →
  implements (SkipSpec.sk_step cmp) body → disciplined skip_lock body → (∀ i o, EInv i o ∈ h → SkipSpec.sk_op_ok o) →
  execution (guarded skip_lock body) s0 h c → ∃ L, linearizes h L ∧ legal (by_spec (SkipSpec.sk_spec cmp)) L [].
Proof.
  intros Hm E0 Hi Hd Hg Hex. destruct (SkipOps.new_inv (V := V) cmp (Z.to_nat max)) as (s & E & Hinv); [lia|]. rewrite Z2Nat.id, E0 in E by lia. injection E as <-.
  eapply (guarded_by_spec (SkipSpec.sk_step cmp) (SkipSpec.sk_spec cmp) (SkipProps.sholds cmp (Z.to_nat max)) SkipSpec.sk_op_ok); [|by exists []|done..].
  intros o s l Ho H. by apply SkipProps.step_agrees.
Qed.
Theorem skiplist_readers_read {K V W} (cmp : K → K → Z) : readers_read skip_lock (SkipSpec.sk_step (K := K) (V := V) (W := W) cmp).
Proof. intros o s r s' Hl. revert s r s'. change (ro (SkipSpec.sk_step (W := W) cmp o)). destruct o; try discriminate Hl; cbn [SkipSpec.sk_step]; ro_go. Qed.

(* ---------- BloomFilter ---------- *)
(** the state is the list of values added; Contains says whether the probes are covered by them (see
    C10), and a filter rebuilt from what Data returns would say the same about every value *)
Definition bloom_object (dig : list BinNums.N → list BinNums.N) (m k : BinNums.N) (o : bloom_op) (a : list (list BinNums.N)) (r : option bloom_res) (a' : list (list BinNums.N)) : Prop :=
  match o with
  | CAdd v => r = Some CUnit ∧ a' = v :: a
  | CContains v => a' = a ∧ ∃ b, r = Some (CBool b) ∧ (b = true ↔ covered dig m k a v)
  | CData => a' = a ∧ ∃ d f, r = Some (CBytes d) ∧ bf_from_data d = Ok f ∧ ∀ v, ∃ b, bf_contains dig v f = Ok b ∧ (b = true ↔ covered dig m k a v)
  end.
Theorem bloom_linearizable (dig : list BinNums.N → list BinNums.N) m k (body : bloom_op → prog bloom (option bloom_res)) h c :
  (∀ d, length (dig d) = 64%nat) → (0 < m <= 2 ^ 64 - 8)%N → (k < 2 ^ 63)%N →
  implements (bloom_step dig) body → disciplined bloom_lock body →
  execution (guarded bloom_lock body) (bf_new m k) h c → ∃ L, linearizes h L ∧ legal (bloom_object dig m k) L [].
Proof.
  intros Hdig [Hm1 Hm2] Hk Hi Hd Hex. eapply (guarded_linearizable (bloom_step dig) (bloom_object dig m k) (bf_rel dig m k) (λ _, True)); [|by apply bf_new_rel|done..].
  intros o s a _ H. destruct o as [v|v|]; cbn [bloom_step bloom_object].
  - destruct (bf_add_rel dig Hdig m k s a v Hm1 Hk H) as (f' & -> & Hr). by exists (v :: a).
  - destruct (bf_contains_rel dig Hdig m k s a v Hm1 Hk H) as (b & -> & Hb). exists a. split; [|done]. split; [done|]. by exists b.
  - exists a. split; [|done]. split; [done|]. exists (bf_Data s), s. split_and!; [done | by eapply bf_reload_rel|]. intros v. by apply bf_contains_rel.
Qed.
Theorem bloom_readers_read (dig : list BinNums.N → list BinNums.N) : readers_read bloom_lock (bloom_step dig).
Proof. intros o s r s' Hl. destruct o; try discriminate Hl; cbn [bloom_step]; case_match; intros; by simplify_eq. Qed.
Print Assumptions map_linearizable.
Print Assumptions map_readers_read.
Print Assumptions multimap_linearizable.
Print Assumptions multimap_readers_read.
Print Assumptions set_linearizable.
Print Assumptions set_readers_read.
Print Assumptions multiset_linearizable.
Print Assumptions multiset_readers_read.
Print Assumptions queue_linearizable.
Print Assumptions stack_linearizable.
Print Assumptions deque_queue_linearizable.
Print Assumptions list_queue_linearizable.
Print Assumptions deque_stack_linearizable.
Print Assumptions list_stack_linearizable.
Print Assumptions queue_readers_read.
Print Assumptions stack_readers_read.
Print Assumptions priority_queue_linearizable.
Print Assumptions priority_queue_readers_read.
Print Assumptions hamt_linearizable.
Print Assumptions hamt_readers_read.
Print Assumptions skiplist_linearizable.
Print Assumptions skiplist_readers_read.
Print Assumptions bloom_linearizable.
Print Assumptions bloom_readers_read.
