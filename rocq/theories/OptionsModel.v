(** Model of the constructors with options: which locker, container and numbers the new object gets.
    The state is the number of objects (mutexes, deques, lists) allocated so far; a new object's
    identity is that number.  An Option is the value a With… function returns: a function on the
    options under construction, here data with an [apply] function.  The tree, bitmap, … each
    constructor makes besides is in the models of the containers. *)
From Verif Require Import Base.
Local Open Scope go_scope.

(** utils/sync/sync.go:8-35: FakeLocker, or a sync.RWMutex *)
Inductive locker := Fake | Mutex (id : nat).
(** ds/container/container.go: what a Queue or Stack is built on; [User c] is an object of the caller *)
Inductive cont (C : Type) := DequeAt (id : nat) | ListAt (id : nat) | User (c : C).
Arguments DequeAt {C}. Arguments ListAt {C}. Arguments User {C}.

(** &gosync.RWMutex{}, deque.New(), bidlist.New(): the next identity *)
Definition fresh : M nat nat := λ n, Ok (n, S n).
(** the loop of every constructor: for _, opt := range opts { opt(&option) } *)
Fixpoint apply_all {O R} (apply : O → R → M nat R) (opts : list O) (r : R) : M nat R :=
  match opts with [] => mret_ r | o :: opts => let! r := apply o r in apply_all apply opts r end.

(** options with a locker only: hamt.go:30-35, priority_queue.go:59-64, map.go:20-25, set.go:23-28, bloom.go:18-23;
    WithGoroutineSafe of hamt.go:38-42, priority_queue.go:67-71, map.go:30-34, set.go:33-37, bloom.go:26-30 *)
Inductive lopt := LSafe.
(** what these options do *)
Definition apply_lopt (o : lopt) (_ : locker) : M nat locker := match o with LSafe => let! i := fresh in mret_ (Mutex i) end.
(** hamt.go:247-255 New *)
Definition hamt_New (opts : list lopt) : M nat locker := apply_all apply_lopt opts Fake.
(** priority_queue.go:80-96 New *)
Definition pq_New (opts : list lopt) : M nat locker := apply_all apply_lopt opts Fake.
(** map.go:43-53 New *)
Definition map_New (opts : list lopt) : M nat locker := apply_all apply_lopt opts Fake.
(** multimap.go:17-27 NewMultiMap *)
Definition multimap_New (opts : list lopt) : M nat locker := apply_all apply_lopt opts Fake.
(** set.go:47-59 New *)
Definition set_New (opts : list lopt) : M nat locker := apply_all apply_lopt opts Fake.
(** multiset.go:19-30 NewMultiSet *)
Definition multiset_New (opts : list lopt) : M nat locker := apply_all apply_lopt opts Fake.
(** bloom.go:41-54 New and, through it, :59-62 NewWithEstimates *)
Definition bloom_New (opts : list lopt) : M nat locker := apply_all apply_lopt opts Fake.
(** bloom.go:65-80 NewFromData (on data of at least 16 bytes) *)
Definition bloom_FromData (opts : list lopt) : M nat locker := apply_all apply_lopt opts Fake.

(** skiplist.go:20-40: WithGoroutineSafe, WithMaxLevel *)
Inductive sopt := SSafe | SMaxLevel (n : Z).
(** what they do *)
Definition apply_sopt (o : sopt) (r : Z * locker) : M nat (Z * locker) :=
  match o with SSafe => let! i := fresh in mret_ (r.1, Mutex i) | SMaxLevel n => mret_ (n, r.2) end.
(** skiplist.go:66-85 New; make of a negative length panics (:81) *)
Definition skip_New (opts : list sopt) : M nat (Z * locker) :=
  let! r := apply_all apply_sopt opts (10%Z, Fake) in
  if (r.1 <? 0)%Z then mpanic else mret_ r.

(** ketama.go:18-39: WithGoroutineSafe, WithReplicas *)
Inductive kopt := KSafe | KReplicas (n : Z).
(** what they do *)
Definition apply_kopt (o : kopt) (r : Z * locker) : M nat (Z * locker) :=
  match o with KSafe => let! i := fresh in mret_ (r.1, Mutex i) | KReplicas n => mret_ (n, r.2) end.
(** ketama.go:49-63 New *)
Definition ketama_New (opts : list kopt) : M nat (Z * locker) := apply_all apply_kopt opts (10%Z, Fake).

Section cont.
  Context {C : Type}.
  (** queue.go:17-44, stack.go:16-43: WithGoroutineSafe, WithContainer, WithListContainer *)
  Inductive copt := CSafe | CContainer (c : C) | CList.
  (** what they do *)
  Definition apply_copt (o : copt) (r : cont C * locker) : M nat (cont C * locker) :=
    match o with
    | CSafe => let! i := fresh in mret_ (r.1, Mutex i)
    | CContainer c => mret_ (User c, r.2)
    | CList => let! i := fresh in mret_ (ListAt i, r.2)
    end.
  (** queue.go:53-66 New *)
  Definition queue_New (opts : list copt) : M nat (cont C * locker) := let! i := fresh in apply_all apply_copt opts (DequeAt i, Fake).
  (** stack.go:52-65 New *)
  Definition stack_New (opts : list copt) : M nat (cont C * locker) := let! i := fresh in apply_all apply_copt opts (DequeAt i, Fake).
End cont.
Arguments copt : clear implicits.

(** vector.go:9-21 WithCapacity *)
Inductive vopt := VCapacity (n : Z).
(** what it does *)
Definition apply_vopt (o : vopt) (_ : Z) : M nat Z := match o with VCapacity n => mret_ n end.
(** vector.go:29-37 New: the capacity of the new vector; make of a negative capacity panics (:35) *)
Definition vector_New (opts : list vopt) : M nat Z := let! n := apply_all apply_vopt opts 0%Z in if (n <? 0)%Z then mpanic else mret_ n.

(** calls of the constructors *)
Inductive ctor (C : Type) :=
  | NHamt (l : list lopt) | NPq (l : list lopt) | NMap (l : list lopt) | NMultiMap (l : list lopt) | NSet (l : list lopt) | NMultiSet (l : list lopt)
  | NBloom (l : list lopt) | NBloomData (l : list lopt) | NSkip (l : list sopt) | NKetama (l : list kopt) | NQueue (l : list (copt C)) | NStack (l : list (copt C)) | NVector (l : list vopt).
Arguments NHamt {C}. Arguments NPq {C}. Arguments NMap {C}. Arguments NMultiMap {C}. Arguments NSet {C}. Arguments NMultiSet {C}. Arguments NBloom {C}. Arguments NBloomData {C}.
Arguments NSkip {C}. Arguments NKetama {C}. Arguments NQueue {C}. Arguments NStack {C}. Arguments NVector {C}.
(** what an object is made of *)
Record made (C : Type) := MkMade { md_lock : locker; md_num : option Z; md_cont : option (cont C) }.
Arguments MkMade {C}. Arguments md_lock {C}. Arguments md_num {C}. Arguments md_cont {C}.
(** the call, by constructor; the number is the maximum level, the replicas, the capacity *)
Definition construct {C} (c : ctor C) : M nat (made C) :=
  match c with
  | NHamt l => let! k := hamt_New l in mret_ (MkMade k None None)
  | NPq l => let! k := pq_New l in mret_ (MkMade k None None)
  | NMap l => let! k := map_New l in mret_ (MkMade k None None)
  | NMultiMap l => let! k := multimap_New l in mret_ (MkMade k None None)
  | NSet l => let! k := set_New l in mret_ (MkMade k None None)
  | NMultiSet l => let! k := multiset_New l in mret_ (MkMade k None None)
  | NBloom l => let! k := bloom_New l in mret_ (MkMade k None None)
  | NBloomData l => let! k := bloom_FromData l in mret_ (MkMade k None None)
  | NSkip l => let! r := skip_New l in mret_ (MkMade r.2 (Some r.1) None)
  | NKetama l => let! r := ketama_New l in mret_ (MkMade r.2 (Some r.1) None)
  | NQueue l => let! r := queue_New l in mret_ (MkMade r.2 None (Some r.1))
  | NStack l => let! r := stack_New l in mret_ (MkMade r.2 None (Some r.1))
  | NVector l => let! n := vector_New l in mret_ (MkMade Fake (Some n) None)
  end.
