(** Model of ds/ketama/ketama.go on top of the map.  Strings are byte lists, uint64 values are
    [N]; the digest (SHA-512) is the parameter [h].  The locker is left to the concurrency model. *)
From Verif Require Import Base RbModel MapModel BloomModel ComparatorModel.
Open Scope Z_scope.
Open Scope go_scope.

(** Go strings and byte slices, by value *)
Definition bytes : Type := list N.
(** comparator.Uint64Comparator on values modelled as [N] *)
Definition u64cmp (a b : N) : Z := Uint64Comparator (Z.of_N a) (Z.of_N b).
(** ketama.go:16 salt = "ni9fkh72hgh1g" *)
Definition ksalt : bytes := [110; 105; 57; 102; 107; 104; 55; 50; 104; 103; 104; 49; 103]%N.

Section ketama.
  Context (h : bytes → bytes) (replicas : Z).
  Notation KM := (M (rb N bytes)).
  (** calls of GenHashInts *)
  Definition ints (seed : bytes) (n : Z) : KM (list N) := fun s =>
    match gen_hash_ints h seed n with Ok l => Ok (l, s) | Panic => Panic | Fuel => Fuel end.
  (** hashs[i] *)
  Definition nth_int (l : list N) (i : nat) : KM N := match l !! i with Some x => mret_ x | None => mpanic end.
  (** ketama.go:11 the default number of replicas *)
  Definition defaultReplicas : Z := 10.
  (** ketama.go:48-62 New; the number of replicas is a parameter of the operations *)
  Definition kt_new : rb N bytes := map_new.
  (** ketama.go:65-70 Empty *)
  Definition kt_Empty : KM bool := let! n := map_Size in mret_ (n =? 0).
  (** ketama.go:79-84: for i := 0; i < replicas; i++; c is the number of rounds left *)
  Fixpoint add_points (c i : nat) (hashs : list N) (node : bytes) : KM unit :=
    match c with O => mret_ tt | S c =>
      let! key := nth_int hashs i in
      let! b := map_Contains u64cmp key in
      (if negb b then map_Insert u64cmp key node else mret_ tt) ;;
      add_points c (S i) hashs node end.
  (** ketama.go:73-86 Add *)
  Fixpoint kt_Add (nodes : list bytes) : KM unit :=
    match nodes with [] => mret_ tt | node :: nodes =>
      let! hashs := ints (ksalt ++ node) replicas in
      add_points (Z.to_nat replicas) 0 hashs node ;; kt_Add nodes end.
  (** ketama.go:95-101 *)
  Fixpoint remove_points (c i : nat) (hashs : list N) (node : bytes) : KM unit :=
    match c with O => mret_ tt | S c =>
      let! key := nth_int hashs i in
      let! iter := map_Find u64cmp key in
      (if mi_IsValid iter then let! v := mi_Value iter in if bool_decide (v = node) then map_EraseIter iter else mret_ tt else mret_ tt) ;;
      remove_points c (S i) hashs node end.
  (** ketama.go:89-103 Remove *)
  Fixpoint kt_Remove (nodes : list bytes) : KM unit :=
    match nodes with [] => mret_ tt | node :: nodes =>
      let! hashs := ints (ksalt ++ node) replicas in
      remove_points (Z.to_nat replicas) 0 hashs node ;; kt_Remove nodes end.
  (** ketama.go:115-122: the second critical section of Get *)
  Definition kt_get_locked (hash : N) : KM (option bytes) :=
    let! iter := map_LowerBound u64cmp hash in
    if mi_IsValid iter then let! v := mi_Value iter in mret_ (Some v)
    else let! first := map_First in let! v := mi_Value first in mret_ (Some v).
  (** ketama.go:106-123 Get; [None] models ("", false) *)
  Definition kt_Get (key : bytes) : KM (option bytes) :=
    let! e := kt_Empty in
    if e then mret_ None else
      let! hashs := ints (ksalt ++ key) 1 in
      let! hash := nth_int hashs 0 in
      kt_get_locked hash.
  (** the API *)
  Inductive kt_op := KAdd (nodes : list bytes) | KRemove (nodes : list bytes) | KGet (key : bytes) | KEmpty.
  (** what the methods of ketama.go return *)
  Inductive kt_res := KUnit | KNode (o : option bytes) | KBool (b : bool).
  (** dispatch to ketama.go:65-123 *)
  Definition kt_step (o : kt_op) : KM kt_res :=
    match o with
    | KAdd nodes => kt_Add nodes ;; mret_ KUnit
    | KRemove nodes => kt_Remove nodes ;; mret_ KUnit
    | KGet key => let! r := kt_Get key in mret_ (KNode r)
    | KEmpty => let! b := kt_Empty in mret_ (KBool b)
    end.
End ketama.
