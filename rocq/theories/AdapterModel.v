(** Model of the adapters ds/queue/queue.go and ds/stack/stack.go over ds/container/container.go,
    and of the two containers the library offers for them.  Single goroutine: the lock calls are
    left out here (see the concurrency files).  String() is in TextModel.v. *)
From Verif Require Import Base DequeModel BidlistModel.
Open Scope Z_scope.
Open Scope go_scope.

(** container.go:4-15 Container, as the methods of one container object in state S *)
Record container (S T : Type) := MkContainer {
  c_PushBack : T → M S unit; c_PushFront : T → M S unit; c_Front : M S T; c_Back : M S T;
  c_PopFront : M S T; c_PopBack : M S T; c_Empty : M S bool; c_Size : M S Z; c_Clear : M S unit }.
Arguments c_PushBack {S T}. Arguments c_PushFront {S T}. Arguments c_Front {S T}. Arguments c_Back {S T}. Arguments c_PopFront {S T}.
Arguments c_PopBack {S T}. Arguments c_Empty {S T}. Arguments c_Size {S T}. Arguments c_Clear {S T}.

(** deque.New() as a container (deque.go) *)
Definition deque_container {T} (zero : T) : container (deque T) T :=
  MkContainer _ _ (dq_push_back zero) (dq_push_front zero) dq_front dq_back dq_pop_front dq_pop_back dq_Empty dq_Size dq_clear.
(** bidlist.New() number l as a container (list.go) *)
Definition list_container {T} (l : nat) : container (bworld T) T :=
  MkContainer _ _ (b_PushBack l) (b_PushFront l) (b_Front l) (b_Back l) (b_PopFront l) (b_PopBack l) (b_Empty l) (b_Len l) (b_Clear l).

Section adapters.
  Context {S T : Type} (c : container S T).
  (** queue.go:69-74 Size, :77-82 Empty, :85-90 Push, :93-98 Front, :101-106 Back, :109-114 Pop, :117-122 Clear *)
  Definition q_Size : M S Z := c_Size c.
  (** queue.go:77-82 Empty *)
  Definition q_Empty : M S bool := c_Empty c.
  (** queue.go:85-90 Push *)
  Definition q_Push (x : T) : M S unit := c_PushBack c x.
  (** queue.go:93-98 Front *)
  Definition q_Front : M S T := c_Front c.
  (** queue.go:101-106 Back *)
  Definition q_Back : M S T := c_Back c.
  (** queue.go:109-114 Pop *)
  Definition q_Pop : M S T := c_PopFront c.
  (** queue.go:117-122 Clear *)
  Definition q_Clear : M S unit := c_Clear c.
  (** stack.go:68-73 Size, :76-81 Empty, :84-89 Push, :92-97 Top, :100-105 Pop, :108-113 Clear *)
  Definition st_Size : M S Z := c_Size c.
  (** stack.go:76-81 Empty *)
  Definition st_Empty : M S bool := c_Empty c.
  (** stack.go:84-89 Push *)
  Definition st_Push (x : T) : M S unit := c_PushBack c x.
  (** stack.go:92-97 Top *)
  Definition st_Top : M S T := c_Back c.
  (** stack.go:100-105 Pop *)
  Definition st_Pop : M S T := c_PopBack c.
  (** stack.go:108-113 Clear *)
  Definition st_Clear : M S unit := c_Clear c.
End adapters.

(** the methods of queue.go:69-122 as data *)
Inductive q_op (T : Type) := QPush (x : T) | QPop | QFront | QBack | QSize | QEmpty | QClear.
Arguments QPush {T}. Arguments QPop {T}. Arguments QFront {T}. Arguments QBack {T}. Arguments QSize {T}. Arguments QEmpty {T}. Arguments QClear {T}.
(** the methods of stack.go:68-113 as data *)
Inductive st_op (T : Type) := TPush (x : T) | TPop | TTop | TSize | TEmpty | TClear.
Arguments TPush {T}. Arguments TPop {T}. Arguments TTop {T}. Arguments TSize {T}. Arguments TEmpty {T}. Arguments TClear {T}.
(** what those methods return *)
Inductive ad_out (T : Type) := AUnit | AVal (x : T) | AInt (n : Z) | ABool (b : bool).
Arguments AUnit {T}. Arguments AVal {T}. Arguments AInt {T}. Arguments ABool {T}.
(** dispatch to the methods of queue.go:69-122 *)
Definition q_step {S T} (c : container S T) (o : q_op T) : M S (ad_out T) :=
  match o with
  | QPush x => q_Push c x ;; mret_ AUnit
  | QPop => let! x := q_Pop c in mret_ (AVal x)
  | QFront => let! x := q_Front c in mret_ (AVal x)
  | QBack => let! x := q_Back c in mret_ (AVal x)
  | QSize => let! n := q_Size c in mret_ (AInt n)
  | QEmpty => let! b := q_Empty c in mret_ (ABool b)
  | QClear => q_Clear c ;; mret_ AUnit
  end.
(** dispatch to the methods of stack.go:68-113 *)
Definition st_step {S T} (c : container S T) (o : st_op T) : M S (ad_out T) :=
  match o with
  | TPush x => st_Push c x ;; mret_ AUnit
  | TPop => let! x := st_Pop c in mret_ (AVal x)
  | TTop => let! x := st_Top c in mret_ (AVal x)
  | TSize => let! n := st_Size c in mret_ (AInt n)
  | TEmpty => let! b := st_Empty c in mret_ (ABool b)
  | TClear => st_Clear c ;; mret_ AUnit
  end.
(** queue.go:53-66, stack.go:52-65 New with the default deque (the options :26-48 choose the container and the locker) *)
Definition deque_start {T} : deque T := dq_new.
(** bidlist/list.go:59-62 New, in a world without other lists *)
Definition list_start {T} : bworld T := MkBWorld [] [MkBList None 0].
