(** Model of ds/heap/heap.go over the only Interface implementation in the repository,
    priorityqueue.ElementHolder, and of ds/priorityqueue/priority_queue.go.
    The element slice is a list (its growth and sharing are not observable through the API).
    Lockers are in ConcModel.v. *)
From Verif Require Import Base ListLib.
Open Scope Z_scope.
Open Scope go_scope.

Section heap.
  Context {T : Type} (cmp : T → T → Z).
  Notation ML := (M (list T)).

  (** priority_queue.go:44-46 Len; :49-51 Less; :54-56 Swap; :22-24 Push; :27-34 Pop; :36-41 top *)
  Definition h_len : ML Z := fun l => Ok (Z.of_nat (length l), l).
  (** priority_queue.go:49-51 Less *)
  Definition h_less (i j : Z) : ML bool := fun l =>
    match idx l i with
    | Ok a => match idx l j with Ok b => Ok (cmp a b <? 0, l) | Panic => Panic | Fuel => Fuel end
    | Panic => Panic | Fuel => Fuel
    end.
  (** priority_queue.go:54-56 Swap *)
  Definition h_swap (i j : Z) : ML unit := fun l =>
    match swap_res l i j with Ok l' => Ok (tt, l') | Panic => Panic | Fuel => Fuel end.
  (** priority_queue.go:22-24 Push *)
  Definition h_push (x : T) : ML unit := fun l => Ok (tt, l ++ [x]).
  (** priority_queue.go:27-34 Pop *)
  Definition h_pop : ML T := fun l =>
    if (length l =? 0)%nat then Panic
    else match idx l (Z.of_nat (length l) - 1) with
         | Ok x => Ok (x, take (length l - 1) l)
         | Panic => Panic | Fuel => Fuel
         end.
  (** priority_queue.go:36-41 top *)
  Definition h_top : ML T := fun l =>
    if (length l =? 0)%nat then Panic
    else match idx l 0 with Ok x => Ok (x, l) | Panic => Panic | Fuel => Fuel end.

  (** heap.go:82-91 up; Go's / truncates toward zero *)
  Fixpoint up (fuel : nat) (j : Z) : ML unit :=
    let i := Z.quot (j - 1) 2 in
    if i =? j then mret_ tt
    else let! ls := h_less j i in
         if negb ls then mret_ tt
         else match fuel with
              | O => mfuel
              | S f => h_swap i j ;; up f i
              end.

  (** heap.go:95-109 the loop of down; returns the final i *)
  Fixpoint down_loop (fuel : nat) (i n : Z) : ML Z :=
    let j1 := 2 * i + 1 in
    if (n <=? j1) || (j1 <? 0) then mret_ i
    else let j2 := j1 + 1 in
         let! b := (if j2 <? n then h_less j2 j1 else mret_ false) in
         let j := if (b : bool) then j2 else j1 in
         let! ls := h_less j i in
         if negb ls then mret_ i
         else match fuel with
              | O => mfuel
              | S f => h_swap i j ;; down_loop f j n
              end.
  (** heap.go:93-111 down *)
  Definition down (fuel : nat) (i0 n : Z) : ML bool :=
    let! i := down_loop fuel i0 n in mret_ (i0 <? i).

  (** heap.go:37-39: for i := n/2-1; i >= 0; i-- { down(h, i, n) }; [c] = i + 1 *)
  Fixpoint init_loop (fuel c : nat) (n : Z) : ML unit :=
    match c with
    | O => mret_ tt
    | S c => let! _ := down fuel (Z.of_nat c) n in init_loop fuel c n
    end.
  (** heap.go:34-40 Init; the fuel of each loop is the current length *)
  Definition h_init : ML unit := fun l =>
    init_loop (length l) (length l / 2) (Z.of_nat (length l)) l.
  (** heap.go:44-47 Push *)
  Definition heap_push (x : T) : ML unit :=
    h_push x ;;
    let! n := h_len in
    up (Z.to_nat n) (n - 1).
  (** heap.go:52-57 Pop *)
  Definition heap_pop : ML T :=
    let! len := h_len in
    let n := len - 1 in
    h_swap 0 n ;;
    let! _ := down (Z.to_nat len) 0 n in
    h_pop.
  (** heap.go:61-70 Remove *)
  Definition heap_remove (i : Z) : ML T :=
    let! len := h_len in
    let n := len - 1 in
    if negb (n =? i) then
      h_swap i n ;;
      let! d := down (Z.to_nat len) i n in
      (if (d : bool) then mret_ tt else up (Z.to_nat len) i) ;;
      h_pop
    else h_pop.
  (** heap.go:76-80 Fix *)
  Definition heap_fix (i : Z) : ML unit :=
    let! len := h_len in
    let! d := down (Z.to_nat len) i len in
    if (d : bool) then mret_ tt else up (Z.to_nat len) i.

  (** priority_queue.go:98-144 Push, Pop, Top, Empty, Clear, Size *)
  Inductive pq_op := PPush (x : T) | PPop | PTop | PEmpty | PClear | PSize.
  (** what the methods of priority_queue.go return *)
  Inductive pq_out := PUnit | PVal (x : T) | PBool (b : bool) | PInt (n : Z).
  (** dispatch to the methods of priority_queue.go *)
  Definition pq_step (o : pq_op) : ML pq_out :=
    match o with
    | PPush x => heap_push x ;; mret_ PUnit
    | PPop => let! x := heap_pop in mret_ (PVal x)
    | PTop => let! x := h_top in mret_ (PVal x)
    | PEmpty => let! n := h_len in mret_ (PBool (n =? 0))
    | PClear => fun l => Ok (PUnit, take 0 l)
    | PSize => let! n := h_len in mret_ (PInt n)
    end.
End heap.
Arguments pq_op : clear implicits.
Arguments pq_out : clear implicits.
