(** Model of ds/heap/heap.go over an arbitrary implementation of heap.Interface (HeapModel.v fixes
    the one in the repository); the fuel of every loop is Len(). *)
From Verif Require Import Base.
Open Scope Z_scope.
Open Scope go_scope.

Section gen.
  Context {S T : Type}.
  (** heap.go:3-32 Interface: Len, Less, Swap, Push, Pop *)
  Context (len : M S Z) (less : Z → Z → M S bool) (swap : Z → Z → M S unit) (push : T → M S unit) (pop : M S T).
  (** heap.go:82-91 up *)
  Fixpoint g_up (fuel : nat) (j : Z) : M S unit :=
    let i := Z.quot (j - 1) 2 in
    if i =? j then mret_ tt
    else let! ls := less j i in
         if negb ls then mret_ tt
         else match fuel with
              | O => mfuel
              | Datatypes.S f => swap i j ;; g_up f i
              end.
  (** heap.go:95-109 the loop of down *)
  Fixpoint g_down_loop (fuel : nat) (i n : Z) : M S Z :=
    let j1 := 2 * i + 1 in
    if (n <=? j1) || (j1 <? 0) then mret_ i
    else let j2 := j1 + 1 in
         let! b := (if j2 <? n then less j2 j1 else mret_ false) in
         let j := if (b : bool) then j2 else j1 in
         let! ls := less j i in
         if negb ls then mret_ i
         else match fuel with
              | O => mfuel
              | Datatypes.S f => swap i j ;; g_down_loop f j n
              end.
  (** heap.go:93-111 down *)
  Definition g_down (fuel : nat) (i0 n : Z) : M S bool :=
    let! i := g_down_loop fuel i0 n in mret_ (i0 <? i).
  (** heap.go:37-39 the loop of Init; [c] = i + 1 *)
  Fixpoint g_init_loop (fuel c : nat) (n : Z) : M S unit :=
    match c with
    | O => mret_ tt
    | Datatypes.S c => let! _ := g_down fuel (Z.of_nat c) n in g_init_loop fuel c n
    end.
  (** heap.go:34-40 Init *)
  Definition g_init : M S unit := let! n := len in g_init_loop (Z.to_nat n) (Z.to_nat n / 2) n.
  (** heap.go:44-47 Push *)
  Definition g_push (x : T) : M S unit :=
    push x ;;
    let! n := len in
    g_up (Z.to_nat n) (n - 1).
  (** heap.go:52-57 Pop *)
  Definition g_pop : M S T :=
    let! len := len in
    let n := len - 1 in
    swap 0 n ;;
    let! _ := g_down (Z.to_nat len) 0 n in
    pop.
  (** heap.go:61-70 Remove *)
  Definition g_remove (i : Z) : M S T :=
    let! len := len in
    let n := len - 1 in
    if negb (n =? i) then
      swap i n ;;
      let! d := g_down (Z.to_nat len) i n in
      (if (d : bool) then mret_ tt else g_up (Z.to_nat len) i) ;;
      pop
    else pop.
  (** heap.go:76-80 Fix *)
  Definition g_fix (i : Z) : M S unit :=
    let! len := len in
    let! d := g_down (Z.to_nat len) i len in
    if (d : bool) then mret_ tt else g_up (Z.to_nat len) i.
End gen.
