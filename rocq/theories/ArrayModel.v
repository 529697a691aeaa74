(** Model of ds/array/array.go.  The world (store of backing arrays, list of objects holding a
    slice header) is the one of VectorModel.v; an array is named by its position in it.
    String() and the sharing created by Data() are not modelled. *)
From Verif Require Import Base GoSliceModel VectorModel.
Open Scope Z_scope.
Open Scope go_scope.

Section arr.
  Context {T : Type} (zero : T).
  Notation MW := (M (world T)).

  (** array.go:13-15 New *)
  Definition a_new (size : Z) : MW nat :=
    let! s := lift (make_slice zero size size) in new_vec s.
  (** array.go:18-24 NewFromArray *)
  Definition a_from (other : nat) : MW nat :=
    let! o := data other in
    let! s := lift (make_slice zero (len_ o) (len_ o)) in
    let! a := new_vec s in
    lift (copy_loop (s_len o) 0 s o) ;;
    mret_ a.
  (** array.go:27-31 Fill: for i := range values { values[i] = val } *)
  Fixpoint fill_loop (cnt : nat) (i : Z) (s : slice) (x : T) : M (mem T) unit :=
    match cnt with
    | O => mret_ tt
    | S c => s_set s i x ;; fill_loop c (i + 1) s x
    end.
  (** array.go:27-31 Fill *)
  Definition a_fill (a : nat) (x : T) : MW unit :=
    let! s := data a in lift (fill_loop (s_len s) 0 s x).
  (** array.go:34-39 Set *)
  Definition a_set (a : nat) (pos : Z) (x : T) : MW unit :=
    let! s := data a in
    if (pos <? 0) || (len_ s <=? pos) then mret_ tt else lift (s_set s pos x).
  (** array.go:42-47 At; :50-52 Front; :55-57 Back; :60-67 Size, Empty *)
  Definition a_at (a : nat) (pos : Z) : MW T :=
    let! s := data a in
    if (pos <? 0) || (len_ s <=? pos) then mpanic else lift (s_get s pos).
  (** array.go:50-52 Front *)
  Definition a_front (a : nat) : MW T := a_at a 0.
  (** array.go:55-57 Back *)
  Definition a_back (a : nat) : MW T := let! s := data a in a_at a (len_ s - 1).
  (** array.go:60-62 Size *)
  Definition a_size (a : nat) : MW Z := let! s := data a in mret_ (len_ s).
  (** array.go:65-67 Empty *)
  Definition a_empty (a : nat) : MW bool := let! s := data a in mret_ (len_ s =? 0).
  (** array.go:70-75 SwapArray: both right-hand sides are read before the assignments *)
  Definition a_swap (a other : nat) : MW unit :=
    let! s := data a in
    let! t := data other in
    if negb (len_ s =? len_ t) then mret_ tt
    else set_data a t ;; set_data other s.

  (** the methods of array.go as data *)
  Inductive a_op :=
  | ANew (size : Z) | AFrom (other : nat) | AFill (a : nat) (x : T) | ASet (a : nat) (pos : Z) (x : T)
  | AAt (a : nat) (pos : Z) | AFront (a : nat) | ABack (a : nat) | ASize (a : nat) | AEmpty (a : nat)
  | ASwap (a other : nat).
  (** what those methods return *)
  Inductive a_out := AUnit | AInt (n : Z) | ABool (b : bool) | AVal (x : T) | AArr (a : nat).
  (** wraps a result *)
  Definition amap_ {A} (f : A → a_out) (m : MW A) : MW a_out := let! a := m in mret_ (f a).
  (** dispatch to the methods of array.go *)
  Definition a_step (o : a_op) : MW a_out :=
    match o with
    | ANew n => amap_ AArr (a_new n)
    | AFrom a => amap_ AArr (a_from a)
    | AFill a x => amap_ (fun _ => AUnit) (a_fill a x)
    | ASet a p x => amap_ (fun _ => AUnit) (a_set a p x)
    | AAt a p => amap_ AVal (a_at a p)
    | AFront a => amap_ AVal (a_front a)
    | ABack a => amap_ AVal (a_back a)
    | ASize a => amap_ AInt (a_size a)
    | AEmpty a => amap_ ABool (a_empty a)
    | ASwap a b => amap_ (fun _ => AUnit) (a_swap a b)
    end.
End arr.
Arguments a_op : clear implicits.
Arguments a_out : clear implicits.
