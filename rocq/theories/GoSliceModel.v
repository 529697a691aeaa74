(** Go slices over a store of backing arrays (used by ds/vector, ds/array, ds/slice).
    A slice header is (array, offset, length, capacity).  The capacity chosen by [append]
    when it reallocates is [needed + grow oldcap needed] for an arbitrary function [grow],
    which is a parameter of every theorem.  Garbage collection is not modelled: arrays are
    never freed. *)
From Verif Require Import Base.
Open Scope Z_scope.
Open Scope go_scope.

Section slices.
  Context {T : Type} (zero : T) (grow : nat → nat → nat).

  (** a Go slice header: backing array, offset, length, capacity *)
  Record slice := MkSlice { s_arr : nat; s_off : nat; s_len : nat; s_cap : nat }.
  (** the backing arrays *)
  Record mem := MkMem { m_arr : gmap nat (list T); m_next : nat }.

  (** the elements of a backing array *)
  Definition array_of (a : nat) (m : mem) : list T := default [] (m_arr m !! a).

  (** allocation of a backing array *)
  Definition alloc (l : list T) : M mem nat := fun m =>
    Ok (m_next m, MkMem (<[m_next m := l]> (m_arr m)) (S (m_next m))).

  (** make([]T, len, cap) *)
  Definition make_slice (len cap : Z) : M mem slice :=
    if (len <? 0) || (cap <? len) then mpanic
    else let! a := alloc (replicate (Z.to_nat cap) zero) in
         mret_ (MkSlice a 0 (Z.to_nat len) (Z.to_nat cap)).

  (** s[i] *)
  Definition s_get (s : slice) (i : Z) : M mem T := fun m =>
    if (0 <=? i) && (i <? Z.of_nat (s_len s)) then
      match array_of (s_arr s) m !! (s_off s + Z.to_nat i)%nat with
      | Some x => Ok (x, m)
      | None => Panic
      end
    else Panic.

  (** s[i] = x *)
  Definition s_set (s : slice) (i : Z) (x : T) : M mem unit := fun m =>
    if (0 <=? i) && (i <? Z.of_nat (s_len s)) then
      Ok (tt, MkMem (<[s_arr s := <[(s_off s + Z.to_nat i)%nat := x]> (array_of (s_arr s) m)]> (m_arr m)) (m_next m))
    else Panic.

  (** s[:hi] *)
  Definition s_to (s : slice) (hi : Z) : M mem slice :=
    if (0 <=? hi) && (hi <=? Z.of_nat (s_cap s))
    then mret_ (MkSlice (s_arr s) (s_off s) (Z.to_nat hi) (s_cap s)) else mpanic.

  (** s[lo:] *)
  Definition s_from (s : slice) (lo : Z) : M mem slice :=
    if (0 <=? lo) && (lo <=? Z.of_nat (s_len s))
    then mret_ (MkSlice (s_arr s) (s_off s + Z.to_nat lo) (s_len s - Z.to_nat lo) (s_cap s - Z.to_nat lo))
    else mpanic.

  (** the elements of a slice *)
  Definition s_vals (s : slice) (m : mem) : list T := take (s_len s) (drop (s_off s) (array_of (s_arr s) m)).

  (** append(s, xs...) for already evaluated values xs *)
  Definition s_append (s : slice) (xs : list T) : M mem slice := fun m =>
    let n := (s_len s + length xs)%nat in
    if (n <=? s_cap s)%nat then
      let a := array_of (s_arr s) m in
      let p := (s_off s + s_len s)%nat in
      let a' := take p a ++ xs ++ drop (p + length xs) a in
      Ok (MkSlice (s_arr s) (s_off s) n (s_cap s), MkMem (<[s_arr s := a']> (m_arr m)) (m_next m))
    else
      let c := (n + grow (s_cap s) n)%nat in
      (let! a := alloc (s_vals s m ++ xs ++ replicate (c - n) zero) in
       mret_ (MkSlice a 0 n c)) m.

  (** append(s, t...) : the values of t are read before writing (Go's memmove semantics) *)
  Definition s_append_slice (s t : slice) : M mem slice := fun m => s_append s (s_vals t m) m.

  (** for i := from; i < from + cnt; i++ { dst[i] = src[i] } *)
  Fixpoint copy_loop (cnt : nat) (i : Z) (dst src : slice) : M mem unit :=
    match cnt with
    | O => mret_ tt
    | S c => let! x := s_get src i in
             s_set dst i x ;;
             copy_loop c (i + 1) dst src
    end.
End slices.
Arguments mem : clear implicits.
