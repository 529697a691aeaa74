(** Model of Vector.Data (ds/vector/vector.go:170-172): the slice header of the vector is handed to
    the caller, who reads and writes through it beside calls of the vector's methods.  What the
    caller could do besides with a Go slice (re-slicing, append) is not modelled. *)
From Verif Require Import Base GoSliceModel VectorModel.
Open Scope Z_scope.
Open Scope go_scope.

Section vdata.
  Context {T : Type} (zero : T) (grow : nat → nat → nat).
  (** the world of vectors (vector.go:24-26) and the slices the caller got from Data, in order *)
  Record xst := MkX { x_w : world T; x_ds : list slice }.
  (** one action of a client: a method of a vector, Data (vector.go:170-172), len(d), d[i], d[i] = x *)
  Inductive xop := XVec (o : v_op T) | XData (v : nat) | XLen (h : nat) | XGet (h : nat) (i : Z) | XSet (h : nat) (i : Z) (x : T).
  (** its result: that of the method, or the position of the new slice in [x_ds] *)
  Inductive xout := XV (r : v_out T) | XSlice (h : nat).
  (** run something of the world (vector.go) *)
  Definition xlift {A} (f : A → xout) (m : M (world T) A) : M xst xout := fun st =>
    match m (x_w st) with Ok (a, w) => Ok (f a, MkX w (x_ds st)) | Panic => Panic | Fuel => Fuel end.
  (** the slice named h; a client cannot use one it did not get *)
  Definition handle (h : nat) : M xst slice := fun st => match x_ds st !! h with Some d => Ok (d, st) | None => Panic end.
  (** vector.go:170-172 Data: the field itself, not a copy *)
  Definition v_data (v : nat) : M (world T) slice := data v.
  (** dispatch of the client's actions (vector.go:170-172 and the methods of v_step) *)
  Definition xstep (o : xop) : M xst xout :=
    match o with
    | XVec o => xlift XV (v_step zero grow o)
    | XData v => fun st => match v_data v (x_w st) with
                           | Ok (d, w) => Ok (XSlice (length (x_ds st)), MkX w (x_ds st ++ [d]))
                           | Panic => Panic | Fuel => Fuel end
    | XLen h => let! d := handle h in mret_ (XV (VInt (Z.of_nat (s_len d))))
    | XGet h i => let! d := handle h in xlift (λ x, XV (VVal x)) (lift (s_get d i))
    | XSet h i x => let! d := handle h in xlift (λ _, XV VUnit) (lift (s_set d i x))
    end.
  (** nothing allocated, no slices *)
  Definition xst0 : xst := MkX world0 [].
End vdata.
Arguments xst : clear implicits. Arguments xop : clear implicits. Arguments xout : clear implicits.
