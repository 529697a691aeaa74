(** Model of ds/slice/slice.go (SliceWrapper).  The wrapper holds the caller's slice header; the
    caller keeps its own header to the same backing array. *)
From Verif Require Import Base GoSliceModel VectorModel.
Open Scope Z_scope.
Open Scope go_scope.
Section sw.
  Context {T : Type}.
  Notation MW := (M (world T)).
  (** slice_wrapper.go:9-13 NewSliceWrapper; :16-18 Attach; :21-23 Len *)
  Definition sw_new (s : slice) : MW nat := new_vec s.
  (** slice_wrapper.go:16-18 Attach *)
  Definition sw_attach (o : nat) (s : slice) : MW unit := let! _ := data o in set_data o s.
  (** slice_wrapper.go:21-23 Len *)
  Definition sw_len (o : nat) : MW Z := let! s := data o in mret_ (len_ s).
  (** slice_wrapper.go:26-31 At *)
  Definition sw_at (o : nat) (pos : Z) : MW T :=
    let! s := data o in
    if (pos <? 0) || (len_ s <=? pos) then mpanic else lift (s_get s pos).
  (** slice_wrapper.go:34-39 Set *)
  Definition sw_set (o : nat) (pos : Z) (x : T) : MW unit :=
    let! s := data o in
    if (pos <? 0) || (len_ s <=? pos) then mret_ tt else lift (s_set s pos x).
End sw.
