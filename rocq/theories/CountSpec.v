(** Counting what an algorithm does to a container: the same Size/At/Set on a world with a counter
    of the elements read and written.  The algorithms of SortModel.v run on it unchanged. *)
From Verif Require Import Base.
Open Scope Z_scope.
Section counted.
  Context {W T : Type}.
  (** run m, then add k to the counter *)
  Definition counting {A} (k : nat) (m : M W A) : M (W * nat) A := fun wc =>
    match m wc.1 with Ok (a, w) => Ok (a, (w, (wc.2 + k)%nat)) | Panic => Panic | Fuel => Fuel end.
  Context (csize : nat → M W Z) (cat : nat → Z → M W T) (cset : nat → Z → T → M W unit).
  (** Size is free, reading or writing one element costs 1 *)
  Definition csize_c (o : nat) : M (W * nat) Z := counting 0 (csize o).
  Definition cat_c (o : nat) (i : Z) : M (W * nat) T := counting 1 (cat o i).
  Definition cset_c (o : nat) (i : Z) (x : T) : M (W * nat) unit := counting 1 (cset o i x).
End counted.
