(** Bloom filters and byte slices as values: NewFromData copies the bytes it is given, so a filter's
    answers depend on nothing but what was added to it and on the bytes it was made from. *)
From Verif Require Import Base BitmapModel BloomModel BloomShareModel.
Open Scope N_scope.

Section spec.
  Context (h : list N → list N).
  Record fvals := MkFV { v_fs : list bloom; v_ds : list (list N) }.
  Definition fv0 : fvals := MkFV [] [].
  Definition v_slice (l : list N) (v : fvals) : res (sf_out * fvals) := Ok (WSlice (length (v_ds v)), MkFV (v_fs v) (v_ds v ++ [l])).
  Definition v_filter (f : bloom) (v : fvals) : res (sf_out * fvals) := Ok (WFilter (length (v_fs v)), MkFV (v_fs v ++ [f]) (v_ds v)).
  Definition fv_step (o : sf_op) (v : fvals) : res (sf_out * fvals) :=
    match o with
    | WMake l => v_slice l v
    | WGet d i => match v_ds v !! d with Some l => match idx l i with Ok x => Ok (WByte x, v) | Panic => Panic | Fuel => Fuel end | None => Panic end
    | WPut d i x => match v_ds v !! d with
                    | Some l => match upd l i x with Ok l' => Ok (WUnit, MkFV (v_fs v) (<[d := l']> (v_ds v))) | Panic => Panic | Fuel => Fuel end
                    | None => Panic end
    | WNew m k => v_filter (bf_new m k) v
    | WFromData d => match v_ds v !! d with
                     | Some l => match bf_from_data l with Ok f => v_filter f v | Panic => Panic | Fuel => Fuel end
                     | None => Panic end
    | WData f => match v_fs v !! f with Some x => v_slice (bf_Data x) v | None => Panic end
    | WAdd f y => match v_fs v !! f with
                  | Some x => match bf_add h y x with Ok x' => Ok (WUnit, MkFV (<[f := x']> (v_fs v)) (v_ds v)) | Panic => Panic | Fuel => Fuel end
                  | None => Panic end
    | WContains f y => match v_fs v !! f with
                       | Some x => match bf_contains h y x with Ok r => Ok (WBool r, v) | Panic => Panic | Fuel => Fuel end
                       | None => Panic end
    end.
  (** the results of a run *)
  Definition results {S R} (r : res (list R * S)) : res (list R) := match r with Ok (l, _) => Ok l | Panic => Panic | Fuel => Fuel end.
  (** slice d is read, written or given to NewFromData *)
  Definition names (d : nat) (o : sf_op) : Prop := match o with WGet d' _ | WPut d' _ _ | WFromData d' => d' = d | _ => False end.
  (** a slice given to NewFromData is not used again *)
  Definition handed_over (ops : list sf_op) : Prop :=
    ∀ i j d o, (i < j)%nat → ops !! i = Some (WFromData d) → ops !! j = Some o → ¬ names d o.
End spec.
