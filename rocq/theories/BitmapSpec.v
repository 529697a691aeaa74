(** What a bitmap is: a size and a finite set of positions. *)
From Verif Require Import Base BitmapModel.
Open Scope N_scope.

Record bm_spec := MkBS { bs_size : N; bs_set : gset N }.

(** least multiple of 8 that is at least n *)
Definition ceil8 (n : N) : N := (n + 7) / 8 * 8.

(** the size a bitmap gets when n is asked for: the least multiple of 8 that is at least n, or 0
    when that multiple does not fit in 64 bits *)
Definition size_for (n : N) : N := if n <=? 2 ^ 64 - 8 then ceil8 n else 0.

Definition bm_spec_step (o : bm_op) (s : bm_spec) : option (bm_out * bm_spec) :=
  match o with
  | BSet p => Some (BBool (bool_decide (p < bs_size s)),
                if bool_decide (p < bs_size s) then MkBS (bs_size s) ({[p]} ∪ bs_set s) else s)
  | BUnset p => Some (BBool (bool_decide (p < bs_size s)),
                if bool_decide (p < bs_size s) then MkBS (bs_size s) (bs_set s ∖ {[p]}) else s)
  | BIsSet p => Some (BBool (bool_decide (p ∈ bs_set s)), s)
  | BClear => Some (BUnit, MkBS (bs_size s) ∅)
  | BResize n => Some (BUnit, MkBS (size_for n) (filter (fun p => p < size_for n) (bs_set s)))
  | BSize => Some (BNum (bs_size s), s)
  | BReload => Some (BUnit, s)
  end.

(** Resize takes a uint64. *)
Definition bm_good (o : bm_op) : Prop :=
  match o with BResize n => n < 2 ^ 64 | _ => True end.
