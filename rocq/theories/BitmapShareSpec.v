(** Bitmaps over shared storage.  A storage is a sequence of bits (all 0 beyond its end); slices and
    bitmaps are windows into storages.  Two windows of the same storage see each other's changes. *)
From Verif Require Import Base GoSliceModel BitmapModel BitmapSpec BitmapShareModel.
Open Scope N_scope.

(** the windows are described by slice headers: storage, first byte, number of bytes, bytes up to the end *)
Record shared := MkSh { t_bits : nat → N → bool; t_next : nat; t_bms : list sbitmap; t_ds : list slice }.
Definition sh0 : shared := MkSh (λ _ _, false) 0 [] [].
(** bits of bytes and the byte made of eight bits *)
Definition bits_of (l : list N) (p : N) : bool := N.testbit (default 0 (l !! N.to_nat (p / 8))) (p mod 8).
Definition byte_of (f : N → bool) : N := foldr (λ j x, (if f j then 2 ^ j else 0) + x) 0 [0; 1; 2; 3; 4; 5; 6; 7].
(** bit p of a window *)
Definition seen (s : shared) (d : slice) (p : N) : bool := t_bits s (s_arr d) (8 * N.of_nat (s_off d) + p).
(** the storages after changing bits of one *)
Definition changed (s : shared) (a : nat) (f : (N → bool) → N → bool) : shared :=
  MkSh (λ a', if decide (a' = a) then f (t_bits s a) else t_bits s a') (t_next s) (t_bms s) (t_ds s).
(** a new storage with these bits *)
Definition new_storage (s : shared) (f : N → bool) : shared :=
  MkSh (λ a, if decide (a = t_next s) then f else t_bits s a) (S (t_next s)) (t_bms s) (t_ds s).
Definition with_slice (s : shared) (d : slice) : shared := MkSh (t_bits s) (t_next s) (t_bms s) (t_ds s ++ [d]).
Definition with_bitmap (s : shared) (b : sbitmap) : shared := MkSh (t_bits s) (t_next s) (t_bms s ++ [b]) (t_ds s).
Definition replace_bitmap (s : shared) (i : nat) (b : sbitmap) : shared := MkSh (t_bits s) (t_next s) (<[i := b]> (t_bms s)) (t_ds s).
(** the whole of the next storage, for a bitmap of n bits *)
Definition whole (s : shared) (n : N) : sbitmap := MkSB (MkSlice (t_next s) 0 (N.to_nat (n / 8)) (N.to_nat (n / 8))) n.

Definition sb_spec (o : sb_op) (s : shared) : option (sb_out * shared) :=
  match o with
  | CMake l => Some (SSlice (length (t_ds s)), with_slice (new_storage s (bits_of l)) (MkSlice (t_next s) 0 (length l) (length l)))
  | CSub h lo hi => d ← t_ds s !! h;
      if decide (0 <= lo <= hi ∧ hi <= Z.of_nat (s_cap d))%Z then
        Some (SSlice (length (t_ds s)), with_slice s (MkSlice (s_arr d) (s_off d + Z.to_nat lo) (Z.to_nat hi - Z.to_nat lo) (s_cap d - Z.to_nat lo)))
      else None
  | CLen h => d ← t_ds s !! h; Some (SNum (N.of_nat (s_len d)), s)
  | CGet h i => d ← t_ds s !! h;
      if decide (0 <= i < Z.of_nat (s_len d))%Z then Some (SNum (byte_of (λ j, seen s d (8 * Z.to_N i + j))), s) else None
  | CPut h i x => d ← t_ds s !! h;
      if decide (0 <= i < Z.of_nat (s_len d))%Z then
        Some (SUnit, changed s (s_arr d) (λ old p, if decide (p / 8 = N.of_nat (s_off d) + Z.to_N i) then N.testbit x (p mod 8) else old p))
      else None
  | SNew n => Some (SBitmap (length (t_bms s)), with_bitmap (new_storage s (λ _, false)) (whole s (size_for n)))
  | SFromData h => d ← t_ds s !! h; Some (SBitmap (length (t_bms s)), with_bitmap s (MkSB d (N.of_nat (s_len d) * 8 mod 2 ^ 64)))
  | SData b => x ← t_bms s !! b; Some (SSlice (length (t_ds s)), with_slice s (sb_data x))
  | SSet b p => x ← t_bms s !! b;
      if decide (p < sb_size x) then Some (SBool true, changed s (s_arr (sb_data x)) (λ old q, if decide (q = 8 * N.of_nat (s_off (sb_data x)) + p) then true else old q))
      else Some (SBool false, s)
  | SUnset b p => x ← t_bms s !! b;
      if decide (p < sb_size x) then Some (SBool true, changed s (s_arr (sb_data x)) (λ old q, if decide (q = 8 * N.of_nat (s_off (sb_data x)) + p) then false else old q))
      else Some (SBool false, s)
  | SIsSet b p => x ← t_bms s !! b; Some (SBool (bool_decide (p < sb_size x) && seen s (sb_data x) p), s)
  | SResize b n => x ← t_bms s !! b;
      if decide (sb_size x = size_for n) then Some (SUnit, s)
      else Some (SUnit, replace_bitmap (new_storage s (λ p, bool_decide (p < size_for n ∧ p < 8 * N.of_nat (s_len (sb_data x))) && seen s (sb_data x) p)) b (whole s (size_for n)))
  | SClear b => x ← t_bms s !! b; Some (SUnit, replace_bitmap (new_storage s (λ _, false)) b (whole s (sb_size x)))
  | SSize b => x ← t_bms s !! b; Some (SNum (sb_size x), s)
  end.
(** bytes are bytes, sizes are uint64, and a literal fits in the address space *)
Definition sb_op_ok (o : sb_op) : Prop :=
  match o with CMake l => Forall (λ b, b < 256) l ∧ N.of_nat (length l) < 2 ^ 61 | CPut _ _ x => x < 256 | SNew n | SResize _ n => n < 2 ^ 64 | _ => True end.
(** bitmap b keeps its storage: it is not resized or cleared *)
Definition keeps (b : nat) (o : sb_op) : Prop := match o with SResize b' _ | SClear b' => b' ≠ b | _ => True end.
(** nothing is done with bitmap b but asking its bits and its size *)
Definition leaves (b : nat) (o : sb_op) : Prop :=
  match o with SData b' | SSet b' _ | SUnset b' _ | SResize b' _ | SClear b' => b' ≠ b | _ => True end.
