(** Model of ds/bitmap/bitmap.go.  Bytes and uint64 are [N]; uint64 arithmetic wraps
    explicitly.  Simplification: the data slice is a value, so the sharing between a bitmap
    and the slice returned by Data() is not represented here (see BitmapShareModel.v).  Memory exhaustion in make is not
    represented. *)
From Verif Require Import Base.
Open Scope N_scope.

(** conversion to uint64: Go's wrap-around arithmetic *)
Definition u64 (x : N) : N := x mod 2 ^ 64.

(** bitmap.go:4-7 *)
Record bitmap := MkBitmap { bm_data : list N; bm_size : N }.

(** bitmap.go:11 and :59: [(size + 7) / 8 * 8] in uint64 arithmetic *)
Definition round_size (size : N) : N := u64 (u64 (size + 7) / 8 * 8).

(** bitmap.go:10-17 New *)
Definition bm_new (size : N) : bitmap :=
  let size := round_size size in
  MkBitmap (replicate (N.to_nat (size / 8)) 0) size.

(** bitmap.go:20-26 NewFromData *)
Definition bm_from_data (data : list N) : bitmap :=
  MkBitmap data (u64 (N.of_nat (length data) * 8)).

(** bitmap.go:29-35 Set; the byte [1 << (pos & 0x07)] *)
Definition bit_of (pos : N) : N := N.shiftl 1 (N.land pos 7).
(** bitmap.go:29-35 Set *)
Definition bm_set (pos : N) (b : bitmap) : res (bool * bitmap) :=
  if bm_size b <=? pos then Ok (false, b)
  else
    match idx (bm_data b) (Z.of_N (N.shiftr pos 3)) with
    | Ok d => match upd (bm_data b) (Z.of_N (N.shiftr pos 3)) (N.lor d (bit_of pos)) with
              | Ok data => Ok (true, MkBitmap data (bm_size b))
              | Panic => Panic | Fuel => Fuel
              end
    | Panic => Panic | Fuel => Fuel
    end.

(** bitmap.go:38-44 Unset; [^x] on a byte is [N.lxor 255 x] *)
Definition bm_unset (pos : N) (b : bitmap) : res (bool * bitmap) :=
  if bm_size b <=? pos then Ok (false, b)
  else
    match idx (bm_data b) (Z.of_N (N.shiftr pos 3)) with
    | Ok d => match upd (bm_data b) (Z.of_N (N.shiftr pos 3)) (N.land d (N.lxor 255 (bit_of pos))) with
              | Ok data => Ok (true, MkBitmap data (bm_size b))
              | Panic => Panic | Fuel => Fuel
              end
    | Panic => Panic | Fuel => Fuel
    end.

(** bitmap.go:47-55 IsSet *)
Definition bm_isset (pos : N) (b : bitmap) : res bool :=
  if bm_size b <=? pos then Ok false
  else
    match idx (bm_data b) (Z.of_N (N.shiftr pos 3)) with
    | Ok d => Ok (0 <? N.land d (bit_of pos))
    | Panic => Panic | Fuel => Fuel
    end.

(** bitmap.go:58-67 Resize; [copy(data, b.data)] copies the common prefix *)
Definition bm_resize (size : N) (b : bitmap) : bitmap :=
  let size := round_size size in
  if bm_size b =? size then b
  else
    let data := replicate (N.to_nat (size / 8)) 0 in
    let n := Nat.min (length data) (length (bm_data b)) in
    MkBitmap (take n (bm_data b) ++ drop n data) size.

(** bitmap.go:70-72 Size *)
Definition bm_Size (b : bitmap) : N := bm_size b.

(** bitmap.go:75-77 Clear *)
Definition bm_clear (b : bitmap) : bitmap :=
  MkBitmap (replicate (N.to_nat (bm_size b / 8)) 0) (bm_size b).

(** bitmap.go:80-82 Data *)
Definition bm_Data (b : bitmap) : list N := bm_data b.

(** One API call and its observable result. *)
Inductive bm_op := BSet (p : N) | BUnset (p : N) | BIsSet (p : N) | BClear | BResize (n : N) | BSize
  | BReload (* b = NewFromData(b.Data()) *).
(** what the methods of bitmap.go return *)
Inductive bm_out := BBool (b : bool) | BNum (n : N) | BUnit.
(** dispatch to the methods of bitmap.go:10-82 *)
Definition bm_step (o : bm_op) (b : bitmap) : res (bm_out * bitmap) :=
  match o with
  | BSet p => match bm_set p b with Ok (r, b') => Ok (BBool r, b') | Panic => Panic | Fuel => Fuel end
  | BUnset p => match bm_unset p b with Ok (r, b') => Ok (BBool r, b') | Panic => Panic | Fuel => Fuel end
  | BIsSet p => match bm_isset p b with Ok r => Ok (BBool r, b) | Panic => Panic | Fuel => Fuel end
  | BClear => Ok (BUnit, bm_clear b)
  | BResize n => Ok (BUnit, bm_resize n b)
  | BSize => Ok (BNum (bm_Size b), b)
  | BReload => Ok (BUnit, bm_from_data (bm_Data b))
  end.
