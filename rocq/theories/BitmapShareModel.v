(** Model of ds/bitmap/bitmap.go in which the field [data] is a slice of an array in memory: NewFromData
    (bitmap.go:20-26) keeps the slice it is given and Data (:80-82) hands out the field itself.  The
    client makes, re-slices, reads and writes byte slices beside its calls. *)
From Verif Require Import Base GoSliceModel BitmapModel.
Open Scope N_scope.
Open Scope go_scope.

(** bitmap.go:4-7 *)
Record sbitmap := MkSB { sb_data : slice; sb_size : N }.
(** bitmap.go:10-17 New *)
Definition sb_new (size : N) : M (mem N) sbitmap :=
  let size := round_size size in
  let! d := make_slice 0 (Z.of_N (size / 8)) (Z.of_N (size / 8)) in
  mret_ (MkSB d size).
(** bitmap.go:20-26 NewFromData *)
Definition sb_from_data (d : slice) : sbitmap := MkSB d (u64 (N.of_nat (s_len d) * 8)).
(** bitmap.go:29-35 Set *)
Definition sb_set (pos : N) (b : sbitmap) : M (mem N) bool :=
  if sb_size b <=? pos then mret_ false else
    let! d := s_get (sb_data b) (Z.of_N (N.shiftr pos 3)) in
    s_set (sb_data b) (Z.of_N (N.shiftr pos 3)) (N.lor d (bit_of pos)) ;; mret_ true.
(** bitmap.go:38-44 Unset *)
Definition sb_unset (pos : N) (b : sbitmap) : M (mem N) bool :=
  if sb_size b <=? pos then mret_ false else
    let! d := s_get (sb_data b) (Z.of_N (N.shiftr pos 3)) in
    s_set (sb_data b) (Z.of_N (N.shiftr pos 3)) (N.land d (N.lxor 255 (bit_of pos))) ;; mret_ true.
(** bitmap.go:47-55 IsSet *)
Definition sb_isset (pos : N) (b : sbitmap) : M (mem N) bool :=
  if sb_size b <=? pos then mret_ false else
    let! d := s_get (sb_data b) (Z.of_N (N.shiftr pos 3)) in
    mret_ (0 <? N.land d (bit_of pos)).
(** bitmap.go:58-67 Resize; the bitmap afterwards *)
Definition sb_resize (size : N) (b : sbitmap) : M (mem N) sbitmap :=
  let size := round_size size in
  if sb_size b =? size then mret_ b else
    let! d := make_slice 0 (Z.of_N (size / 8)) (Z.of_N (size / 8)) in
    copy_loop (Nat.min (s_len d) (s_len (sb_data b))) 0 d (sb_data b) ;;
    mret_ (MkSB d size).
(** bitmap.go:75-77 Clear; the bitmap afterwards *)
Definition sb_clear (b : sbitmap) : M (mem N) sbitmap :=
  let! d := make_slice 0 (Z.of_N (sb_size b / 8)) (Z.of_N (sb_size b / 8)) in
  mret_ (MkSB d (sb_size b)).

(** memory, the bitmaps made so far, the slices the client holds *)
Record sworld := MkSW { sw_mem : mem N; sw_bms : list sbitmap; sw_ds : list slice }.
(** what a client does: []byte literals, d[lo:hi], len(d), d[i], d[i] = x on its slices; the functions and
    methods of bitmap.go on the bitmaps, both named by their number *)
Inductive sb_op :=
  | CMake (l : list N) | CSub (h : nat) (lo hi : Z) | CLen (h : nat) | CGet (h : nat) (i : Z) | CPut (h : nat) (i : Z) (x : N)
  | SNew (n : N) | SFromData (h : nat) | SData (b : nat)
  | SSet (b : nat) (p : N) | SUnset (b : nat) (p : N) | SIsSet (b : nat) (p : N) | SResize (b : nat) (n : N) | SClear (b : nat) | SSize (b : nat).
(** results; [SSlice h] and [SBitmap b] are the number of the new slice or bitmap *)
Inductive sb_out := SUnit | SBool (b : bool) | SNum (n : N) | SSlice (h : nat) | SBitmap (b : nat).

(** run something of the memory *)
Definition smem {A} (m : M (mem N) A) : M sworld A := fun w =>
  match m (sw_mem w) with Ok (a, mm) => Ok (a, MkSW mm (sw_bms w) (sw_ds w)) | Panic => Panic | Fuel => Fuel end.
(** the client's slice h, bitmap b *)
Definition the_slice (h : nat) : M sworld slice := fun w => match sw_ds w !! h with Some d => Ok (d, w) | None => Panic end.
(** the bitmap b *)
Definition the_bitmap (b : nat) : M sworld sbitmap := fun w => match sw_bms w !! b with Some x => Ok (x, w) | None => Panic end.
(** one more slice *)
Definition add_slice (d : slice) : M sworld sb_out := fun w => Ok (SSlice (length (sw_ds w)), MkSW (sw_mem w) (sw_bms w) (sw_ds w ++ [d])).
(** one more bitmap *)
Definition add_bitmap (x : sbitmap) : M sworld sb_out := fun w => Ok (SBitmap (length (sw_bms w)), MkSW (sw_mem w) (sw_bms w ++ [x]) (sw_ds w)).
(** the fields of bitmap b are x now *)
Definition put_bitmap (b : nat) (x : sbitmap) : M sworld sb_out := fun w => Ok (SUnit, MkSW (sw_mem w) (<[b := x]> (sw_bms w)) (sw_ds w)).
(** dispatch to the client's actions and to bitmap.go:10-82 *)
Definition sb_step (o : sb_op) : M sworld sb_out :=
  match o with
  | CMake l => let! a := smem (alloc l) in add_slice (MkSlice a 0 (length l) (length l))
  | CSub h lo hi => let! d := the_slice h in let! d := smem (s_to d hi) in let! d := smem (s_from d lo) in add_slice d
  | CLen h => let! d := the_slice h in mret_ (SNum (N.of_nat (s_len d)))
  | CGet h i => let! d := the_slice h in let! x := smem (s_get d i) in mret_ (SNum x)
  | CPut h i x => let! d := the_slice h in smem (s_set d i x) ;; mret_ SUnit
  | SNew n => let! x := smem (sb_new n) in add_bitmap x
  | SFromData h => let! d := the_slice h in add_bitmap (sb_from_data d)
  | SData b => let! x := the_bitmap b in add_slice (sb_data x)
  | SSet b p => let! x := the_bitmap b in let! r := smem (sb_set p x) in mret_ (SBool r)
  | SUnset b p => let! x := the_bitmap b in let! r := smem (sb_unset p x) in mret_ (SBool r)
  | SIsSet b p => let! x := the_bitmap b in let! r := smem (sb_isset p x) in mret_ (SBool r)
  | SResize b n => let! x := the_bitmap b in let! x := smem (sb_resize n x) in put_bitmap b x
  | SClear b => let! x := the_bitmap b in let! x := smem (sb_clear x) in put_bitmap b x
  | SSize b => let! x := the_bitmap b in mret_ (SNum (sb_size x))
  end.
(** nothing made yet *)
Definition sw0 : sworld := MkSW (MkMem ∅ 0) [] [].
