(** Model of ds/bloomfilter/bloom.go in which byte slices are slices of arrays in memory: NewFromData
    (bloom.go:64-80) keeps data[16:] as the bits of the new filter, Data (:115-124) builds a new slice.
    The client makes, reads and writes byte slices beside its calls.  As in BloomModel.v the digest
    function is the parameter [h]; lockers are in ConcModel.v. *)
From Verif Require Import Base GoSliceModel BitmapModel BitmapShareModel BloomModel.
Open Scope N_scope.
Local Open Scope go_scope.

(** a result that does not touch memory *)
Definition mlift {S A} (r : res A) : M S A := fun s => match r with Ok a => Ok (a, s) | Panic => Panic | Fuel => Fuel end.
Section share.
  Context (h : list N → list N).
  (** bloom.go:33-38 (without the locker) *)
  Record sbloom := MkSF { sf_m : N; sf_k : N; sf_b : sbitmap }.
  (** bloom.go:41-56 New *)
  Definition sf_new (m k : N) : M (mem N) sbloom := let! b := sb_new m in mret_ (MkSF m k b).
  (** bloom.go:95-97, the loop of Add *)
  Fixpoint sadd_loop (c : nat) (i : Z) (hs : list N) (m : N) (b : sbitmap) : M (mem N) unit :=
    match c with
    | O => mret_ tt
    | S c => let! x := mlift (idx hs i) in
             if m =? 0 then mpanic else (let! _ := sb_set (x mod m) b in sadd_loop c (i + 1)%Z hs m b)
    end.
  (** bloom.go:90-98 Add *)
  Definition sf_add (v : list N) (f : sbloom) : M (mem N) unit :=
    let! hs := mlift (gen_hash_ints h (salt ++ v) (to_int (sf_k f))) in
    sadd_loop (N.to_nat (sf_k f)) 0%Z hs (sf_m f) (sf_b f).
  (** bloom.go:106-110, the loop of Contains *)
  Fixpoint scontains_loop (c : nat) (i : Z) (hs : list N) (m : N) (b : sbitmap) : M (mem N) bool :=
    match c with
    | O => mret_ true
    | S c => let! x := mlift (idx hs i) in
             if m =? 0 then mpanic else (let! r := sb_isset (x mod m) b in if r : bool then scontains_loop c (i + 1)%Z hs m b else mret_ false)
    end.
  (** bloom.go:101-112 Contains *)
  Definition sf_contains (v : list N) (f : sbloom) : M (mem N) bool :=
    let! hs := mlift (gen_hash_ints h (salt ++ v) (to_int (sf_k f))) in
    scontains_loop (N.to_nat (sf_k f)) 0%Z hs (sf_m f) (sf_b f).
  (** the bytes a slice holds now *)
  Definition s_bytes (d : slice) : M (mem N) (list N) := fun m => Ok (s_vals d m, m).
  (** bloom.go:115-124 Data: the bytes are copied into a bytes.Buffer, whose slice is returned *)
  Definition sf_Data (f : sbloom) : M (mem N) slice :=
    let! bs := s_bytes (sb_data (sf_b f)) in
    let bs := le_bytes 8 (sf_m f) ++ le_bytes 8 (sf_k f) ++ bs in
    let! a := alloc bs in mret_ (MkSlice a 0 (length bs) (length bs)).
  (** bloom.go:64-80 NewFromData: m and k are read from the first 16 bytes, data[8+8:] becomes the bitmap's data *)
  Definition sf_from_data (d : slice) : M (mem N) sbloom :=
    let! bs := s_bytes d in
    let! d' := s_from d 16 in
    mret_ (MkSF (le_word (take 8 bs)) (le_word (take 8 (drop 8 bs))) (sb_from_data d')).

  (** memory, the filters made so far, the slices the client holds *)
  Record fworld := MkFW { fw_mem : mem N; fw_fs : list sbloom; fw_ds : list slice }.
  (** what a client does: []byte literals, d[i], d[i] = x; the functions and methods of bloom.go; slices and filters are named by their number *)
  Inductive sf_op :=
    | WMake (l : list N) | WGet (d : nat) (i : Z) | WPut (d : nat) (i : Z) (x : N)
    | WNew (m k : N) | WFromData (d : nat) | WData (f : nat) | WAdd (f : nat) (v : list N) | WContains (f : nat) (v : list N).
  (** results; [WSlice] and [WFilter] are the number of the new slice or filter *)
  Inductive sf_out := WUnit | WBool (b : bool) | WByte (x : N) | WSlice (d : nat) | WFilter (f : nat).
  (** run something of the memory *)
  Definition fmem {A} (m : M (mem N) A) : M fworld A := fun w =>
    match m (fw_mem w) with Ok (a, mm) => Ok (a, MkFW mm (fw_fs w) (fw_ds w)) | Panic => Panic | Fuel => Fuel end.
  (** the client's slice d *)
  Definition fslice (d : nat) : M fworld slice := fun w => match fw_ds w !! d with Some x => Ok (x, w) | None => Panic end.
  (** the filter f *)
  Definition ffilter (f : nat) : M fworld sbloom := fun w => match fw_fs w !! f with Some x => Ok (x, w) | None => Panic end.
  (** one more slice *)
  Definition new_slice (d : slice) : M fworld sf_out := fun w => Ok (WSlice (length (fw_ds w)), MkFW (fw_mem w) (fw_fs w) (fw_ds w ++ [d])).
  (** one more filter *)
  Definition new_filter (f : sbloom) : M fworld sf_out := fun w => Ok (WFilter (length (fw_fs w)), MkFW (fw_mem w) (fw_fs w ++ [f]) (fw_ds w)).
  (** dispatch to the client's actions and to bloom.go:41-124 *)
  Definition sf_step (o : sf_op) : M fworld sf_out :=
    match o with
    | WMake l => let! a := fmem (alloc l) in new_slice (MkSlice a 0 (length l) (length l))
    | WGet d i => let! d := fslice d in let! x := fmem (s_get d i) in mret_ (WByte x)
    | WPut d i x => let! d := fslice d in fmem (s_set d i x) ;; mret_ WUnit
    | WNew m k => let! f := fmem (sf_new m k) in new_filter f
    | WFromData d => let! d := fslice d in let! f := fmem (sf_from_data d) in new_filter f
    | WData f => let! f := ffilter f in let! d := fmem (sf_Data f) in new_slice d
    | WAdd f v => let! f := ffilter f in fmem (sf_add v f) ;; mret_ WUnit
    | WContains f v => let! f := ffilter f in let! r := fmem (sf_contains v f) in mret_ (WBool r)
    end.
  (** nothing made yet *)
  Definition fw0 : fworld := MkFW (MkMem ∅ 0) [] [].
End share.
