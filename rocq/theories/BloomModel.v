(** Model of algorithm/hash/hash.go and ds/bloomfilter/bloom.go.
    Bytes and uint64 values are [N].  The digest function (SHA-512, hash.go:24-28) is the
    parameter [h]; EstimateParameters is in EstimateModel.v; lockers are
    in ConcModel.v. *)
From Verif Require Import Base BitmapModel.
Open Scope N_scope.

(** encoding/binary: big-endian and little-endian uint64 *)
Definition be_word (bs : list N) : N := fold_left (fun a b => a * 256 + b) bs 0.
(** binary.LittleEndian.Uint64 (bloom.go:76-77 binary.Read) *)
Fixpoint le_word (bs : list N) : N := match bs with [] => 0 | b :: bs => b + 256 * le_word bs end.
(** binary.LittleEndian.PutUint64 on n bytes (bloom.go:120-121 binary.Write) *)
Fixpoint le_bytes (n : nat) (x : N) : list N :=
  match n with O => [] | S n => x mod 256 :: le_bytes n (x / 256) end.

(** hash.go:15-17: [temp := make([]uint64, len(data)/8); binary.Read(buf, BigEndian, temp)]:
    the first [cnt] groups of 8 bytes *)
Fixpoint words (cnt : nat) (data : list N) : list N :=
  match cnt with
  | O => []
  | S c => be_word (take 8 data) :: words c (drop 8 data)
  end.

Section hash.
  Context (h : list N → list N).

  (** hash.go:13-19: the loop of GenHashInts.  The inner [data := Hash512(data)] declares a
      new variable, so every round hashes the same [seed].  [fuel] bounds the rounds. *)
  Fixpoint gen_loop (fuel : nat) (seed : list N) (n : Z) (hash_ints : list N) : res (list N) :=
    if (Z.of_nat (length hash_ints) <? n)%Z then
      match fuel with
      | O => Fuel
      | S fuel =>
          let data := h seed in
          let temp := words (Nat.div (length data) 8) data in
          gen_loop fuel seed n (hash_ints ++ temp)
      end
    else Ok hash_ints.

  (** hash.go:10-21 GenHashInts; [hashInts[:n]] panics for negative n *)
  Definition gen_hash_ints (seed : list N) (n : Z) : res (list N) :=
    match gen_loop (Z.to_nat n) seed n [] with
    | Ok l => if (n <? 0)%Z then Panic else Ok (take (Z.to_nat n) l)
    | Panic => Panic | Fuel => Fuel
    end.

  (** bloom.go:33-38 (without the locker) *)
  Record bloom := MkBloom { bf_m : N; bf_k : N; bf_b : bitmap }.

  (** bloom.go:12: the salt "g9hmj2fhgr" as bytes *)
  Definition salt : list N := [103; 57; 104; 109; 106; 50; 102; 104; 103; 114].

  (** bloom.go:41-56 New *)
  Definition bf_new (m k : N) : bloom := MkBloom m k (bm_new m).

  (** conversion [int(k)] of a uint64 *)
  Definition to_int (k : N) : Z := if k <? 2 ^ 63 then Z.of_N k else (Z.of_N k - 2 ^ 64)%Z.

  (** bloom.go:95-97: for i := 0; i < k; i++ { bf.b.Set(hashs[i] % bf.m) }; [c] is the number
      of remaining rounds *)
  Fixpoint add_loop (c : nat) (i : Z) (hs : list N) (m : N) (b : bitmap) : res bitmap :=
    match c with
    | O => Ok b
    | S c =>
        match idx hs i with
        | Ok x => if m =? 0 then Panic else
                  match bm_set (x mod m) b with
                  | Ok (_, b') => add_loop c (i + 1)%Z hs m b'
                  | Panic => Panic | Fuel => Fuel
                  end
        | Panic => Panic | Fuel => Fuel
        end
    end.

  (** bloom.go:90-98 Add *)
  Definition bf_add (v : list N) (f : bloom) : res bloom :=
    match gen_hash_ints (salt ++ v) (to_int (bf_k f)) with
    | Ok hs => match add_loop (N.to_nat (bf_k f)) 0%Z hs (bf_m f) (bf_b f) with
               | Ok b => Ok (MkBloom (bf_m f) (bf_k f) b)
               | Panic => Panic | Fuel => Fuel
               end
    | Panic => Panic | Fuel => Fuel
    end.

  (** bloom.go:106-110: the loop of Contains *)
  Fixpoint contains_loop (c : nat) (i : Z) (hs : list N) (m : N) (b : bitmap) : res bool :=
    match c with
    | O => Ok true
    | S c =>
        match idx hs i with
        | Ok x => if m =? 0 then Panic else
                  match bm_isset (x mod m) b with
                  | Ok true => contains_loop c (i + 1)%Z hs m b
                  | Ok false => Ok false
                  | Panic => Panic | Fuel => Fuel
                  end
        | Panic => Panic | Fuel => Fuel
        end
    end.

  (** bloom.go:101-112 Contains *)
  Definition bf_contains (v : list N) (f : bloom) : res bool :=
    match gen_hash_ints (salt ++ v) (to_int (bf_k f)) with
    | Ok hs => contains_loop (N.to_nat (bf_k f)) 0%Z hs (bf_m f) (bf_b f)
    | Panic => Panic | Fuel => Fuel
    end.

  (** bloom.go:115-124 Data *)
  Definition bf_Data (f : bloom) : list N :=
    le_bytes 8 (bf_m f) ++ le_bytes 8 (bf_k f) ++ bm_Data (bf_b f).

  (** bloom.go:64-80 NewFromData; the slice expression data[16:] panics on short input *)
  Definition bf_from_data (data : list N) : res bloom :=
    if (length data <? 16)%nat then Panic
    else Ok (MkBloom (le_word (take 8 data)) (le_word (take 8 (drop 8 data))) (bm_from_data (drop 16 data))).

  (** One API call; [FReload] is [bf = NewFromData(bf.Data())]. *)
  Inductive bf_op := FAdd (v : list N) | FContains (v : list N) | FReload.
  (** dispatch to the methods of bloom.go *)
  Definition bf_step (o : bf_op) (f : bloom) : res (option bool * bloom) :=
    match o with
    | FAdd v => match bf_add v f with Ok f' => Ok (None, f') | Panic => Panic | Fuel => Fuel end
    | FContains v => match bf_contains v f with Ok r => Ok (Some r, f) | Panic => Panic | Fuel => Fuel end
    | FReload => match bf_from_data (bf_Data f) with Ok f' => Ok (None, f') | Panic => Panic | Fuel => Fuel end
    end.
End hash.
