(** Model of ds/hamt/hamt.go.  Keys are byte lists, uint64 values are [N].  Nodes are owned by
    their parent only, so the mutable trie is modelled as a value; a nil slot of a children slice is
    [None].  Recursion runs on fuel: a call with fuel f recurses at most f levels deep.
    Simplifications: a key is copied by value (in Go the slice is shared with the caller, who must
    not change it afterwards); the locker is left to the concurrency model. *)
From Verif Require Import Base.
Open Scope N_scope.

(** hamt.go:23 Key: a byte slice, by value *)
Definition key := list N.

(** hamt.go:321-325 hash: hash/fnv New64 (FNV-1): multiply, then xor each byte *)
Definition fnv1 (a : key) : N := fold_left (fun h b => N.lxor ((h * 1099511628211) mod 2 ^ 64) b) a 14695981039346656037.
(** hamt.go:13-18 Fanout = 6, Mask = 1<<6 - 1 *)
Definition Fanout : N := 6.
(** hamt.go:17 Mask *)
Definition Mask : N := N.shiftl 1 Fanout - 1.
(** hamt.go:327-329 pos; a shift by 64 or more yields 0, as does [N.shiftr] on values below 2^64 *)
Definition posf (hash : N) (depth : nat) : N := N.land (N.shiftr hash (N.of_nat depth * Fanout)) Mask.
(** hamt.go:331-333 bitPos *)
Definition bitposf (p : N) : N := N.shiftl 1 p.
(** math/bits OnesCount64 *)
Definition ones64 (x : N) : nat := length (List.filter (fun i => N.testbit x (N.of_nat i)) (seq 0 64)).

Section hamt.
  Context {T : Type}.
  (** hamt.go:54-71 BitmapNode (pos, bitmap, children), KvNode (hash, kvList as a list of pairs) *)
  Inductive entry := Kv (hash : N) (kvs : list (key * T)) | Bm (pos bitmap : N) (children : list (option entry)).
  Local Notation slots := (list (option entry)).
  (** hamt.go:90-92 Index *)
  Definition index (bitmap bitPos : N) : nat := ones64 (N.land (bitPos - 1) bitmap).
  (** hamt.go:85-87, :242-244 BitPosNum *)
  Definition bitposnum (depth : nat) (e : entry) : N := match e with Bm pos _ _ => N.shiftl 1 pos | Kv hash _ => N.shiftl 1 (posf hash depth) end.
  (** newChildren[i] = e *)
  Definition assign (l : slots) (i : nat) (e : entry) : res slots := if decide (i < length l)%nat then Ok (<[i := Some e]> l) else Panic.
  (** hamt.go:106-109: for _, entry := range h.children { newChildren[h.Index(entry.BitPosNum(depth))] = entry };
      a nil entry panics *)
  Fixpoint place_all (bitmap : N) (depth : nat) (from : slots) (to : slots) : res slots :=
    match from with
    | [] => Ok to
    | None :: _ => Panic
    | Some e :: from => match assign to (index bitmap (bitposnum depth e)) e with Ok to => place_all bitmap depth from to | Panic => Panic | Fuel => Fuel end
    end.
  (** hamt.go:213-218: the same, skipping nil entries *)
  Fixpoint place_some (bitmap : N) (depth : nat) (from : slots) (to : slots) : res slots :=
    match from with
    | [] => Ok to
    | None :: from => place_some bitmap depth from to
    | Some e :: from => match assign to (index bitmap (bitposnum depth e)) e with Ok to => place_some bitmap depth from to | Panic => Panic | Fuel => Fuel end
    end.
  (** hamt.go:117-122: the first pair with an equal key gets the value; [None]: there is none *)
  Fixpoint update_kv (k : key) (v : T) (l : list (key * T)) : option (list (key * T)) :=
    match l with
    | [] => None
    | (k', v') :: l => if bool_decide (k' = k) then Some ((k', v) :: l) else match update_kv k v l with Some l => Some ((k', v') :: l) | None => None end
    end.
  (** hamt.go:94-137 insert; kv is the chain of pairs (only its first pair is used when it joins an
      existing chain) *)
  Fixpoint bn_insert (f depth : nat) (hash : N) (kv : list (key * T)) (bitmap : N) (children : slots) : res (N * slots) :=
    match f with O => Fuel | S f =>
      let pos := posf hash depth in
      let bitPos := bitposf pos in
      if N.land bitPos bitmap =? 0 then
        let bitmap := N.lor bitmap bitPos in
        match assign (replicate (S (length children)) None) (index bitmap bitPos) (Kv hash kv) with
        | Ok nc => match place_all bitmap depth children nc with Ok nc => Ok (bitmap, nc) | Panic => Panic | Fuel => Fuel end
        | Panic => Panic | Fuel => Fuel end
      else
        let i := index bitmap bitPos in
        match children !! i with
        | Some (Some (Kv hash' kvs)) =>
            if hash' =? hash then
              match kv with
              | [] => Panic
              | (k, v) :: _ => match update_kv k v kvs with
                               | Some kvs => Ok (bitmap, <[i := Some (Kv hash' kvs)]> children)
                               | None => Ok (bitmap, <[i := Some (Kv hash' ((k, v) :: kvs))]> children) end
              end
            else
              match bn_insert f (S depth) hash' kvs 0 [] with
              | Ok (bm, ch) => match bn_insert f (S depth) hash kv bm ch with
                               | Ok (bm, ch) => Ok (bitmap, <[i := Some (Bm pos bm ch)]> children)
                               | Panic => Panic | Fuel => Fuel end
              | Panic => Panic | Fuel => Fuel end
        | Some (Some (Bm p bm ch)) =>
            match bn_insert f (S depth) hash kv bm ch with
            | Ok (bm, ch) => Ok (bitmap, <[i := Some (Bm p bm ch)]> children)
            | Panic => Panic | Fuel => Fuel end
        | _ => Panic
        end
    end.
  (** hamt.go:153-157: the first pair with an equal key *)
  Fixpoint find_kv (k : key) (l : list (key * T)) : option T := match l with [] => None | (k', v) :: l => if bool_decide (k' = k) then Some v else find_kv k l end.
  (** hamt.go:139-162 find; [None] is ErrorNotFound *)
  Fixpoint bn_find (f depth : nat) (hash : N) (k : key) (bitmap : N) (children : slots) : res (option T) :=
    match f with O => Fuel | S f =>
      let pos := posf hash depth in
      let bitPos := bitposf pos in
      if N.land bitPos bitmap =? 0 then Ok None else
        match children !! index bitmap bitPos with
        | Some (Some (Kv hash' kvs)) => if negb (hash' =? hash) then Ok None else Ok (find_kv k kvs)
        | Some (Some (Bm _ bm ch)) => bn_find f (S depth) hash k bm ch
        | _ => Panic
        end
    end.
  (** hamt.go:195-208: unlink the first pair with an equal key; [None]: not found *)
  Fixpoint unlink (k : key) (l : list (key * T)) : option (list (key * T)) :=
    match l with
    | [] => None
    | (k', v') :: l => if bool_decide (k' = k) then Some l else match unlink k l with Some l => Some ((k', v') :: l) | None => None end
    end.
  (** hamt.go:179-234 erase; returns found, bitmap, children *)
  Fixpoint bn_erase (f depth : nat) (hash : N) (k : key) (bitmap : N) (children : slots) : res (bool * N * slots) :=
    match f with O => Fuel | S f =>
      let pos := posf hash depth in
      let bitPos := bitposf pos in
      if N.land bitPos bitmap =? 0 then Ok (false, bitmap, children) else
        let i := index bitmap bitPos in
        match children !! i with
        | Some (Some (Kv hash' kvs)) =>
            if negb (hash' =? hash) then Ok (false, bitmap, children) else
              match unlink k kvs with
              | None => Ok (false, bitmap, children)
              | Some [] =>
                  let bitmap := N.land bitmap (N.lxor (2 ^ 64 - 1) bitPos) in
                  match place_some bitmap depth (<[i := None]> children) (replicate (length children - 1) None) with
                  | Ok nc => Ok (true, bitmap, nc) | Panic => Panic | Fuel => Fuel end
              | Some kvs => Ok (true, bitmap, <[i := Some (Kv hash' kvs)]> children)
              end
        | Some (Some (Bm p bm ch)) =>
            match bn_erase f (S depth) hash k bm ch with
            | Ok (ok, bm, ch) =>
                if ok && bool_decide (length ch = 1%nat) then
                  match ch !! 0%nat with
                  | Some (Some (Kv h' kvs)) => Ok (ok, bitmap, <[i := Some (Kv h' kvs)]> children)
                  | Some (Some (Bm _ _ _)) => Ok (ok, bitmap, <[i := Some (Bm p bm ch)]> children)
                  | _ => Panic
                  end
                else Ok (ok, bitmap, <[i := Some (Bm p bm ch)]> children)
            | Panic => Panic | Fuel => Fuel end
        | _ => Panic
        end
    end.
  (** hamt.go:170-174: visiting a chain; the boolean tells whether to go on *)
  Fixpoint trav_kvs {W} (vis : key → T → W → bool * W) (l : list (key * T)) (w : W) : bool * W :=
    match l with [] => (true, w) | (k, v) :: l => if (vis k v w).1 then trav_kvs vis l (vis k v w).2 else (false, (vis k v w).2) end.
  (** hamt.go:164-177 traversal: a nested traversal returns nothing, so the loop goes on after it *)
  Fixpoint bn_traversal {W} (vis : key → T → W → bool * W) (f : nat) (children : slots) (w : W) : res W :=
    match f with O => Fuel | S f =>
      (fix loop (l : slots) (w : W) : res W :=
         match l with
         | [] => Ok w
         | None :: _ => Panic
         | Some (Bm _ _ ch) :: l => match bn_traversal vis f ch w with Ok w => loop l w | Panic => Panic | Fuel => Fuel end
         | Some (Kv _ kvs) :: l => let bw := trav_kvs vis kvs w in if bw.1 then loop l bw.2 else Ok bw.2
         end) children w
    end.

  (** hamt.go:74-77, :247-255: the root's bitmap and children *)
  Definition hamt : Type := N * list (option entry).
  (** hamt.go:247-255 New *)
  Definition hm_new : hamt := (0, []).
  Context (hf : key → N).
  (** the number of levels, see property C52 *)
  Definition levels : nat := 11.
  (** hamt.go:258-265 Insert *)
  Definition hm_Insert (k : key) (v : T) (h : hamt) : res hamt := bn_insert levels 0 (hf k) [(k, v)] h.1 h.2.
  (** hamt.go:268-275 Get *)
  Definition hm_Get (k : key) (h : hamt) : res (option T) := bn_find levels 0 (hf k) k h.1 h.2.
  (** hamt.go:278-285 Erase *)
  Definition hm_Erase (k : key) (h : hamt) : res (bool * hamt) :=
    match bn_erase levels 0 (hf k) k h.1 h.2 with Ok (ok, bm, ch) => Ok (ok, (bm, ch)) | Panic => Panic | Fuel => Fuel end.
  (** hamt.go:314-319 Traversal *)
  Definition hm_Traversal {W} (vis : key → T → W → bool * W) (w : W) (h : hamt) : res W := bn_traversal vis levels h.2 w.
  (** hamt.go:288-298 Keys, :301-311 StringKeys *)
  Definition hm_Keys (h : hamt) : res (list key) := bn_traversal (fun k _ ks => (true, ks ++ [k])) levels h.2 [].
  (** hamt.go:301-311 StringKeys *)
  Definition hm_StringKeys (h : hamt) : res (list key) := bn_traversal (fun k _ ks => (true, ks ++ [k])) levels h.2 [].
End hamt.
Arguments entry : clear implicits.
Arguments hamt : clear implicits.
