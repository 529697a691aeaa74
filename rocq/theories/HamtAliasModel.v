(** Model of ds/hamt/hamt.go in which a key is the slice the caller passes, not a copy of its bytes:
    hamt.go:264 stores the slice header, hamt.go:118, :154 and :197 compare the bytes the slices hold
    at the time of the call.  The hash of a stored key is computed once, at its insertion.
    The code is that of HamtModel.v with keys of any type and any comparison of keys. *)
From Verif Require Import Base GoSliceModel HamtModel.
Open Scope N_scope.

Section hamt.
  Context {K T : Type} (eqk : K → K → bool).
  (** hamt.go:54-71 *)
  Inductive gentry := GKv (hash : N) (kvs : list (K * T)) | GBm (pos bitmap : N) (children : list (option gentry)).
  Local Notation slots := (list (option gentry)).
  (** hamt.go:85-87, :242-244 BitPosNum *)
  Definition g_bitposnum (depth : nat) (e : gentry) : N := match e with GBm pos _ _ => N.shiftl 1 pos | GKv hash _ => N.shiftl 1 (posf hash depth) end.
  (** newChildren[i] = e *)
  Definition g_assign (l : slots) (i : nat) (e : gentry) : res slots := if decide (i < length l)%nat then Ok (<[i := Some e]> l) else Panic.
  (** hamt.go:106-109 *)
  Fixpoint g_place_all (bitmap : N) (depth : nat) (from : slots) (to : slots) : res slots :=
    match from with
    | [] => Ok to
    | None :: _ => Panic
    | Some e :: from => match g_assign to (index bitmap (g_bitposnum depth e)) e with Ok to => g_place_all bitmap depth from to | Panic => Panic | Fuel => Fuel end
    end.
  (** hamt.go:213-218 *)
  Fixpoint g_place_some (bitmap : N) (depth : nat) (from : slots) (to : slots) : res slots :=
    match from with
    | [] => Ok to
    | None :: from => g_place_some bitmap depth from to
    | Some e :: from => match g_assign to (index bitmap (g_bitposnum depth e)) e with Ok to => g_place_some bitmap depth from to | Panic => Panic | Fuel => Fuel end
    end.
  (** hamt.go:117-122: the pair found keeps its key and gets the value *)
  Fixpoint g_update_kv (k : K) (v : T) (l : list (K * T)) : option (list (K * T)) :=
    match l with
    | [] => None
    | (k', v') :: l => if eqk k' k then Some ((k', v) :: l) else match g_update_kv k v l with Some l => Some ((k', v') :: l) | None => None end
    end.
  (** hamt.go:94-137 insert *)
  Fixpoint g_insert (f depth : nat) (hash : N) (kv : list (K * T)) (bitmap : N) (children : slots) : res (N * slots) :=
    match f with O => Fuel | S f =>
      let pos := posf hash depth in
      let bitPos := bitposf pos in
      if N.land bitPos bitmap =? 0 then
        let bitmap := N.lor bitmap bitPos in
        match g_assign (replicate (S (length children)) None) (index bitmap bitPos) (GKv hash kv) with
        | Ok nc => match g_place_all bitmap depth children nc with Ok nc => Ok (bitmap, nc) | Panic => Panic | Fuel => Fuel end
        | Panic => Panic | Fuel => Fuel end
      else
        let i := index bitmap bitPos in
        match children !! i with
        | Some (Some (GKv hash' kvs)) =>
            if hash' =? hash then
              match kv with
              | [] => Panic
              | (k, v) :: _ => match g_update_kv k v kvs with
                               | Some kvs => Ok (bitmap, <[i := Some (GKv hash' kvs)]> children)
                               | None => Ok (bitmap, <[i := Some (GKv hash' ((k, v) :: kvs))]> children) end
              end
            else
              match g_insert f (S depth) hash' kvs 0 [] with
              | Ok (bm, ch) => match g_insert f (S depth) hash kv bm ch with
                               | Ok (bm, ch) => Ok (bitmap, <[i := Some (GBm pos bm ch)]> children)
                               | Panic => Panic | Fuel => Fuel end
              | Panic => Panic | Fuel => Fuel end
        | Some (Some (GBm p bm ch)) =>
            match g_insert f (S depth) hash kv bm ch with
            | Ok (bm, ch) => Ok (bitmap, <[i := Some (GBm p bm ch)]> children)
            | Panic => Panic | Fuel => Fuel end
        | _ => Panic
        end
    end.
  (** hamt.go:153-157 *)
  Fixpoint g_find_kv (k : K) (l : list (K * T)) : option T := match l with [] => None | (k', v) :: l => if eqk k' k then Some v else g_find_kv k l end.
  (** hamt.go:139-162 find *)
  Fixpoint g_find (f depth : nat) (hash : N) (k : K) (bitmap : N) (children : slots) : res (option T) :=
    match f with O => Fuel | S f =>
      let pos := posf hash depth in
      let bitPos := bitposf pos in
      if N.land bitPos bitmap =? 0 then Ok None else
        match children !! index bitmap bitPos with
        | Some (Some (GKv hash' kvs)) => if negb (hash' =? hash) then Ok None else Ok (g_find_kv k kvs)
        | Some (Some (GBm _ bm ch)) => g_find f (S depth) hash k bm ch
        | _ => Panic
        end
    end.
  (** hamt.go:195-208 *)
  Fixpoint g_unlink (k : K) (l : list (K * T)) : option (list (K * T)) :=
    match l with
    | [] => None
    | (k', v') :: l => if eqk k' k then Some l else match g_unlink k l with Some l => Some ((k', v') :: l) | None => None end
    end.
  (** hamt.go:179-234 erase *)
  Fixpoint g_erase (f depth : nat) (hash : N) (k : K) (bitmap : N) (children : slots) : res (bool * N * slots) :=
    match f with O => Fuel | S f =>
      let pos := posf hash depth in
      let bitPos := bitposf pos in
      if N.land bitPos bitmap =? 0 then Ok (false, bitmap, children) else
        let i := index bitmap bitPos in
        match children !! i with
        | Some (Some (GKv hash' kvs)) =>
            if negb (hash' =? hash) then Ok (false, bitmap, children) else
              match g_unlink k kvs with
              | None => Ok (false, bitmap, children)
              | Some [] =>
                  let bitmap := N.land bitmap (N.lxor (2 ^ 64 - 1) bitPos) in
                  match g_place_some bitmap depth (<[i := None]> children) (replicate (length children - 1) None) with
                  | Ok nc => Ok (true, bitmap, nc) | Panic => Panic | Fuel => Fuel end
              | Some kvs => Ok (true, bitmap, <[i := Some (GKv hash' kvs)]> children)
              end
        | Some (Some (GBm p bm ch)) =>
            match g_erase f (S depth) hash k bm ch with
            | Ok (ok, bm, ch) =>
                if ok && bool_decide (length ch = 1%nat) then
                  match ch !! 0%nat with
                  | Some (Some (GKv h' kvs)) => Ok (ok, bitmap, <[i := Some (GKv h' kvs)]> children)
                  | Some (Some (GBm _ _ _)) => Ok (ok, bitmap, <[i := Some (GBm p bm ch)]> children)
                  | _ => Panic
                  end
                else Ok (ok, bitmap, <[i := Some (GBm p bm ch)]> children)
            | Panic => Panic | Fuel => Fuel end
        | _ => Panic
        end
    end.
  (** hamt.go:170-174 with the visitor of Keys, hamt.go:292-296: it appends the slice itself *)
  Definition g_keys_kvs (l : list (K * T)) (ks : list K) : list K := ks ++ l.*1.
  (** hamt.go:164-177 with that visitor, which always goes on *)
  Fixpoint g_keys (f : nat) (children : slots) (ks : list K) : res (list K) :=
    match f with O => Fuel | S f =>
      (fix loop (l : slots) (ks : list K) : res (list K) :=
         match l with
         | [] => Ok ks
         | None :: _ => Panic
         | Some (GBm _ _ ch) :: l => match g_keys f ch ks with Ok ks => loop l ks | Panic => Panic | Fuel => Fuel end
         | Some (GKv _ kvs) :: l => loop l (g_keys_kvs kvs ks)
         end) children ks
    end.
  (** hamt.go:74-77: the root's bitmap and children *)
  Definition ghamt : Type := N * list (option gentry).
End hamt.
Arguments gentry : clear implicits.
Arguments ghamt : clear implicits.

(** the caller's memory and the Hamt *)
Section api.
  Context {T : Type} (hf : key → N).
  (** calls, and writes of the caller into its arrays; [AKeys] shows the bytes of the slices Keys returns *)
  Inductive al_op := AInsert (s : slice) (v : T) | AGet (s : slice) | AErase (s : slice) | AKeys | AWrite (arr i : nat) (b : N).
  (** what the calls return *)
  Inductive al_res := AUnit | AVal (o : option T) | ABool (b : bool) | AKeyList (l : list key).
  (** string(a) == string(b), on the bytes now in memory *)
  Definition same_bytes (m : mem N) (a b : slice) : bool := bool_decide (s_vals a m = s_vals b m :> list N).
  (** the caller's writes; hamt.go:258-265 Insert, :268-275 Get, :278-285 Erase, :288-298 Keys *)
  Definition al_step (o : al_op) (w : mem N * ghamt slice T) : res (al_res * (mem N * ghamt slice T)) :=
    let '(m, h) := w in
    match o with
    | AInsert s v => match g_insert (same_bytes m) levels 0 (hf (s_vals s m)) [(s, v)] h.1 h.2 with Ok h => Ok (AUnit, (m, h)) | Panic => Panic | Fuel => Fuel end
    | AGet s => match g_find (same_bytes m) levels 0 (hf (s_vals s m)) s h.1 h.2 with Ok r => Ok (AVal r, (m, h)) | Panic => Panic | Fuel => Fuel end
    | AErase s => match g_erase (same_bytes m) levels 0 (hf (s_vals s m)) s h.1 h.2 with Ok (ok, bm, ch) => Ok (ABool ok, (m, (bm, ch))) | Panic => Panic | Fuel => Fuel end
    | AKeys => match g_keys levels h.2 [] with Ok ks => Ok (AKeyList ((λ s, s_vals s m) <$> ks), (m, h)) | Panic => Panic | Fuel => Fuel end
    | AWrite a i b => Ok (AUnit, (MkMem (<[a := <[i := b]> (array_of a m)]> (m_arr m)) (m_next m), h))
    end.
End api.
Arguments al_op : clear implicits.
Arguments al_res : clear implicits.
