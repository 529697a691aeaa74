(** Model of ds/hamt/hamt.go with its objects: bitmap nodes, kv nodes, pairs and children arrays live in a heap and
    are read and written one at a time, as the Go code does (HamtModel has the trie as a value).  This shows what a
    visitor sees that changes the Hamt while its Traversal runs: the loop of :165 goes on over the array that
    h.children referred to when the loop began. *)
From Verif Require Import Base HamtModel HamtSpec VisitEraseModel.
Open Scope N_scope.
Local Open Scope go_scope.

(** hamt.go:45-51 Entry: a pointer to a KvNode or to a BitmapNode; entry.Type() tells which *)
Inductive eref := EK (a : nat) | EB (a : nat).

Section heap.
  Context {T : Type}.
  (** hamt.go:54-58 BitmapNode (children: the address of its array), the array behind a children slice, :68-71 KvNode,
      :61-65 KvPair.  A nil slice is an array of length 0.  Simplification: a key is held by value (HamtAliasModel
      has the shared key slices). *)
  Inductive obj := OBit (bitmap pos : N) (children : nat) | OArr (sl : list (option eref)) | OKv (hash : N) (kvs : option nat) | OPair (k : key) (v : T) (next : option nat).
  (** an address is a position in this list; there is no reuse *)
  Local Notation heap := (list obj).
  (** reading the fields of a BitmapNode *)
  Definition rdB (a : nat) : M heap (N * N * nat) := λ h, match h !! a with Some (OBit b p c) => Ok (b, p, c, h) | _ => Panic end.
  (** the elements of a children array *)
  Definition rdA (a : nat) : M heap (list (option eref)) := λ h, match h !! a with Some (OArr sl) => Ok (sl, h) | _ => Panic end.
  (** reading the fields of a KvNode *)
  Definition rdK (a : nat) : M heap (N * option nat) := λ h, match h !! a with Some (OKv x l) => Ok (x, l, h) | _ => Panic end.
  (** reading the fields of a KvPair *)
  Definition rdP (a : nat) : M heap (key * T * option nat) := λ h, match h !! a with Some (OPair k v n) => Ok (k, v, n, h) | _ => Panic end.
  (** writing the object at an address *)
  Definition put (a : nat) (o : obj) : M heap unit := λ h, Ok (tt, <[a := o]> h).
  (** &BitmapNode[T]{}, &KvNode[T]{}, &KvPair[T]{}, make([]Entry, n) *)
  Definition alloc (o : obj) : M heap nat := λ h, Ok (length h, h ++ [o]).
  (** array[i] *)
  Definition slot (c i : nat) : M heap (option eref) := let! sl := rdA c in match sl !! i with Some e => mret_ e | None => mpanic end.
  (** array[i] = e *)
  Definition setslot (c i : nat) (e : option eref) : M heap unit := let! sl := rdA c in if decide (i < length sl)%nat then put c (OArr (<[i := e]> sl)) else mpanic.
  (** hamt.go:90-92 Index *)
  Definition h_index (b : nat) (bitPos : N) : M heap nat := let! n := rdB b in mret_ (index n.1.1 bitPos).
  (** hamt.go:85-87, :242-244 BitPosNum *)
  Definition h_bitposnum (depth : nat) (e : eref) : M heap N :=
    match e with EB a => let! n := rdB a in mret_ (N.shiftl 1 n.1.2) | EK a => let! n := rdK a in mret_ (N.shiftl 1 (posf n.1 depth)) end.
  (** hamt.go:106-109 (nils = false: a nil entry panics) and :213-218 (nils = true: it is skipped):
      for _, entry := range h.children { newChildren[h.Index(entry.BitPosNum(depth))] = entry }, n elements left *)
  Fixpoint h_place (nils : bool) (b depth from to n i : nat) : M heap unit :=
    match n with
    | O => mret_ tt
    | S n =>
      let! e := slot from i in
      match e with
      | None => if nils then h_place nils b depth from to n (S i) else mpanic
      | Some r => let! p := h_bitposnum depth r in let! j := h_index b p in setslot to j (Some r) ;; h_place nils b depth from to n (S i)
      end
    end.
  (** hamt.go:117-122, :153-157, :198-204: the first pair with an equal key, and the pair before it *)
  Fixpoint pfind (f : nat) (k : key) (iter pre : option nat) : M heap (option (nat * option nat)) :=
    match iter with
    | None => mret_ None
    | Some a =>
      match f with
      | O => mfuel
      | S f => let! p := rdP a in if bool_decide (p.1.1 = k) then mret_ (Some (a, pre)) else pfind f k p.2 (Some a)
      end
    end.
  (** the search, with fuel for as many pairs as there are objects *)
  Definition h_search (k : key) (iter : option nat) : M heap (option (nat * option nat)) := λ h, pfind (length h) k iter None h.

  (** hamt.go:94-137 insert into the BitmapNode at b; kv: the address of the pair *)
  Fixpoint h_insert (f depth : nat) (hash : N) (kv b : nat) : M heap unit :=
    match f with O => mfuel | S f =>
      let pos := posf hash depth in
      let bitPos := bitposf pos in
      let! n := rdB b in
      if N.land bitPos n.1.1 =? 0 then
        put b (OBit (N.lor n.1.1 bitPos) n.1.2 n.2) ;;
        let! sl := rdA n.2 in
        let! new := alloc (OArr (replicate (S (length sl)) None)) in
        let! kn := alloc (OKv hash (Some kv)) in
        let! i := h_index b bitPos in
        setslot new i (Some (EK kn)) ;;
        h_place false b depth n.2 new (length sl) 0 ;;
        let! n' := rdB b in
        put b (OBit n'.1.1 n'.1.2 new)
      else
        let! i := h_index b bitPos in
        let! e := slot n.2 i in
        match e with
        | None => mpanic
        | Some (EK a) =>
            let! kn := rdK a in
            if kn.1 =? hash then
              let! p := rdP kv in
              let! r := h_search p.1.1 kn.2 in
              match r with
              | Some (x, _) => let! q := rdP x in put x (OPair q.1.1 p.1.2 q.2)
              | None => put kv (OPair p.1.1 p.1.2 kn.2) ;; put a (OKv kn.1 (Some kv))
              end
            else
              let! c := alloc (OArr []) in
              let! nb := alloc (OBit 0 pos c) in
              match kn.2 with
              | None => mpanic
              | Some l => h_insert f (S depth) kn.1 l nb ;; h_insert f (S depth) hash kv nb ;; setslot n.2 i (Some (EB nb))
              end
        | Some (EB b') => h_insert f (S depth) hash kv b'
        end
    end.

  (** hamt.go:139-162 find *)
  Fixpoint h_find (f depth : nat) (hash : N) (k : key) (b : nat) : M heap (option T) :=
    match f with O => mfuel | S f =>
      let bitPos := bitposf (posf hash depth) in
      let! n := rdB b in
      if N.land bitPos n.1.1 =? 0 then mret_ None else
        let! i := h_index b bitPos in
        let! e := slot n.2 i in
        match e with
        | None => mpanic
        | Some (EK a) =>
            let! kn := rdK a in
            if negb (kn.1 =? hash) then mret_ None else
              let! r := h_search k kn.2 in
              match r with Some (x, _) => let! q := rdP x in mret_ (Some q.1.2) | None => mret_ None end
        | Some (EB b') => h_find f (S depth) hash k b'
        end
    end.

  (** hamt.go:179-234 erase *)
  Fixpoint h_erase (f depth : nat) (hash : N) (k : key) (b : nat) : M heap bool :=
    match f with O => mfuel | S f =>
      let bitPos := bitposf (posf hash depth) in
      let! n := rdB b in
      if N.land bitPos n.1.1 =? 0 then mret_ false else
        let! i := h_index b bitPos in
        let! e := slot n.2 i in
        match e with
        | None => mpanic
        | Some (EK a) =>
            let! kn := rdK a in
            if negb (kn.1 =? hash) then mret_ false else
              let! r := h_search k kn.2 in
              match r with
              | None => mret_ false
              | Some (x, pre) =>
                  let! q := rdP x in
                  match pre with
                  | Some y => let! qy := rdP y in put y (OPair qy.1.1 qy.1.2 q.2)
                  | None => put a (OKv kn.1 q.2)
                  end ;;
                  let! kn' := rdK a in
                  match kn'.2 with
                  | Some _ => mret_ true
                  | None =>
                      setslot n.2 i None ;;
                      put b (OBit (N.land n.1.1 (N.lxor (2 ^ 64 - 1) bitPos)) n.1.2 n.2) ;;
                      let! sl := rdA n.2 in
                      let! new := alloc (OArr (replicate (length sl - 1) None)) in
                      h_place true b depth n.2 new (length sl) 0 ;;
                      let! n' := rdB b in
                      put b (OBit n'.1.1 n'.1.2 new) ;;
                      mret_ true
                  end
              end
        | Some (EB b') =>
            let! ok := h_erase f (S depth) hash k b' in
            let! n' := rdB b' in
            let! sl := rdA n'.2 in
            if ok && bool_decide (length sl = 1%nat) then
              let! e' := slot n'.2 0 in
              match e' with
              | None => mpanic
              | Some (EK a) => setslot n.2 i (Some (EK a)) ;; mret_ ok
              | Some (EB _) => mret_ ok
              end
            else mret_ ok
        end
    end.

  Context (hf : key → N).
  (** hamt.go:247-255 New: the root is at 0 *)
  Definition hh_new : heap := [OBit 0 0 1; OArr []].
  (** hamt.go:258-265 Insert *)
  Definition hh_Insert (k : key) (v : T) : M heap unit := let! kv := alloc (OPair k v None) in h_insert levels 0 (hf k) kv 0.
  (** hamt.go:268-275 Get *)
  Definition hh_Get (k : key) : M heap (option T) := h_find levels 0 (hf k) k 0.
  (** hamt.go:278-285 Erase *)
  Definition hh_Erase (k : key) : M heap bool := h_erase levels 0 (hf k) k 0.

  Section visit.
    Context {W : Type} (vis : key * T → W → list (kv_call key T) * (bool * W)).
    (** a call of the visitor that changes the Hamt *)
    Definition hh_act (o : kv_call key T) : M heap unit := match o with VInsert _ k v => hh_Insert k v | VRemove k => hh_Erase k ;; mret_ tt end.
    (** hamt.go:170-174: for kv := node.kvList; kv != nil; kv = kv.next { if !visitor(kv.key, kv.value) { return } };
        returns the visits (what was handed over, what the visitor did), whether to go on, the visitor's state *)
    Fixpoint v_chain (g : nat) (kv : option nat) (w : W) : M heap (list (key * T * list (kv_call key T)) * (bool * W)) :=
      match kv with
      | None => mret_ ([], (true, w))
      | Some a =>
        match g with
        | O => mfuel
        | S g =>
          let! p := rdP a in
          let d := (p.1.1, p.1.2) in
          let r := vis d w in
          act_all hh_act r.1 ;;
          if negb r.2.1 then mret_ ([(d, r.1)], (false, r.2.2))
          else let! q := rdP a in let! t := v_chain g q.2 r.2.2 in mret_ ((d, r.1) :: t.1, t.2)
        end
      end.
    (** hamt.go:165 for _, entry := range h.children: n elements left of the array c from i on *)
    Fixpoint v_slots (sub : nat → W → M heap (list (key * T * list (kv_call key T)) * W)) (g c n i : nat) (w : W) : M heap (list (key * T * list (kv_call key T)) * W) :=
      match n with
      | O => mret_ ([], w)
      | S n =>
        let! e := slot c i in
        match e with
        | None => mpanic
        | Some (EB b) => let! t := sub b w in let! t' := v_slots sub g c n (S i) t.2 in mret_ (t.1 ++ t'.1, t'.2)
        | Some (EK a) =>
            let! kn := rdK a in
            let! t := v_chain g kn.2 w in
            if negb t.2.1 then mret_ (t.1, t.2.2) else let! t' := v_slots sub g c n (S i) t.2.2 in mret_ (t.1 ++ t'.1, t'.2)
        end
      end.
    (** hamt.go:164-177 traversal of the BitmapNode at b *)
    Fixpoint v_node (f g b : nat) (w : W) : M heap (list (key * T * list (kv_call key T)) * W) :=
      match f with
      | O => mfuel
      | S f => let! n := rdB b in let! sl := rdA n.2 in v_slots (v_node f g) g n.2 (length sl) 0 w
      end.
    (** hamt.go:314-319 Traversal; g: fuel for the pairs of a chain *)
    Definition hamt_visits (g : nat) (w : W) : M heap (list (key * T * list (kv_call key T)) * W) := v_node levels g 0 w.
  End visit.
  (** Traversal with a visitor that makes no calls *)
  Definition hh_Traversal {W} (vis : key → T → W → bool * W) (w : W) : M heap W := λ h,
    match hamt_visits (λ d w, ([], vis d.1 d.2 w)) (length h) w h with Ok (t, h) => Ok (t.2, h) | Panic => Panic | Fuel => Fuel end.
  (** hamt.go:288-298 Keys, :301-311 StringKeys *)
  Definition hh_Keys : M heap (list key) := hh_Traversal (fun k _ ks => (true, ks ++ [k])) [].

  (** the API of HamtSpec *)
  Definition hh_step {W} (o : hm_op T W) : M heap (hm_res T W) :=
    match o with
    | HInsert k v => hh_Insert k v ;; mret_ HUnit
    | HGet k => let! r := hh_Get k in mret_ (HVal r)
    | HErase k => let! r := hh_Erase k in mret_ (HBool r)
    | HKeys | HStringKeys => let! l := hh_Keys in mret_ (HKeyList l)
    | HTraverse vis w => let! w := hh_Traversal vis w in mret_ (HVis w)
    end.
End heap.
Arguments obj : clear implicits.
(** the heap *)
Notation heap T := (list (obj T)).
