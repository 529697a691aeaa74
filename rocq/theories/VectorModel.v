(** Model of ds/vector/vector.go.  The state is a world of vectors over one store of backing
    arrays; a vector is named by its position in [w_vecs] (vectors are never destroyed).
    String() is not modelled; the sharing created by Data() is in VectorDataModel.v. *)
From Verif Require Import Base GoSliceModel.
Open Scope Z_scope.
Open Scope go_scope.

Section vector.
  Context {T : Type} (zero : T) (grow : nat → nat → nat).

  (** the backing arrays and the data field of every vector (vector.go:24-26) *)
  Record world := MkWorld { w_mem : mem T; w_vecs : list slice }.
  Notation MW := (M world).

  (** a memory operation in the world *)
  Definition lift {A} (f : M (mem T) A) : MW A := fun w =>
    match f (w_mem w) with
    | Ok (a, m) => Ok (a, MkWorld m (w_vecs w))
    | Panic => Panic | Fuel => Fuel
    end.
  (** read the field v.data; a name outside the world is a nil *Vector *)
  Definition data (v : nat) : MW slice := fun w =>
    match w_vecs w !! v with Some s => Ok (s, w) | None => Panic end.
  (** v.data = s *)
  Definition set_data (v : nat) (s : slice) : MW unit := fun w =>
    Ok (tt, MkWorld (w_mem w) (<[v := s]> (w_vecs w))).
  (** &Vector{data: s} *)
  Definition new_vec (s : slice) : MW nat := fun w =>
    Ok (length (w_vecs w), MkWorld (w_mem w) (w_vecs w ++ [s])).

  (** len(s) *)
  Definition len_ (s : slice) : Z := Z.of_nat (s_len s).
  (** cap(s) *)
  Definition cap_ (s : slice) : Z := Z.of_nat (s_cap s).

  (** vector.go:29-37 New (with the WithCapacity option, :14-21) *)
  Definition v_new (capacity : Z) : MW nat :=
    let! s := lift (make_slice zero 0 capacity) in new_vec s.
  (** vector.go:40-46 NewFromVector *)
  Definition v_from (other : nat) : MW nat :=
    let! o := data other in
    let! s := lift (make_slice zero (len_ o) (cap_ o)) in
    let! v := new_vec s in
    lift (copy_loop (s_len o) 0 s o) ;;
    mret_ v.
  (** vector.go:49-51 Size; :54-56 Capacity; :59-64 Empty *)
  Definition v_size (v : nat) : MW Z := let! s := data v in mret_ (len_ s).
  (** vector.go:54-56 Capacity *)
  Definition v_capacity (v : nat) : MW Z := let! s := data v in mret_ (cap_ s).
  (** vector.go:59-64 Empty *)
  Definition v_empty (v : nat) : MW bool := let! s := data v in mret_ (len_ s =? 0).
  (** vector.go:67-69 PushBack *)
  Definition v_push_back (v : nat) (x : T) : MW unit :=
    let! s := data v in
    let! s' := lift (s_append zero grow s [x]) in
    set_data v s'.
  (** vector.go:72-77 SetAt *)
  Definition v_set_at (v : nat) (pos : Z) (x : T) : MW unit :=
    let! s := data v in
    if (pos <? 0) || (len_ s <=? pos) then mret_ tt else lift (s_set s pos x).
  (** vector.go:85-87: for i := len-1; i > pos; i-- { data[i] = data[i-1] }; [cnt] rounds remain *)
  Fixpoint shift_loop (cnt : nat) (i : Z) (s : slice) : M (mem T) unit :=
    match cnt with
    | O => mret_ tt
    | S c => let! x := s_get s (i - 1) in
             s_set s i x ;;
             shift_loop c (i - 1) s
    end.
  (** vector.go:80-89 InsertAt *)
  Definition v_insert_at (v : nat) (pos : Z) (x : T) : MW unit :=
    let! s := data v in
    if (pos <? 0) || (len_ s <? pos) then mret_ tt
    else let! s' := lift (s_append zero grow s [x]) in
         set_data v s' ;;
         lift (shift_loop (Z.to_nat (len_ s' - 1 - pos)) (len_ s' - 1) s') ;;
         lift (s_set s' pos x).
  (** vector.go:97-109 EraseIndexRange *)
  Definition v_erase_index_range (v : nat) (first last : Z) : MW unit :=
    let! s := data v in
    if last <? first then mret_ tt
    else if (first <? 0) || (len_ s <? last) then mret_ tt
    else let! lft := lift (s_to s first) in
         let! rgt := lift (s_from s last) in
         let! s' := lift (s_append_slice zero grow lft rgt) in
         set_data v s'.
  (** vector.go:92-94 EraseAt *)
  Definition v_erase_at (v : nat) (pos : Z) : MW unit := v_erase_index_range v pos (pos + 1).
  (** vector.go:112-117 At; :120-122 Front; :125-127 Back *)
  Definition v_at (v : nat) (pos : Z) : MW T :=
    let! s := data v in
    if (pos <? 0) || (len_ s <=? pos) then mpanic else lift (s_get s pos).
  (** vector.go:120-122 Front *)
  Definition v_front (v : nat) : MW T := v_at v 0.
  (** vector.go:125-127 Back *)
  Definition v_back (v : nat) : MW T := let! n := v_size v in v_at v (n - 1).
  (** vector.go:130-137 PopBack *)
  Definition v_pop_back (v : nat) : MW T :=
    let! e := v_empty v in
    if (e : bool) then mpanic
    else let! x := v_back v in
         let! s := data v in
         let! s' := lift (s_to s (len_ s - 1)) in
         set_data v s' ;;
         mret_ x.
  (** vector.go:140-149 Reserve *)
  Definition v_reserve (v : nat) (capacity : Z) : MW unit :=
    let! s := data v in
    if capacity <=? cap_ s then mret_ tt
    else let! d := lift (make_slice zero (len_ s) capacity) in
         lift (copy_loop (s_len s) 0 d s) ;;
         set_data v d.
  (** vector.go:152-162 ShrinkToFit *)
  Definition v_shrink_to_fit (v : nat) : MW unit :=
    let! s := data v in
    if len_ s =? cap_ s then mret_ tt
    else let! d := lift (make_slice zero (len_ s) (len_ s)) in
         lift (copy_loop (s_len s) 0 d s) ;;
         set_data v d.
  (** vector.go:165-167 Clear *)
  Definition v_clear (v : nat) : MW unit :=
    let! s := data v in let! s' := lift (s_to s 0) in set_data v s'.
  (** vector.go:222-227 Resize *)
  Definition v_resize (v : nat) (size : Z) : MW unit :=
    let! s := data v in
    if len_ s <=? size then mret_ tt
    else let! s' := lift (s_to s size) in set_data v s'.
  (** vector.go:200-219 Insert, Erase, EraseRange: only the iterator's position is used;
      the result is the iterator (v, position) *)
  Definition v_insert (v : nat) (iter : nat * Z) (x : T) : MW (nat * Z) :=
    v_insert_at v iter.2 x ;; mret_ (v, iter.2).
  (** vector.go:207-211 Erase *)
  Definition v_erase (v : nat) (iter : nat * Z) : MW (nat * Z) :=
    v_erase_at v iter.2 ;; mret_ (v, iter.2).
  (** vector.go:214-219 EraseRange *)
  Definition v_erase_range (v : nat) (first last : nat * Z) : MW (nat * Z) :=
    v_erase_index_range v first.2 last.2 ;; mret_ (v, first.2).

  (** One API call and its observable result. *)
  Inductive v_op :=
  | VNew (capacity : Z) | VFrom (other : nat)
  | VSize (v : nat) | VEmpty (v : nat)
  | VPushBack (v : nat) (x : T) | VSetAt (v : nat) (pos : Z) (x : T) | VInsertAt (v : nat) (pos : Z) (x : T)
  | VEraseAt (v : nat) (pos : Z) | VEraseIndexRange (v : nat) (first last : Z)
  | VAt (v : nat) (pos : Z) | VFront (v : nat) | VBack (v : nat) | VPopBack (v : nat)
  | VReserve (v : nat) (capacity : Z) | VShrinkToFit (v : nat) | VClear (v : nat) | VResize (v : nat) (size : Z)
  | VInsert (v : nat) (iter : nat * Z) (x : T) | VErase (v : nat) (iter : nat * Z)
  | VEraseRange (v : nat) (first last : nat * Z).
  (** what the methods of vector.go return *)
  Inductive v_out := VUnit | VInt (n : Z) | VBool (b : bool) | VVal (x : T) | VVec (v : nat) | VIter (i : nat * Z).
  (** wraps a result *)
  Definition omap_ {A} (f : A → v_out) (m : MW A) : MW v_out := let! a := m in mret_ (f a).
  (** dispatch to the methods of vector.go *)
  Definition v_step (o : v_op) : MW v_out :=
    match o with
    | VNew c => omap_ VVec (v_new c)
    | VFrom v => omap_ VVec (v_from v)
    | VSize v => omap_ VInt (v_size v)
    | VEmpty v => omap_ VBool (v_empty v)
    | VPushBack v x => omap_ (fun _ => VUnit) (v_push_back v x)
    | VSetAt v p x => omap_ (fun _ => VUnit) (v_set_at v p x)
    | VInsertAt v p x => omap_ (fun _ => VUnit) (v_insert_at v p x)
    | VEraseAt v p => omap_ (fun _ => VUnit) (v_erase_at v p)
    | VEraseIndexRange v f l => omap_ (fun _ => VUnit) (v_erase_index_range v f l)
    | VAt v p => omap_ VVal (v_at v p)
    | VFront v => omap_ VVal (v_front v)
    | VBack v => omap_ VVal (v_back v)
    | VPopBack v => omap_ VVal (v_pop_back v)
    | VReserve v c => omap_ (fun _ => VUnit) (v_reserve v c)
    | VShrinkToFit v => omap_ (fun _ => VUnit) (v_shrink_to_fit v)
    | VClear v => omap_ (fun _ => VUnit) (v_clear v)
    | VResize v n => omap_ (fun _ => VUnit) (v_resize v n)
    | VInsert v i x => omap_ VIter (v_insert v i x)
    | VErase v i => omap_ VIter (v_erase v i)
    | VEraseRange v f l => omap_ VIter (v_erase_range v f l)
    end.
  (** no vector allocated yet *)
  Definition world0 : world := MkWorld (MkMem ∅ 0) [].
End vector.
Arguments world : clear implicits.
Arguments v_op : clear implicits.
Arguments v_out : clear implicits.
