(** Clients that keep iterators of the ordered containers (ds/map/iterator.go, ds/set/iterator.go,
    ds/rbtree/iterator.go) while they go on using the container.  An iterator is an object with one
    field, the node pointer; Next and Prev change the field; iterators are named by their number.
    Equal with an iterator of another type is not represented; a container method that the type does
    not have is represented by [None]. *)
From Verif Require Import Base RbModel MapModel SetModel.
Local Open Scope go_scope.

(** the methods of a container and of its iterators; D: what Key and Value (or only Value) return *)
Record methods (K V D : Type) := MkMethods {
  c_insert : K → V → M (rb K V) unit; c_erase : option (K → M (rb K V) unit); c_eraseall : option (K → M (rb K V) unit); c_eraseit : option (ptr → M (rb K V) unit);
  c_clear : M (rb K V) unit; c_size : M (rb K V) Z;
  c_find : K → M (rb K V) ptr; c_lower : K → M (rb K V) ptr; c_upper : K → M (rb K V) ptr; c_begin : M (rb K V) ptr; c_last : M (rb K V) ptr;
  i_valid : ptr → bool; i_next : ptr → M (rb K V) ptr; i_prev : ptr → M (rb K V) ptr; i_read : ptr → M (rb K V) D;
  i_set : option (ptr → V → M (rb K V) unit); i_clone : ptr → ptr; i_equal : ptr → ptr → bool }.
Arguments c_insert {K V D}. Arguments c_erase {K V D}. Arguments c_eraseall {K V D}. Arguments c_eraseit {K V D}. Arguments c_clear {K V D}. Arguments c_size {K V D}.
Arguments c_find {K V D}. Arguments c_lower {K V D}. Arguments c_upper {K V D}. Arguments c_begin {K V D}. Arguments c_last {K V D}.
Arguments i_valid {K V D}. Arguments i_next {K V D}. Arguments i_prev {K V D}. Arguments i_read {K V D}. Arguments i_set {K V D}. Arguments i_clone {K V D}. Arguments i_equal {K V D}.

Section client.
  Context {K V D : Type} (c : methods K V D).
  (** the container and the iterators made so far (map/iterator.go:9-11) *)
  Record tiworld := MkTI { ti_tree : rb K V; ti_its : list ptr }.
  (** one action: Insert, Erase (of one entry, of all entries) by key and by iterator, Clear, Size; Find, LowerBound, UpperBound, Begin, Last
      (each makes an iterator); IsValid, Next, Prev, Key and Value, SetValue, Clone, Equal of an iterator *)
  Inductive ti_op :=
    | TInsert (k : K) (v : V) | TErase (k : K) | TEraseAll (k : K) | TEraseIt (i : nat) | TClear | TSize
    | TFind (k : K) | TLower (k : K) | TUpper (k : K) | TBegin | TLast
    | TValid (i : nat) | TNext (i : nat) | TPrev (i : nat) | TRead (i : nat) | TSetV (i : nat) (v : V) | TClone (i : nat) | TEqual (i j : nat).
  (** its result; TIter: the number of the new iterator *)
  Inductive ti_out := TUnit | TIter (i : nat) | TBool (b : bool) | TInt (z : Z) | TData (d : D).
  (** a container action *)
  Definition on_tree {A} (m : M (rb K V) A) : M tiworld A := fun w =>
    match m (ti_tree w) with Ok (a, s) => Ok (a, MkTI s (ti_its w)) | Panic => Panic | Fuel => Fuel end.
  (** the field of iterator i *)
  Definition ti_get (i : nat) : M tiworld ptr := fun w => match ti_its w !! i with Some p => Ok (p, w) | None => Panic end.
  (** assignment to it (map/iterator.go:24, :32) *)
  Definition ti_put (i : nat) (p : ptr) : M tiworld ti_out := fun w => Ok (TUnit, MkTI (ti_tree w) (<[i := p]> (ti_its w))).
  (** a new iterator (map.go:107, rbtree/iterator.go:13-15) *)
  Definition ti_new (p : ptr) : M tiworld ti_out := fun w => Ok (TIter (length (ti_its w)), MkTI (ti_tree w) (ti_its w ++ [p])).
  (** dispatch to the methods (map.go:56-178, map/iterator.go:13-67 and the same in set, rbtree) *)
  Definition ti_step (o : ti_op) : M tiworld ti_out :=
    match o with
    | TInsert k v => on_tree (c_insert c k v) ;; mret_ TUnit
    | TErase k => match c_erase c with Some f => on_tree (f k) ;; mret_ TUnit | None => mpanic end
    | TEraseAll k => match c_eraseall c with Some f => on_tree (f k) ;; mret_ TUnit | None => mpanic end
    | TEraseIt i => match c_eraseit c with Some f => let! p := ti_get i in on_tree (f p) ;; mret_ TUnit | None => mpanic end
    | TClear => on_tree (c_clear c) ;; mret_ TUnit
    | TSize => let! n := on_tree (c_size c) in mret_ (TInt n)
    | TFind k => let! p := on_tree (c_find c k) in ti_new p
    | TLower k => let! p := on_tree (c_lower c k) in ti_new p
    | TUpper k => let! p := on_tree (c_upper c k) in ti_new p
    | TBegin => let! p := on_tree (c_begin c) in ti_new p
    | TLast => let! p := on_tree (c_last c) in ti_new p
    | TValid i => let! p := ti_get i in mret_ (TBool (i_valid c p))
    | TNext i => let! p := ti_get i in let! q := on_tree (i_next c p) in ti_put i q
    | TPrev i => let! p := ti_get i in let! q := on_tree (i_prev c p) in ti_put i q
    | TRead i => let! p := ti_get i in let! d := on_tree (i_read c p) in mret_ (TData d)
    | TSetV i v => match i_set c with Some f => let! p := ti_get i in on_tree (f p v) ;; mret_ TUnit | None => mpanic end
    | TClone i => let! p := ti_get i in ti_new (i_clone c p)
    | TEqual i j => let! p := ti_get i in let! q := ti_get j in mret_ (TBool (i_equal c p q))
    end.
  (** a new container (map.go:43-53, set.go:47-59, rbtree.go:24-26), no iterator *)
  Definition tiworld0 : tiworld := MkTI rb_new [].
End client.
Arguments tiworld : clear implicits. Arguments ti_op : clear implicits. Arguments ti_out : clear implicits.
Arguments MkTI {K V}. Arguments ti_tree {K V}. Arguments ti_its {K V}.
Arguments TInsert {K V}. Arguments TErase {K V}. Arguments TEraseAll {K V}. Arguments TEraseIt {K V}. Arguments TClear {K V}. Arguments TSize {K V}.
Arguments TFind {K V}. Arguments TLower {K V}. Arguments TUpper {K V}. Arguments TBegin {K V}. Arguments TLast {K V}.
Arguments TValid {K V}. Arguments TNext {K V}. Arguments TPrev {K V}. Arguments TRead {K V}. Arguments TSetV {K V}. Arguments TClone {K V}. Arguments TEqual {K V}.
Arguments TUnit {D}. Arguments TIter {D}. Arguments TBool {D}. Arguments TInt {D}. Arguments TData {D}.

Section containers.
  Context {K V : Type} (cmp : K → K → Z).
  (** map.go and map/iterator.go *)
  Definition map_methods : methods K V (K * V) := MkMethods K V (K * V)
    (map_Insert cmp) (Some (map_Erase cmp)) None (Some map_EraseIter) map_Clear map_Size (map_Find cmp) (map_LowerBound cmp) (map_UpperBound cmp) map_Begin map_Last
    mi_IsValid mi_Next mi_Prev (fun p => let! k := mi_Key p in let! v := mi_Value p in mret_ (k, v)) (Some mi_SetValue) mi_Clone mi_Equal.
  (** multimap.go and map/iterator.go *)
  Definition multimap_methods : methods K V (K * V) := MkMethods K V (K * V)
    (mm_Insert cmp) None (Some (mm_Erase cmp)) None mm_Clear mm_Size (mm_Find cmp) (mm_LowerBound cmp) (mm_UpperBound cmp) mm_Begin mm_Last
    mi_IsValid mi_Next mi_Prev (fun p => let! k := mi_Key p in let! v := mi_Value p in mret_ (k, v)) (Some mi_SetValue) mi_Clone mi_Equal.
  (** rbtree.go and rbtree/iterator.go: the client wraps the nodes it gets with NewIterator (iterator.go:13-15,
      rbtree.go:79-86 IterFirst, IterLast) and calls Delete with the node of the iterator; Clone (:55-57) *)
  Definition rbtree_methods : methods K V (K * V) := MkMethods K V (K * V)
    (rb_Insert cmp) None None (Some rb_Delete) rb_Clear rb_Size (rb_FindNode cmp) (rb_FindLowerBoundNode cmp) (rb_FindUpperBoundNode cmp) rb_First rb_Last
    it_IsValid it_Next it_Prev (fun p => let! k := it_Key p in let! v := it_Value p in mret_ (k, v)) (Some it_SetValue) (fun p => p) it_Equal.
End containers.
Section sets.
  Context {T : Type} (cmp : T → T → Z).
  (** set.go and set/iterator.go; Insert has no value argument *)
  Definition set_methods : methods T bool T := MkMethods T bool T
    (fun x _ => set_Insert cmp x) (Some (set_Erase cmp)) None None set_Clear set_Size (set_Find cmp) (set_LowerBound cmp) (set_UpperBound cmp) set_Begin set_Last
    si_IsValid si_Next si_Prev si_Value None si_Clone si_Equal.
  (** multiset.go and set/iterator.go *)
  Definition multiset_methods : methods T bool T := MkMethods T bool T
    (fun x _ => ms_Insert cmp x) (Some (ms_Erase cmp)) (Some (ms_EraseAll cmp)) None ms_Clear ms_Size (ms_Find cmp) (ms_LowerBound cmp) (ms_UpperBound cmp) ms_Begin ms_Last
    si_IsValid si_Next si_Prev si_Value None si_Clone si_Equal.
End sets.
