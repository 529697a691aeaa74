(** Model of ds/map/map.go, multimap.go, iterator.go on top of the red-black tree.
    Simplifications: the locker is not part of this model (see the concurrency model), the options
    only choose it; a MapIterator is the pointer it holds; EraseIter's argument is a MapIterator
    (for any other dynamic type the Go code does nothing). *)
From Verif Require Import Base RbModel.
Open Scope Z_scope.
Open Scope go_scope.

Section map.
  Context {K V : Type} (cmp : K → K → Z).
  Notation RM := (M (rb K V)).

  (** map.go:43-53 New *)
  Definition map_new : rb K V := rb_new.
  (** map.go:56-66 Insert *)
  Definition map_Insert (k : K) (v : V) : RM unit :=
    let! node := rb_FindNode cmp k in
    match node with Some _ => set_value node v | None => rb_Insert cmp k v end.
  (** map.go:69-78 Get; [None] models ErrorNotFound *)
  Definition map_Get (k : K) : RM (option V) :=
    let! node := rb_FindNode cmp k in
    match node with Some _ => let! v := value node in mret_ (Some v) | None => mret_ None end.
  (** map.go:81-89 Erase *)
  Definition map_Erase (k : K) : RM unit :=
    let! node := rb_FindNode cmp k in
    match node with Some _ => rb_Delete node | None => mret_ tt end.
  (** map.go:92-100 EraseIter *)
  Definition map_EraseIter (it : ptr) : RM unit := rb_Delete it.
  (** map.go:103-108 Find, :112-117 LowerBound, :121-126 UpperBound *)
  Definition map_Find (k : K) : RM ptr := rb_FindNode cmp k.
  (** map.go:112-118 LowerBound *)
  Definition map_LowerBound (k : K) : RM ptr := rb_FindLowerBoundNode cmp k.
  (** map.go:121-127 UpperBound *)
  Definition map_UpperBound (k : K) : RM ptr := rb_FindUpperBoundNode cmp k.
  (** map.go:130-135 Begin, :138-143 First, :146-151 Last *)
  Definition map_Begin : RM ptr := rb_First.
  (** map.go:138-143 First *)
  Definition map_First : RM ptr := rb_First.
  (** map.go:146-151 Last *)
  Definition map_Last : RM ptr := rb_Last.
  (** map.go:154-159 Clear *)
  Definition map_Clear : RM unit := rb_Clear.
  (** map.go:162-170 Contains *)
  Definition map_Contains (k : K) : RM bool :=
    let! r := rb_Find cmp k in mret_ (match r with Some _ => true | None => false end).
  (** map.go:173-178 Size *)
  Definition map_Size : RM Z := rb_Size.
  (** map.go:181-186 Traversal *)
  Definition map_Traversal {W} (vis : K → V → W → bool * W) (w : W) : RM W := rb_Traversal vis w.

  (** iterator.go:14-19 IsValid, :22-27 Next, :30-35 Prev, :38-40 Key, :43-45 Value, :48-50 SetValue,
      :53-55 Clone, :58-67 Equal *)
  Definition mi_IsValid (it : ptr) : bool := match it with Some _ => true | None => false end.
  (** iterator.go:22-27 Next *)
  Definition mi_Next (it : ptr) : RM ptr := if mi_IsValid it then next it else mret_ it.
  (** iterator.go:30-35 Prev *)
  Definition mi_Prev (it : ptr) : RM ptr := if mi_IsValid it then prev it else mret_ it.
  (** iterator.go:38-40 Key *)
  Definition mi_Key (it : ptr) : RM K := key it.
  (** iterator.go:43-45 Value *)
  Definition mi_Value (it : ptr) : RM V := value it.
  (** iterator.go:48-50 SetValue *)
  Definition mi_SetValue (it : ptr) (v : V) : RM unit := set_value it v.
  (** iterator.go:53-55 Clone *)
  Definition mi_Clone (it : ptr) : ptr := it.
  (** iterator.go:58-67 Equal *)
  Definition mi_Equal (it other : ptr) : bool := peq other it.

  (** multimap.go:30-35 Insert *)
  Definition mm_Insert (k : K) (v : V) : RM unit := rb_Insert cmp k v.
  (** multimap.go:38-47 Get *)
  Definition mm_Get (k : K) : RM (option V) :=
    let! node := rb_FindNode cmp k in
    match node with Some _ => let! v := value node in mret_ (Some v) | None => mret_ None end.
  (** multimap.go:50-61 Erase; the loop runs on fuel *)
  Fixpoint mm_erase_loop (f : nat) (k : K) : RM unit :=
    match f with O => mfuel | S f =>
      let! node := rb_FindNode cmp k in
      match node with None => mret_ tt | Some _ => rb_Delete node ;; mm_erase_loop f k end end.
  (** multimap.go:50-61 Erase *)
  Definition mm_Erase (k : K) : RM unit := let! f := fuel in mm_erase_loop f k.
  (** multimap.go:64-69 Find, :73-78 LowerBound, :82-87 UpperBound, :91-96 Begin, :99-104 First,
      :107-112 Last, :115-120 Clear, :123-131 Contains, :134-139 Size, :142-147 Traversal *)
  Definition mm_Find (k : K) : RM ptr := rb_FindNode cmp k.
  (** multimap.go:73-79 LowerBound *)
  Definition mm_LowerBound (k : K) : RM ptr := rb_FindLowerBoundNode cmp k.
  (** multimap.go:82-88 UpperBound *)
  Definition mm_UpperBound (k : K) : RM ptr := rb_FindUpperBoundNode cmp k.
  (** multimap.go:91-96 Begin *)
  Definition mm_Begin : RM ptr := rb_First.
  (** multimap.go:99-104 First *)
  Definition mm_First : RM ptr := rb_First.
  (** multimap.go:107-112 Last *)
  Definition mm_Last : RM ptr := rb_Last.
  (** multimap.go:115-120 Clear *)
  Definition mm_Clear : RM unit := rb_Clear.
  (** multimap.go:123-131 Contains *)
  Definition mm_Contains (k : K) : RM bool :=
    let! r := rb_Find cmp k in mret_ (match r with Some _ => true | None => false end).
  (** multimap.go:134-139 Size *)
  Definition mm_Size : RM Z := rb_Size.
  (** multimap.go:142-147 Traversal *)
  Definition mm_Traversal {W} (vis : K → V → W → bool * W) (w : W) : RM W := rb_Traversal vis w.
End map.
