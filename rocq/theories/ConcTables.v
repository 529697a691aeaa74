(** Which lock each method takes, and which operations of the sequential models are single calls of
    a method (the others combine a method with iterator steps, which take no lock). *)
From Verif Require Import Base ConcModel MapSpec SetSpec AdapterModel HeapModel HamtSpec BloomModel.
From Verif Require SkipSpec.

(** map.go: Insert :57, Erase :82, Clear :155 take Lock; Get :70, Contains :163, Size :174,
    Traversal :182 take RLock; multimap.go: Insert :31, Erase :51, Clear :116; Get :39, Contains :124,
    Size :135, Traversal :143 *)
Definition map_lock {K V W} (o : map_op K V W) : mode := match o with MGet _ | MContains _ | MSize | MTraverse _ _ => Rd | _ => Wr end.
(** the methods of map.go and multimap.go that take the lock *)
Definition map_call {K V W} (o : map_op K V W) : Prop := match o with MInsert _ _ | MGet _ | MErase _ | MClear | MContains _ | MSize | MTraverse _ _ => True | _ => False end.
(** set.go: Insert :63, Erase :75, Clear :134 take Lock; Contains :142, Size :153, Traversal :161 (and
    so String :172) take RLock; multiset.go: Insert :34, Erase :42, EraseAll :53, Clear :129; Count :115,
    Contains :137, Size :148, Traversal :156 (and String :167) *)
Definition set_lock_ {T W} (o : set_op T W) : mode := match o with SContains _ | SSize | SCount _ | STraverse _ _ | SString _ => Rd | _ => Wr end.
(** the methods of set.go that take the lock *)
Definition set_call {T W} (o : set_op T W) : Prop := match o with SInsert _ | SErase _ | SClear | SContains _ | SSize | STraverse _ _ | SString _ => True | _ => False end.
(** the methods of multiset.go that take the lock *)
Definition multiset_call {T W} (o : set_op T W) : Prop := set_call o ∨ match o with SEraseAll _ | SCount _ => True | _ => False end.
(** queue.go: Push :86, Pop :110, Clear :118 take Lock; Size :70, Empty :78, Front :94, Back :102 take RLock *)
Definition queue_lock {T} (o : q_op T) : mode := match o with QSize | QEmpty | QFront | QBack => Rd | _ => Wr end.
(** stack.go: Push :85, Pop :101, Clear :109 take Lock; Size :69, Empty :77, Top :93 take RLock *)
Definition stack_lock {T} (o : st_op T) : mode := match o with TSize | TEmpty | TTop => Rd | _ => Wr end.
(** priority_queue.go: Push :99, Pop :107, Clear :131 take Lock; Top :115, Empty :123, Size :140 take RLock *)
Definition pq_lock {T} (o : pq_op T) : mode := match o with PTop | PEmpty | PSize => Rd | _ => Wr end.
(** hamt.go: Insert :261, Erase :281 take Lock; Get :271, Keys :289, StringKeys :302, Traversal :315 take
    RLock (Insert, Get and Erase hash the key before, which touches nothing shared) *)
Definition hamt_lock {T W} (o : hm_op T W) : mode := match o with HInsert _ _ | HErase _ => Wr | _ => Rd end.
(** skiplist.go: Insert :87, Remove :139 take Lock; Get :117, Len :160, Traversal :197 (and so Keys :208)
    take RLock *)
Definition skip_lock {K V W} (o : SkipSpec.sk_op K V W) : mode := match o with SkipSpec.SInsert _ _ _ | SkipSpec.SRemove _ => Wr | _ => Rd end.
(** bloom.go: Add :91 and Data :116 take Lock, Contains :102 takes RLock *)
Inductive bloom_op := CAdd (v : list BinNums.N) | CContains (v : list BinNums.N) | CData.
(** what the methods of bloom.go return *)
Inductive bloom_res := CUnit | CBool (b : bool) | CBytes (d : list BinNums.N).
(** dispatch to bloom.go:90-124 *)
Definition bloom_step (h : list BinNums.N → list BinNums.N) (o : bloom_op) : M bloom bloom_res := λ f,
  match o with
  | CAdd v => match bf_add h v f with Ok f' => Ok (CUnit, f') | Panic => Panic | Fuel => Fuel end
  | CContains v => match bf_contains h v f with Ok b => Ok (CBool b, f) | Panic => Panic | Fuel => Fuel end
  | CData => Ok (CBytes (bf_Data f), f)
  end.
(** bloom.go:91, :102, :116: Contains takes RLock; Add and Data take Lock *)
Definition bloom_lock (o : bloom_op) : mode := match o with CContains _ => Rd | _ => Wr end.
