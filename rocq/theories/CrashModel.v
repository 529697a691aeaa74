(** Comparison functions that panic.  The user's comparison function has a state of its own and
    either answers or panics; a panic ends the method it is called from (the lock, if any, is
    released by a deferred call) and leaves the container as it is at that moment.  This file
    gives the methods that compare: the code of RbModel, MapModel and SetModel with the calls of the
    comparison function spelt out.  All other code is taken over from there ([xrun]). *)
From Verif Require Import Base RbModel MapModel MapSpec RbSpec SetModel SetSpec.
Open Scope Z_scope.
Open Scope go_scope.

(** Go code that may panic and leaves a state in any case *)
Definition X (S A : Type) : Type := S → res A * S.
(** nothing *)
Definition xret {S A} (a : A) : X S A := λ s, (Ok a, s).
(** the loop or recursion limit of the model is reached *)
Definition xfuel {S A} : X S A := λ s, (Fuel, s).
(** one after the other; a panic of the first ends both *)
Definition xbind {S A B} (m : X S A) (f : A → X S B) : X S B := λ s,
  match m s with (Ok a, s') => f a s' | (Panic, s') => (Panic, s') | (Fuel, s') => (Fuel, s') end.
Declare Scope x_scope.
Delimit Scope x_scope with x.
Notation "'let?' x := m 'in' k" := (xbind m (fun x => k)) (at level 200, x binder, m at level 100, k at level 200, right associativity) : x_scope.
Notation "m ;? k" := (xbind m (fun _ => k)) (at level 100, k at level 200, right associativity) : x_scope.
Open Scope x_scope.

(** a comparison function with a state C of its own; [None]: it panics (utils/comparator/comparator.go:23-28) *)
Definition user_cmp (K C : Type) : Type := K → K → C → option Z * C.
(** code that does not call the comparison function.  Its own panics (nil dereference, index out of
    range) are kept with the state before it *)
Definition xrun {S C A} (m : M S A) : X (S * C) A := λ w,
  match m w.1 with Ok (a, s') => (Ok a, (s', w.2)) | Panic => (Panic, w) | Fuel => (Fuel, w) end.
(** one call of the comparison function *)
Definition xcmp {S C K} (u : user_cmp K C) (a b : K) : X (S * C) Z := λ w,
  match u a b w.2 with (Some z, c) => (Ok z, (w.1, c)) | (None, c) => (Panic, (w.1, c)) end.

Section rb.
  Context {K V C : Type} (u : user_cmp K C).
  Notation RX := (X (rb K V * C)).
  (** rbtree.go:104-111, the descent of Insert *)
  Fixpoint x_descend (f : nat) (k : K) (x y : ptr) : RX ptr :=
    match f with O => xfuel | S f =>
      match x with None => xret y | _ =>
        let? xk := xrun (key x) in
        let? c := xcmp u k xk in
        if c <? 0 then let? l := xrun (left x) in x_descend f k l x
        else let? r := xrun (right x) in x_descend f k r x end end.
  (** rbtree.go:100-126 Insert; the address of the new node is returned for the statements only *)
  Definition x_insert_node (k : K) (v : V) : RX ptr :=
    let? x := xrun get_root in
    let? f := xrun fuel in
    let? y := x_descend f k x None in
    let? z := xrun (alloc (MkNode y None None RED k v)) in
    let? n := xrun get_size in
    xrun (set_size (n + 1)) ;?
    match y with
    | None => xrun (put z (with_color BLACK) ;; set_root z ;; mret_ z)
    | _ =>
      let? zk := xrun (key z) in
      let? yk := xrun (key y) in
      let? c := xcmp u zk yk in
      xrun ((if c <? 0 then put y (with_left z) else put y (with_right z)) ;; insert_fixup z ;; mret_ z)
    end.
  (** rbtree.go:100-126 Insert *)
  Definition x_insert (k : K) (v : V) : RX unit := x_insert_node k v ;? xret tt.
  (** rbtree.go:355-374 FindLowerBoundNode *)
  Fixpoint x_find_lower (f : nat) (x : ptr) (k : K) : RX ptr :=
    match f with O => xfuel | S f =>
      match x with None => xret None | _ =>
        let? xk := xrun (key x) in
        let? c := xcmp u k xk in
        if c <=? 0 then
          let? l := xrun (left x) in
          let? ret := x_find_lower f l k in
          match ret with None => xret x | _ =>
            let? rk := xrun (key ret) in
            let? xk := xrun (key x) in
            let? c := xcmp u rk xk in
            if c <=? 0 then xret ret else xret x end
        else let? r := xrun (right x) in x_find_lower f r k end end.
  (** rbtree.go:355-357 FindLowerBoundNode *)
  Definition x_FindLowerBoundNode (k : K) : RX ptr := let? f := xrun fuel in let? r := xrun get_root in x_find_lower f r k.
  (** rbtree.go:377-396 FindUpperBoundNode *)
  Fixpoint x_find_upper (f : nat) (x : ptr) (k : K) : RX ptr :=
    match f with O => xfuel | S f =>
      match x with None => xret None | _ =>
        let? xk := xrun (key x) in
        let? c := xcmp u k xk in
        if 0 <=? c then let? r := xrun (right x) in x_find_upper f r k
        else
          let? l := xrun (left x) in
          let? ret := x_find_upper f l k in
          match ret with None => xret x | _ =>
            let? rk := xrun (key ret) in
            let? xk := xrun (key x) in
            let? c := xcmp u rk xk in
            if c <=? 0 then xret ret else xret x end end end.
  (** rbtree.go:377-379 FindUpperBoundNode *)
  Definition x_FindUpperBoundNode (k : K) : RX ptr := let? f := xrun fuel in let? r := xrun get_root in x_find_upper f r k.
  (** rbtree.go:343-352 findFirstNode (= FindNode :44-46) *)
  Definition x_FindNode (k : K) : RX ptr :=
    let? n := x_FindLowerBoundNode k in
    match n with None => xret None | _ =>
      let? nk := xrun (key n) in
      let? c := xcmp u nk k in
      if c =? 0 then xret n else xret None end.
  (** rbtree.go:35-41 Find *)
  Definition x_Find (k : K) : RX (option V) :=
    let? n := x_FindNode k in
    match n with None => xret None | _ => let? v := xrun (value n) in xret (Some v) end.

  (** map.go:56-66 Insert *)
  Definition x_map_Insert (k : K) (v : V) : RX unit :=
    let? node := x_FindNode k in
    match node with Some _ => xrun (set_value node v) | None => x_insert k v end.
  (** map.go:69-78 Get, multimap.go:38-47 Get *)
  Definition x_map_Get (k : K) : RX (option V) :=
    let? node := x_FindNode k in
    match node with Some _ => let? v := xrun (value node) in xret (Some v) | None => xret None end.
  (** map.go:81-89 Erase; set.go:74-82 Erase and multiset.go:41-49 Erase are the same code *)
  Definition x_map_Erase (k : K) : RX unit :=
    let? node := x_FindNode k in
    match node with Some _ => xrun (rb_Delete node) | None => xret tt end.
  (** map.go:162-170 Contains; multimap.go:123-131, set.go:141-149, multiset.go:136-144 are the same code *)
  Definition x_map_Contains (k : K) : RX bool :=
    let? r := x_Find k in xret (match r with Some _ => true | None => false end).
  (** multimap.go:50-61 Erase, multiset.go:52-63 EraseAll *)
  Fixpoint x_mm_erase_loop (f : nat) (k : K) : RX unit :=
    match f with O => xfuel | S f =>
      let? node := x_FindNode k in
      match node with None => xret tt | Some _ => xrun (rb_Delete node) ;? x_mm_erase_loop f k end end.
  (** multimap.go:50-61 Erase, multiset.go:52-63 EraseAll *)
  Definition x_mm_Erase (k : K) : RX unit := let? f := xrun fuel in x_mm_erase_loop f k.

  (** the operations of Map (MapSpec.v) whose methods compare; the others do not and are as before *)
  Definition x_map_step {W} (o : map_op K V W) : RX (map_res K V W) :=
    match o with
    | MInsert k v => x_map_Insert k v ;? xret RUnit
    | MGet k => let? r := x_map_Get k in xret (ROpt r)
    | MErase k => x_map_Erase k ;? xret RUnit
    | MEraseFound k => let? p := x_FindNode k in xrun (map_EraseIter p ;; mret_ RUnit)
    | MFind k i => let? p := x_FindNode k in xrun (let! p := times i mi_Next p in let! e := entry p in mret_ (REnt e))
    | MLower k i => let? p := x_FindLowerBoundNode k in xrun (let! p := times i mi_Next p in let! e := entry p in mret_ (REnt e))
    | MUpper k i => let? p := x_FindUpperBoundNode k in xrun (let! p := times i mi_Next p in let! e := entry p in mret_ (REnt e))
    | MContains k => let? b := x_map_Contains k in xret (RBool b)
    | o => xrun (map_step (λ _ _, 0) o)
    end.
  (** the operations of MultiMap whose methods compare *)
  Definition x_mm_step {W} (o : map_op K V W) : RX (map_res K V W) :=
    match o with
    | MInsert k v => x_insert k v ;? xret RUnit
    | MGet k => let? r := x_map_Get k in xret (ROpt r)
    | MErase k => x_mm_Erase k ;? xret RUnit
    | MFind k i => let? p := x_FindNode k in xrun (let! p := times i mi_Next p in let! e := entry p in mret_ (REnt e))
    | MLower k i => let? p := x_FindLowerBoundNode k in xrun (let! p := times i mi_Next p in let! e := entry p in mret_ (REnt e))
    | MUpper k i => let? p := x_FindUpperBoundNode k in xrun (let! p := times i mi_Next p in let! e := entry p in mret_ (REnt e))
    | MContains k => let? b := x_map_Contains k in xret (RBool b)
    | o => xrun (mm_step (λ _ _, 0) o)
    end.
End rb.

Section set.
  Context {T C : Type} (u : user_cmp T C).
  Notation RX := (X (rb T bool * C)).
  (** set.go:62-71 Insert *)
  Definition x_set_Insert (x : T) : RX unit :=
    let? node := x_FindNode u x in
    match node with Some _ => xret tt | None => x_insert u x set_Empty_const end.
  (** the operations of Set whose methods compare *)
  Definition x_set_step {W} (o : set_op T W) : RX (set_res T W) :=
    match o with
    | SInsert x => x_set_Insert x ;? xret QUnit
    | SErase x => x_map_Erase u x ;? xret QUnit
    | SFind x i => let? p := x_FindNode u x in xrun (let! p := times i si_Next p in let! e := elem p in mret_ (QElem e))
    | SLower x i => let? p := x_FindLowerBoundNode u x in xrun (let! p := times i si_Next p in let! e := elem p in mret_ (QElem e))
    | SUpper x i => let? p := x_FindUpperBoundNode u x in xrun (let! p := times i si_Next p in let! e := elem p in mret_ (QElem e))
    | SContains x => let? b := x_map_Contains u x in xret (QBool b)
    | o => xrun (set_step (λ _ _, 0) o)
    end.
  (** multiset.go:114-125 Count *)
  Fixpoint x_ms_count_loop (f : nat) (x : T) (node : ptr) (count : Z) : RX Z :=
    match f with O => xfuel | S f =>
      match node with None => xret count | Some _ =>
        let? k := xrun (key node) in
        let? c := xcmp u k x in
        let count := if c =? 0 then count + 1 else count in
        let? node := xrun (next node) in x_ms_count_loop f x node count end end.
  (** multiset.go:114-125 Count *)
  Definition x_ms_Count (x : T) : RX Z := let? node := xrun rb_First in let? f := xrun fuel in x_ms_count_loop f x node 0.
  (** the operations of MultiSet whose methods compare *)
  Definition x_ms_step {W} (o : set_op T W) : RX (set_res T W) :=
    match o with
    | SInsert x => x_insert u x set_Empty_const ;? xret QUnit
    | SErase x => x_map_Erase u x ;? xret QUnit
    | SEraseAll x => x_mm_Erase u x ;? xret QUnit
    | SCount x => let? n := x_ms_Count x in xret (QInt n)
    | SFind x i => let? p := x_FindNode u x in xrun (let! p := times i si_Next p in let! e := elem p in mret_ (QElem e))
    | SLower x i => let? p := x_FindLowerBoundNode u x in xrun (let! p := times i si_Next p in let! e := elem p in mret_ (QElem e))
    | SUpper x i => let? p := x_FindUpperBoundNode u x in xrun (let! p := times i si_Next p in let! e := elem p in mret_ (QElem e))
    | SContains x => let? b := x_map_Contains u x in xret (QBool b)
    | o => xrun (ms_step (λ _ _, 0) o)
    end.
End set.
