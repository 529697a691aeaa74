(** The API of Map and MultiMap as operations with observable results, and their meaning on lists
    of pairs. *)
From Verif Require Import Base History RbModel RbSpec MapModel.
Open Scope Z_scope.
Open Scope go_scope.

(** Iterators appear inside one operation: [..At i] works at the iterator i steps of Next after
    Begin; MFind k i and the bounds report the entry i steps after the iterator found; MFwd/MBwd i
    the entry i steps from Begin/Last.  W is the state of a visitor. *)
Inductive map_op (K V W : Type) :=
| MInsert (k : K) (v : V) | MGet (k : K) | MErase (k : K) | MEraseAt (i : nat) | MEraseFound (k : K)
| MSetAt (i : nat) (v : V) | MKeyAt (i : nat) | MValueAt (i : nat) | MEqualAt (i j : nat)
| MFind (k : K) (i : nat) | MLower (k : K) (i : nat) | MUpper (k : K) (i : nat) | MFwd (i : nat) | MFirst (i : nat) | MBwd (i : nat)
| MClear | MContains (k : K) | MSize | MTraverse (vis : K → V → W → bool * W) (w : W).
Arguments MInsert {K V W}. Arguments MGet {K V W}. Arguments MErase {K V W}. Arguments MEraseAt {K V W}. Arguments MEraseFound {K V W}.
Arguments MSetAt {K V W}. Arguments MKeyAt {K V W}. Arguments MValueAt {K V W}. Arguments MEqualAt {K V W}. Arguments MFind {K V W}. Arguments MLower {K V W}. Arguments MUpper {K V W}.
Arguments MFwd {K V W}. Arguments MFirst {K V W}. Arguments MBwd {K V W}. Arguments MClear {K V W}. Arguments MContains {K V W}. Arguments MSize {K V W}. Arguments MTraverse {K V W}.
Inductive map_res (K V W : Type) :=
| RUnit | ROpt (o : option V) | REnt (o : option (K * V)) | RKey (k : K) | RVal (v : V) | RBool (b : bool) | RInt (z : Z) | RVis (w : W).
Arguments RUnit {K V W}. Arguments ROpt {K V W}. Arguments REnt {K V W}. Arguments RKey {K V W}. Arguments RVal {K V W}. Arguments RBool {K V W}. Arguments RInt {K V W}. Arguments RVis {K V W}.

Section steps.
  Context {K V W : Type} (cmp : K → K → Z).
  Notation RM := (M (rb K V)).
  (** what a client reads at an iterator *)
  Definition entry (p : ptr) : RM (option (K * V)) :=
    if mi_IsValid p then let! k := mi_Key p in let! v := mi_Value p in mret_ (Some (k, v)) else mret_ None.
  Definition map_step (o : map_op K V W) : RM (map_res K V W) :=
    match o with
    | MInsert k v => map_Insert cmp k v ;; mret_ RUnit
    | MGet k => let! r := map_Get cmp k in mret_ (ROpt r)
    | MErase k => map_Erase cmp k ;; mret_ RUnit
    | MEraseAt i => let! p := map_Begin in let! p := times i mi_Next p in map_EraseIter p ;; mret_ RUnit
    | MEraseFound k => let! p := map_Find cmp k in map_EraseIter p ;; mret_ RUnit
    | MSetAt i v => let! p := map_Begin in let! p := times i mi_Next p in mi_SetValue p v ;; mret_ RUnit
    | MKeyAt i => let! p := map_Begin in let! p := times i mi_Next p in let! k := mi_Key p in mret_ (RKey k)
    | MValueAt i => let! p := map_Begin in let! p := times i mi_Next p in let! v := mi_Value p in mret_ (RVal v)
    | MEqualAt i j => let! p := map_Begin in let! q := times i mi_Next (mi_Clone p) in let! p := times j mi_Next p in mret_ (RBool (mi_Equal p q))
    | MFind k i => let! p := map_Find cmp k in let! p := times i mi_Next p in let! e := entry p in mret_ (REnt e)
    | MLower k i => let! p := map_LowerBound cmp k in let! p := times i mi_Next p in let! e := entry p in mret_ (REnt e)
    | MUpper k i => let! p := map_UpperBound cmp k in let! p := times i mi_Next p in let! e := entry p in mret_ (REnt e)
    | MFwd i => let! p := map_Begin in let! p := times i mi_Next p in let! e := entry p in mret_ (REnt e)
    | MFirst i => let! p := map_First in let! p := times i mi_Next p in let! e := entry p in mret_ (REnt e)
    | MBwd i => let! p := map_Last in let! p := times i mi_Prev p in let! e := entry p in mret_ (REnt e)
    | MClear => map_Clear ;; mret_ RUnit
    | MContains k => let! b := map_Contains cmp k in mret_ (RBool b)
    | MSize => let! n := map_Size in mret_ (RInt n)
    | MTraverse vis w => let! w := map_Traversal vis w in mret_ (RVis w)
    end.
  (** MultiMap has no EraseIter: erasing at an iterator is not an operation there *)
  Definition mm_step (o : map_op K V W) : RM (map_res K V W) :=
    match o with
    | MInsert k v => mm_Insert cmp k v ;; mret_ RUnit
    | MGet k => let! r := mm_Get cmp k in mret_ (ROpt r)
    | MErase k => mm_Erase cmp k ;; mret_ RUnit
    | MEraseAt i => mret_ RUnit
    | MEraseFound k => mret_ RUnit
    | MSetAt i v => let! p := mm_Begin in let! p := times i mi_Next p in mi_SetValue p v ;; mret_ RUnit
    | MKeyAt i => let! p := mm_Begin in let! p := times i mi_Next p in let! k := mi_Key p in mret_ (RKey k)
    | MValueAt i => let! p := mm_Begin in let! p := times i mi_Next p in let! v := mi_Value p in mret_ (RVal v)
    | MEqualAt i j => let! p := mm_Begin in let! q := times i mi_Next (mi_Clone p) in let! p := times j mi_Next p in mret_ (RBool (mi_Equal p q))
    | MFind k i => let! p := mm_Find cmp k in let! p := times i mi_Next p in let! e := entry p in mret_ (REnt e)
    | MLower k i => let! p := mm_LowerBound cmp k in let! p := times i mi_Next p in let! e := entry p in mret_ (REnt e)
    | MUpper k i => let! p := mm_UpperBound cmp k in let! p := times i mi_Next p in let! e := entry p in mret_ (REnt e)
    | MFwd i => let! p := mm_Begin in let! p := times i mi_Next p in let! e := entry p in mret_ (REnt e)
    | MFirst i => let! p := mm_First in let! p := times i mi_Next p in let! e := entry p in mret_ (REnt e)
    | MBwd i => let! p := mm_Last in let! p := times i mi_Prev p in let! e := entry p in mret_ (REnt e)
    | MClear => mm_Clear ;; mret_ RUnit
    | MContains k => let! b := mm_Contains cmp k in mret_ (RBool b)
    | MSize => let! n := mm_Size in mret_ (RInt n)
    | MTraverse vis w => let! w := mm_Traversal vis w in mret_ (RVis w)
    end.

  (** lists of pairs *)
  Notation kvs := (list (K * V)).
  (** keys equal to k *)
  Definition is_k (k : K) (kv : K * V) : bool := cmp k kv.1 =? 0.
  (** set the value of an equal key, or add the pair in its place *)
  Fixpoint upsert (k : K) (v : V) (l : kvs) : kvs :=
    match l with
    | [] => [(k, v)]
    | (k', v') :: l' => if cmp k k' =? 0 then (k', v) :: l' else if cmp k k' <? 0 then (k, v) :: l else (k', v') :: upsert k v l'
    end.
  (** add the pair after all pairs with a key not greater *)
  Fixpoint add_after (k : K) (v : V) (l : kvs) : kvs :=
    match l with
    | [] => [(k, v)]
    | (k', v') :: l' => if cmp k k' <? 0 then (k, v) :: l else (k', v') :: add_after k v l'
    end.
  Definition lookup_k (k : K) (l : kvs) : option V := snd <$> head (suffix (is_k k) l).
  Definition erase_k (k : K) (l : kvs) : kvs := filter (λ kv, ¬ is_k k kv) l.
  Definition obs (l : kvs) (o : map_op K V W) : option (map_res K V W * kvs) :=
    match o with
    | MGet k => Some (ROpt (lookup_k k l), l)
    | MSetAt i v => (λ kv : K * V, (RUnit, <[i := (kv.1, v)]> l)) <$> l !! i
    | MKeyAt i => (λ kv : K * V, (RKey kv.1, l)) <$> l !! i
    | MValueAt i => (λ kv : K * V, (RVal kv.2, l)) <$> l !! i
    | MEqualAt i j => Some (RBool (bool_decide (Nat.min j (length l) = Nat.min i (length l))), l)
    | MFind k i => Some (REnt (suffix (is_k k) l !! i), l)
    | MLower k i => Some (REnt (suffix (λ kv, cmp k kv.1 <=? 0) l !! i), l)
    | MUpper k i => Some (REnt (suffix (λ kv, cmp k kv.1 <? 0) l !! i), l)
    | MFwd i | MFirst i => Some (REnt (l !! i), l)
    | MBwd i => Some (REnt (reverse l !! i), l)
    | MClear => Some (RUnit, [])
    | MContains k => Some (RBool (existsb (is_k k) l), l)
    | MSize => Some (RInt (Z.of_nat (length l)), l)
    | MTraverse vis w => Some (RVis (visit vis l w), l)
    | _ => None
    end.
  (** the meaning of Map's operations; [None]: the call panics (reading or writing at an invalid iterator) *)
  Definition map_spec (o : map_op K V W) (l : kvs) : option (map_res K V W * kvs) :=
    match o with
    | MInsert k v => Some (RUnit, upsert k v l)
    | MErase k | MEraseFound k => Some (RUnit, erase_k k l)
    | MEraseAt i => Some (RUnit, delete i l)
    | o => obs l o
    end.
  (** the meaning of MultiMap's *)
  Definition mm_spec (o : map_op K V W) (l : kvs) : option (map_res K V W * kvs) :=
    match o with
    | MInsert k v => Some (RUnit, add_after k v l)
    | MErase k => Some (RUnit, erase_k k l)
    | MEraseAt _ | MEraseFound _ => Some (RUnit, l)
    | o => obs l o
    end.
  (** strictly ascending keys *)
  Definition ascending (l : kvs) : Prop := StronglySorted (λ x y, cmp x.1 y.1 < 0) l.
End steps.
