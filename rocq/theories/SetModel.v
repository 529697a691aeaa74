(** Model of ds/set/set.go, multiset.go, iterator.go.  Simplifications: the locker is left to the
    concurrency model; a SetIterator is the pointer it holds; the sets that Union, Intersect and
    Diff read are separate states (also when they are the same set: they are only read);
    fmt.Sprintf("%v", x) in String is a parameter. *)
From Coq Require Import String Ascii.
From Verif Require Import Base RbModel.
Open Scope Z_scope.
Open Scope go_scope.

Section set.
  Context {T : Type} (cmp : T → T → Z).
  Notation RM := (M (rb T bool)).
  (** set.go:15-17 Empty *)
  Definition set_Empty_const : bool := true.
  (** set.go:47-59 New *)
  Definition set_new : rb T bool := rb_new.
  (** set.go:62-71 Insert *)
  Definition set_Insert (x : T) : RM unit :=
    let! node := rb_FindNode cmp x in
    match node with Some _ => mret_ tt | None => rb_Insert cmp x set_Empty_const end.
  (** set.go:74-82 Erase *)
  Definition set_Erase (x : T) : RM unit :=
    let! node := rb_FindNode cmp x in
    match node with Some _ => rb_Delete node | None => mret_ tt end.
  (** set.go:85-90 Find, :94-99 LowerBound, :103-108 UpperBound *)
  Definition set_Find (x : T) : RM ptr := rb_FindNode cmp x.
  (** set.go:94-100 LowerBound *)
  Definition set_LowerBound (x : T) : RM ptr := rb_FindLowerBoundNode cmp x.
  (** set.go:103-109 UpperBound *)
  Definition set_UpperBound (x : T) : RM ptr := rb_FindUpperBoundNode cmp x.
  (** set.go:117-122 First (= Begin :112-114), :125-130 Last *)
  Definition set_First : RM ptr := rb_First.
  (** set.go:112-114 Begin *)
  Definition set_Begin : RM ptr := set_First.
  (** set.go:125-130 Last *)
  Definition set_Last : RM ptr := rb_Last.
  (** set.go:133-138 Clear, :141-149 Contains, :152-157 Size *)
  Definition set_Clear : RM unit := rb_Clear.
  (** set.go:141-149 Contains *)
  Definition set_Contains (x : T) : RM bool :=
    let! r := rb_Find cmp x in mret_ (match r with Some _ => true | None => false end).
  (** set.go:152-157 Size *)
  Definition set_Size : RM Z := rb_Size.
  (** set.go:160-169 Traversal; the visitor has its own state and does not touch the set *)
  Fixpoint set_traversal_loop {W} (vis : T → W → bool * W) (f : nat) (node : ptr) (w : W) : RM W :=
    match f with O => mfuel | S f =>
      match node with None => mret_ w | Some _ =>
        let! k := key node in
        let bw := vis k w in
        if negb bw.1 then mret_ bw.2 else let! node := next node in set_traversal_loop vis f node bw.2 end end.
  (** set.go:160-169 Traversal *)
  Definition set_Traversal {W} (vis : T → W → bool * W) (w : W) : RM W :=
    let! node := rb_First in let! f := fuel in set_traversal_loop vis f node w.
  (** set.go:172-183 String *)
  Definition set_String (show : T → string) : RM string :=
    let! str := set_Traversal (fun x str => (true, ((if String.eqb str "[" then str else str ++ " ") ++ show x)%string)) "["%string in
    mret_ (str ++ "]")%string.

  (** iterator.go:14-19 IsValid, :22-27 Next, :30-35 Prev, :38-40 Value, :43-45 Clone, :48-57 Equal *)
  Definition si_IsValid (it : ptr) : bool := match it with Some _ => true | None => false end.
  (** iterator.go:22-27 Next *)
  Definition si_Next (it : ptr) : RM ptr := if si_IsValid it then next it else mret_ it.
  (** iterator.go:30-35 Prev *)
  Definition si_Prev (it : ptr) : RM ptr := if si_IsValid it then prev it else mret_ it.
  (** iterator.go:38-40 Value *)
  Definition si_Value (it : ptr) : RM T := key it.
  (** iterator.go:43-45 Clone *)
  Definition si_Clone (it : ptr) : ptr := it.
  (** iterator.go:48-57 Equal *)
  Definition si_Equal (it other : ptr) : bool := peq other it.

  (** set algebra: the receiver, the other set and the set being built *)
  Definition three : Type := rb T bool * rb T bool * rb T bool.
  (** a tree operation on the receiver's tree *)
  Definition on_s {A} (m : RM A) : M three A := fun w =>
    match m w.1.1 with Ok (a, s) => Ok (a, (s, w.1.2, w.2)) | Panic => Panic | Fuel => Fuel end.
  (** a tree operation on other's tree *)
  Definition on_o {A} (m : RM A) : M three A := fun w =>
    match m w.1.2 with Ok (a, o) => Ok (a, (w.1.1, o, w.2)) | Panic => Panic | Fuel => Fuel end.
  (** a tree operation on the new set's tree *)
  Definition on_n {A} (m : RM A) : M three A := fun w =>
    match m w.2 with Ok (a, n) => Ok (a, (w.1.1, w.1.2, n)) | Panic => Panic | Fuel => Fuel end.
  (** enough steps for the two iterations *)
  Definition fuel2 : M three nat := let! f := on_s fuel in let! g := on_o fuel in mret_ (f + g)%nat.
  (** set.go:193-206, :217-231, :249-261: the merge loops, where ins_eq, ins_lt, ins_gt tell which of
      the three branches insert; it ends with the two iterators *)
  Fixpoint merge_loop (ins_eq ins_lt ins_gt : bool) (f : nat) (i j : ptr) : M three (ptr * ptr) :=
    match f with O => mfuel | S f =>
      if it_IsValid i && it_IsValid j then
        let! a := on_s (it_Key i) in let! b := on_o (it_Key j) in
        let c := cmp a b in
        if c =? 0 then
          (if ins_eq then let! a := on_s (it_Key i) in on_n (rb_Insert cmp a set_Empty_const) else mret_ tt) ;;
          let! i := on_s (it_Next i) in let! j := on_o (it_Next j) in merge_loop ins_eq ins_lt ins_gt f i j
        else if c <? 0 then
          (if ins_lt then let! a := on_s (it_Key i) in on_n (rb_Insert cmp a set_Empty_const) else mret_ tt) ;;
          let! i := on_s (it_Next i) in merge_loop ins_eq ins_lt ins_gt f i j
        else
          (if ins_gt then let! b := on_o (it_Key j) in on_n (rb_Insert cmp b set_Empty_const) else mret_ tt) ;;
          let! j := on_o (it_Next j) in merge_loop ins_eq ins_lt ins_gt f i j
      else mret_ (i, j) end.
  (** set.go:232-234, :262-264: for ; sIter.IsValid(); sIter.Next() { insert } and :235-237 for the other *)
  Fixpoint rest_s (f : nat) (i : ptr) : M three unit :=
    match f with O => mfuel | S f =>
      if it_IsValid i then
        let! a := on_s (it_Key i) in on_n (rb_Insert cmp a set_Empty_const) ;;
        let! i := on_s (it_Next i) in rest_s f i
      else mret_ tt end.
  (** set.go: the loop copying the rest of other *)
  Fixpoint rest_o (f : nat) (j : ptr) : M three unit :=
    match f with O => mfuel | S f =>
      if it_IsValid j then
        let! b := on_o (it_Key j) in on_n (rb_Insert cmp b set_Empty_const) ;;
        let! j := on_o (it_Next j) in rest_o f j
      else mret_ tt end.
  (** set.go:187-208 Intersect *)
  Definition set_intersect_code : M three unit :=
    let! i := on_s rb_First in let! j := on_o rb_First in let! f := fuel2 in
    merge_loop true false false f i j ;; mret_ tt.
  (** set.go:211-239 Union *)
  Definition set_union_code : M three unit :=
    let! i := on_s rb_First in let! j := on_o rb_First in let! f := fuel2 in
    let! ij := merge_loop true true true f i j in
    rest_s f ij.1 ;; rest_o f ij.2.
  (** set.go:243-266 Diff *)
  Definition set_diff_code : M three unit :=
    let! i := on_s rb_First in let! j := on_o rb_First in let! f := fuel2 in
    let! ij := merge_loop false true false f i j in
    rest_s f ij.1.
  (** the three calls: the receiver and the other set afterwards, and the new set *)
  Definition set_Intersect (s o : rb T bool) : res (unit * three) := set_intersect_code (s, o, rb_new).
  (** set.go:211-239 Union *)
  Definition set_Union (s o : rb T bool) : res (unit * three) := set_union_code (s, o, rb_new).
  (** set.go:243-266 Diff *)
  Definition set_Diff (s o : rb T bool) : res (unit * three) := set_diff_code (s, o, rb_new).

  (** multiset.go:33-38 Insert, :41-49 Erase *)
  Definition ms_Insert (x : T) : RM unit := rb_Insert cmp x set_Empty_const.
  (** multiset.go:41-49 Erase *)
  Definition ms_Erase (x : T) : RM unit :=
    let! node := rb_FindNode cmp x in
    match node with Some _ => rb_Delete node | None => mret_ tt end.
  (** multiset.go:52-63 EraseAll *)
  Fixpoint ms_erase_loop (f : nat) (x : T) : RM unit :=
    match f with O => mfuel | S f =>
      let! node := rb_FindNode cmp x in
      match node with None => mret_ tt | Some _ => rb_Delete node ;; ms_erase_loop f x end end.
  (** multiset.go:52-63 EraseAll *)
  Definition ms_EraseAll (x : T) : RM unit := let! f := fuel in ms_erase_loop f x.
  (** multiset.go:66-71 Find, :75-80 LowerBound, :84-89 UpperBound, :98-103 First (= Begin :93-95), :106-111 Last *)
  Definition ms_Find (x : T) : RM ptr := rb_FindNode cmp x.
  (** multiset.go:75-81 LowerBound *)
  Definition ms_LowerBound (x : T) : RM ptr := rb_FindLowerBoundNode cmp x.
  (** multiset.go:84-90 UpperBound *)
  Definition ms_UpperBound (x : T) : RM ptr := rb_FindUpperBoundNode cmp x.
  (** multiset.go:98-103 First *)
  Definition ms_First : RM ptr := rb_First.
  (** multiset.go:93-95 Begin *)
  Definition ms_Begin : RM ptr := ms_First.
  (** multiset.go:106-111 Last *)
  Definition ms_Last : RM ptr := rb_Last.
  (** multiset.go:114-125 Count *)
  Fixpoint ms_count_loop (f : nat) (x : T) (node : ptr) (count : Z) : RM Z :=
    match f with O => mfuel | S f =>
      match node with None => mret_ count | Some _ =>
        let! k := key node in
        let count := if cmp k x =? 0 then count + 1 else count in
        let! node := next node in ms_count_loop f x node count end end.
  (** multiset.go:114-125 Count *)
  Definition ms_Count (x : T) : RM Z := let! node := rb_First in let! f := fuel in ms_count_loop f x node 0.
  (** multiset.go:128-133 Clear, :136-144 Contains, :147-152 Size *)
  Definition ms_Clear : RM unit := rb_Clear.
  (** multiset.go:136-144 Contains *)
  Definition ms_Contains (x : T) : RM bool :=
    let! r := rb_Find cmp x in mret_ (match r with Some _ => true | None => false end).
  (** multiset.go:147-152 Size *)
  Definition ms_Size : RM Z := rb_Size.
  (** multiset.go:155-164 Traversal, :167-178 String: the same code as Set's *)
  Fixpoint ms_traversal_loop {W} (vis : T → W → bool * W) (f : nat) (node : ptr) (w : W) : RM W :=
    match f with O => mfuel | S f =>
      match node with None => mret_ w | Some _ =>
        let! k := key node in
        let bw := vis k w in
        if negb bw.1 then mret_ bw.2 else let! node := next node in ms_traversal_loop vis f node bw.2 end end.
  (** multiset.go:155-164 Traversal *)
  Definition ms_Traversal {W} (vis : T → W → bool * W) (w : W) : RM W :=
    let! node := rb_First in let! f := fuel in ms_traversal_loop vis f node w.
  (** multiset.go:167-178 String *)
  Definition ms_String (show : T → string) : RM string :=
    let! str := ms_Traversal (fun x str => (true, ((if String.eqb str "[" then str else str ++ " ") ++ show x)%string)) "["%string in
    mret_ (str ++ "]")%string.
End set.
