(** The API of Set and MultiSet as operations with observable results, and their meaning on lists
    of elements. *)
From Coq Require Import String.
From Verif Require Import Base History RbModel RbSpec SetModel.
Open Scope Z_scope.
Open Scope go_scope.

(** [..At i] works at the iterator i steps of Next after Begin; SFind x i and the bounds report the
    element i steps after the iterator found; SFwd/SFirst/SBwd i the element i steps from
    Begin/First/Last.  W is the state of a visitor; show stands for fmt's "%v". *)
Inductive set_op (T W : Type) :=
| SInsert (x : T) | SErase (x : T) | SEraseAll (x : T) | SFind (x : T) (i : nat) | SLower (x : T) (i : nat) | SUpper (x : T) (i : nat)
| SFwd (i : nat) | SFirst (i : nat) | SBwd (i : nat) | SValueAt (i : nat) | SEqualAt (i j : nat)
| SClear | SContains (x : T) | SSize | SCount (x : T) | STraverse (vis : T → W → bool * W) (w : W) | SString (show : T → string).
Arguments SInsert {T W}. Arguments SErase {T W}. Arguments SEraseAll {T W}. Arguments SFind {T W}. Arguments SLower {T W}. Arguments SUpper {T W}.
Arguments SFwd {T W}. Arguments SFirst {T W}. Arguments SBwd {T W}. Arguments SValueAt {T W}. Arguments SEqualAt {T W}.
Arguments SClear {T W}. Arguments SContains {T W}. Arguments SSize {T W}. Arguments SCount {T W}. Arguments STraverse {T W}. Arguments SString {T W}.
Inductive set_res (T W : Type) :=
| QUnit | QElem (o : option T) | QVal (x : T) | QBool (b : bool) | QInt (z : Z) | QVis (w : W) | QText (t : string).
Arguments QUnit {T W}. Arguments QElem {T W}. Arguments QVal {T W}. Arguments QBool {T W}. Arguments QInt {T W}. Arguments QVis {T W}. Arguments QText {T W}.

Section steps.
  Context {T W : Type} (cmp : T → T → Z).
  Notation RM := (M (rb T bool)).
  (** what a client reads at an iterator *)
  Definition elem (p : ptr) : RM (option T) := if si_IsValid p then let! x := si_Value p in mret_ (Some x) else mret_ None.
  (** Set has no EraseAll and no Count *)
  Definition set_step (o : set_op T W) : RM (set_res T W) :=
    match o with
    | SInsert x => set_Insert cmp x ;; mret_ QUnit
    | SErase x => set_Erase cmp x ;; mret_ QUnit
    | SEraseAll _ | SCount _ => mret_ QUnit
    | SFind x i => let! p := set_Find cmp x in let! p := times i si_Next p in let! e := elem p in mret_ (QElem e)
    | SLower x i => let! p := set_LowerBound cmp x in let! p := times i si_Next p in let! e := elem p in mret_ (QElem e)
    | SUpper x i => let! p := set_UpperBound cmp x in let! p := times i si_Next p in let! e := elem p in mret_ (QElem e)
    | SFwd i => let! p := set_Begin in let! p := times i si_Next p in let! e := elem p in mret_ (QElem e)
    | SFirst i => let! p := set_First in let! p := times i si_Next p in let! e := elem p in mret_ (QElem e)
    | SBwd i => let! p := set_Last in let! p := times i si_Prev p in let! e := elem p in mret_ (QElem e)
    | SValueAt i => let! p := set_Begin in let! p := times i si_Next p in let! x := si_Value p in mret_ (QVal x)
    | SEqualAt i j => let! p := set_Begin in let! q := times i si_Next (si_Clone p) in let! p := times j si_Next p in mret_ (QBool (si_Equal p q))
    | SClear => set_Clear ;; mret_ QUnit
    | SContains x => let! b := set_Contains cmp x in mret_ (QBool b)
    | SSize => let! n := set_Size in mret_ (QInt n)
    | STraverse vis w => let! w := set_Traversal vis w in mret_ (QVis w)
    | SString show => let! t := set_String show in mret_ (QText t)
    end.
  Definition ms_step (o : set_op T W) : RM (set_res T W) :=
    match o with
    | SInsert x => ms_Insert cmp x ;; mret_ QUnit
    | SErase x => ms_Erase cmp x ;; mret_ QUnit
    | SEraseAll x => ms_EraseAll cmp x ;; mret_ QUnit
    | SCount x => let! n := ms_Count cmp x in mret_ (QInt n)
    | SFind x i => let! p := ms_Find cmp x in let! p := times i si_Next p in let! e := elem p in mret_ (QElem e)
    | SLower x i => let! p := ms_LowerBound cmp x in let! p := times i si_Next p in let! e := elem p in mret_ (QElem e)
    | SUpper x i => let! p := ms_UpperBound cmp x in let! p := times i si_Next p in let! e := elem p in mret_ (QElem e)
    | SFwd i => let! p := ms_Begin in let! p := times i si_Next p in let! e := elem p in mret_ (QElem e)
    | SFirst i => let! p := ms_First in let! p := times i si_Next p in let! e := elem p in mret_ (QElem e)
    | SBwd i => let! p := ms_Last in let! p := times i si_Prev p in let! e := elem p in mret_ (QElem e)
    | SValueAt i => let! p := ms_Begin in let! p := times i si_Next p in let! x := si_Value p in mret_ (QVal x)
    | SEqualAt i j => let! p := ms_Begin in let! q := times i si_Next (si_Clone p) in let! p := times j si_Next p in mret_ (QBool (si_Equal p q))
    | SClear => ms_Clear ;; mret_ QUnit
    | SContains x => let! b := ms_Contains cmp x in mret_ (QBool b)
    | SSize => let! n := ms_Size in mret_ (QInt n)
    | STraverse vis w => let! w := ms_Traversal vis w in mret_ (QVis w)
    | SString show => let! t := ms_String show in mret_ (QText t)
    end.

  (** lists of elements *)
  (** strictly ascending; ascending *)
  Definition s_asc (l : list T) : Prop := StronglySorted (λ x y, cmp x y < 0) l.
  Definition s_sorted (l : list T) : Prop := StronglySorted (λ x y, cmp x y <= 0) l.
  Definition same (x y : T) : bool := cmp x y =? 0.
  (** an element equal to x is in l *)
  Definition has (x : T) (l : list T) : Prop := ∃ y, y ∈ l ∧ cmp x y = 0.
  (** put x after all elements that are not greater *)
  Fixpoint place (x : T) (l : list T) : list T :=
    match l with [] => [x] | y :: l' => if cmp x y <? 0 then x :: l else y :: place x l' end.
  (** drop the first element equal to x *)
  Fixpoint remove_one (x : T) (l : list T) : list T :=
    match l with [] => [] | y :: l' => if same x y then l' else y :: remove_one x l' end.
  Definition remove_all (x : T) (l : list T) : list T := filter (λ y, ¬ same x y) l.
  Definition count (x : T) (l : list T) : nat := length (filter (λ y, same x y) l).
  Fixpoint visit1 (vis : T → W → bool * W) (l : list T) (w : W) : W :=
    match l with [] => w | x :: l => if (vis x w).1 then visit1 vis l (vis x w).2 else (vis x w).2 end.
  (** the texts of the elements, without leading empty ones, separated by spaces, in brackets *)
  Definition render (show : T → string) (l : list T) : string :=
    ("[" ++ String.concat " " (suffix (λ t, negb (String.eqb t "")) (map show l)) ++ "]")%string.
  Definition s_obs (l : list T) (o : set_op T W) : option (set_res T W * list T) :=
    match o with
    | SFind x i => Some (QElem (suffix (same x) l !! i), l)
    | SLower x i => Some (QElem (suffix (λ y, cmp x y <=? 0) l !! i), l)
    | SUpper x i => Some (QElem (suffix (λ y, cmp x y <? 0) l !! i), l)
    | SFwd i | SFirst i => Some (QElem (l !! i), l)
    | SBwd i => Some (QElem (reverse l !! i), l)
    | SValueAt i => (λ x, (QVal x, l)) <$> l !! i
    | SEqualAt i j => Some (QBool (bool_decide (Nat.min j (length l) = Nat.min i (length l))), l)
    | SClear => Some (QUnit, [])
    | SContains x => Some (QBool (existsb (same x) l), l)
    | SSize => Some (QInt (Z.of_nat (length l)), l)
    | STraverse vis w => Some (QVis (visit1 vis l w), l)
    | SString show => Some (QText (render show l), l)
    | _ => None
    end.
  (** the meaning of Set's operations; [None]: the call panics (Value of an invalid iterator) *)
  Definition set_spec (o : set_op T W) (l : list T) : option (set_res T W * list T) :=
    match o with
    | SInsert x => Some (QUnit, if existsb (same x) l then l else place x l)
    | SErase x => Some (QUnit, remove_all x l)
    | SEraseAll _ | SCount _ => Some (QUnit, l)
    | o => s_obs l o
    end.
  (** the meaning of MultiSet's *)
  Definition ms_spec (o : set_op T W) (l : list T) : option (set_res T W * list T) :=
    match o with
    | SInsert x => Some (QUnit, place x l)
    | SErase x => Some (QUnit, remove_one x l)
    | SEraseAll x => Some (QUnit, remove_all x l)
    | SCount x => Some (QInt (Z.of_nat (count x l)), l)
    | o => s_obs l o
    end.
  (** every history of operations on s gives the results of the list l *)
  Definition behaves (s : rb T bool) (l : list T) : Prop := ∀ ops : list (set_op T W),
    match srun set_spec ops l with
    | Some (rs, _) => ∃ s', run set_step ops s = Ok (rs, s')
    | None => run set_step ops s = Panic
    end.
  (** the sets a client can build *)
  Inductive set_reach : rb T bool → Prop :=
  | sr_new : set_reach set_new
  | sr_op s o r s' : set_reach s → set_step o s = Ok (r, s') → set_reach s'
  | sr_union s o n : set_reach s → set_reach o → set_Union cmp s o = Ok (tt, (s, o, n)) → set_reach n
  | sr_intersect s o n : set_reach s → set_reach o → set_Intersect cmp s o = Ok (tt, (s, o, n)) → set_reach n
  | sr_diff s o n : set_reach s → set_reach o → set_Diff cmp s o = Ok (tt, (s, o, n)) → set_reach n.
End steps.
