(** What a world of bidirectional lists is: for each list the sequence of its nodes, for each
    node its value, and the nodes that were dropped by Clear.  [None]: the call must panic. *)
From Verif Require Import Base BidlistModel.
Open Scope Z_scope.

Record bs (T : Type) := MkBs { s_lists : list (list nat); s_vals : list T; s_cleared : list nat }.
Arguments MkBs {T}. Arguments s_lists {T}. Arguments s_vals {T}. Arguments s_cleared {T}.

(** sequences of nodes *)
Definition ins_after (m n : nat) (ps : list nat) : list nat := ps ≫= λ a, if decide (a = m) then [a; n] else [a].
Definition ins_before (m n : nat) (ps : list nat) : list nat := ps ≫= λ a, if decide (a = m) then [n; a] else [a].
Definition without (n : nat) (ps : list nat) : list nat := filter (λ a, a ≠ n) ps.
(** the element after / before a *)
Fixpoint succ_in (a : nat) (ps : list nat) : option nat :=
  match ps with
  | [] => None
  | x :: t => if decide (x = a) then head t else succ_in a t
  end.
Definition pred_in (a : nat) (ps : list nat) : option nat := succ_in a (reverse ps).

Section spec.
  Context {T : Type}.
  Implicit Types (s : bs T).
  Definition upd_list s (l : nat) (ps : list nat) : bs T := MkBs (<[l := ps]> (s_lists s)) (s_vals s) (s_cleared s).
  (** one more node, with value x, in list l *)
  Definition add_node s (l : nat) (x : T) (ps : list nat) : bs T := MkBs (<[l := ps]> (s_lists s)) (s_vals s ++ [x]) (s_cleared s).
  Definition fresh s : nat := length (s_vals s).
  Definition vals_of s (ps : list nat) : list T := omap (λ a, s_vals s !! a) ps.

  Definition b_spec (o : b_op T) s : option (b_out T * bs T) :=
    match o with
    | BNew => Some (BList (length (s_lists s)), MkBs (s_lists s ++ [[]]) (s_vals s) (s_cleared s))
    | BPushBack l x => ps ← s_lists s !! l; Some (BUnit, add_node s l x (ps ++ [fresh s]))
    | BPushFront l x => ps ← s_lists s !! l; Some (BUnit, add_node s l x (fresh s :: ps))
    | BInsertAfter l x m => ps ← s_lists s !! l; m ← m; _ ← s_vals s !! m;
        Some (if decide (m ∈ ps) then (BPtr (Some (fresh s)), add_node s l x (ins_after m (fresh s) ps)) else (BPtr None, s))
    | BInsertBefore l x m => ps ← s_lists s !! l; m ← m; _ ← s_vals s !! m;
        Some (if decide (m ∈ ps) then (BPtr (Some (fresh s)), add_node s l x (ins_before m (fresh s) ps)) else (BPtr None, s))
    | BRemove l n => ps ← s_lists s !! l; n ← n; x ← s_vals s !! n; Some (BVal x, upd_list s l (without n ps))
    | BClear l => ps ← s_lists s !! l; Some (BUnit, MkBs (<[l := []]> (s_lists s)) (s_vals s) (ps ++ s_cleared s))
    | BPopBack l => ps ← s_lists s !! l; n ← last ps; x ← s_vals s !! n; Some (BVal x, upd_list s l (take (length ps - 1) ps))
    | BPopFront l => ps ← s_lists s !! l; n ← head ps; x ← s_vals s !! n; Some (BVal x, upd_list s l (tail ps))
    | BMoveToFront l n => ps ← s_lists s !! l; n ← n; _ ← s_vals s !! n;
        Some (BUnit, if decide (n ∈ ps) then upd_list s l (n :: without n ps) else s)
    | BMoveToBack l n => ps ← s_lists s !! l; n ← n; _ ← s_vals s !! n;
        Some (BUnit, if decide (n ∈ ps) then upd_list s l (without n ps ++ [n]) else s)
    | BMoveAfter l n m => ps ← s_lists s !! l; n' ← n; _ ← s_vals s !! n';
        if decide (n' ∉ ps ∨ n = m) then Some (BUnit, s)
        else m ← m; _ ← s_vals s !! m;
             Some (BUnit, if decide (m ∈ ps) then upd_list s l (ins_after m n' (without n' ps)) else s)
    | BPushBackList l o => ps ← s_lists s !! l; qs ← s_lists s !! o;
        Some (BUnit, MkBs (<[l := ps ++ seq (fresh s) (length qs)]> (s_lists s)) (s_vals s ++ vals_of s qs) (s_cleared s))
    | BPushFrontList l o => ps ← s_lists s !! l; qs ← s_lists s !! o;
        (* the copies are allocated back to front *)
        Some (BUnit, MkBs (<[l := reverse (seq (fresh s) (length qs)) ++ ps]> (s_lists s)) (s_vals s ++ reverse (vals_of s qs)) (s_cleared s))
    | BSetValue n x => n ← n; _ ← s_vals s !! n; Some (BUnit, MkBs (s_lists s) (<[n := x]> (s_vals s)) (s_cleared s))
    | BFront l => ps ← s_lists s !! l; n ← head ps; x ← s_vals s !! n; Some (BVal x, s)
    | BBack l => ps ← s_lists s !! l; n ← last ps; x ← s_vals s !! n; Some (BVal x, s)
    | BLen l => ps ← s_lists s !! l; Some (BInt (Z.of_nat (length ps)), s)
    | BEmpty l => ps ← s_lists s !! l; Some (BBool (bool_decide (ps = [])), s)
    | BFrontNode l => ps ← s_lists s !! l; Some (BPtr (head ps), s)
    | BBackNode l => ps ← s_lists s !! l; Some (BPtr (last ps), s)
    | BNext n => n ← n; _ ← s_vals s !! n; Some (BPtr (head (omap (succ_in n) (s_lists s))), s)
    | BPrev n => n ← n; _ ← s_vals s !! n; Some (BPtr (head (omap (pred_in n) (s_lists s))), s)
    | BValue n => n ← n; x ← s_vals s !! n; Some (BVal x, s)
    end.

  (** Restrictions under which the code meets this specification:
      the lists exist; no pointer argument is a node dropped by Clear; PushBackList and
      PushFrontList of a non-empty list are not called on an empty one; MoveAfter is not asked to
      move the first node after the last one. *)
  Definition lists_of (o : b_op T) : list nat :=
    match o with
    | BNew | BSetValue _ _ | BNext _ | BPrev _ | BValue _ => []
    | BPushBack l _ | BPushFront l _ | BInsertAfter l _ _ | BInsertBefore l _ _ | BRemove l _ | BClear l | BPopBack l | BPopFront l
    | BMoveToFront l _ | BMoveToBack l _ | BMoveAfter l _ _ | BFront l | BBack l | BLen l | BEmpty l | BFrontNode l | BBackNode l => [l]
    | BPushBackList l o | BPushFrontList l o => [l; o]
    end.
  Definition nodes_of (o : b_op T) : list (option nat) :=
    match o with
    | BInsertAfter _ _ n | BInsertBefore _ _ n | BRemove _ n | BMoveToFront _ n | BMoveToBack _ n | BNext n | BPrev n => [n]
    | BMoveAfter _ n m => [n; m]
    | _ => []
    end.
  Definition b_safe (o : b_op T) s : Prop :=
    (∀ l, l ∈ lists_of o → (l < length (s_lists s))%nat) ∧
    (∀ a, Some a ∈ nodes_of o → a ∉ s_cleared s) ∧
    match o with
    | BPushBackList l o | BPushFrontList l o => s_lists s !! l = Some [] → s_lists s !! o = Some []
    | BMoveAfter l n m => ∀ ps, s_lists s !! l = Some ps → ¬ (head ps = n ∧ last ps = m ∧ n ≠ m)
    | _ => True
    end.
  (** every operation of the history meets the restrictions when it is its turn *)
  Fixpoint b_safe_run (ops : list (b_op T)) s : Prop :=
    match ops with
    | [] => True
    | o :: ops => b_safe o s ∧ match b_spec o s with Some (_, s') => b_safe_run ops s' | None => True end
    end.
  (** the visitor sees the values in order, up to and including the first it rejects *)
  Fixpoint upto (f : T → bool) (xs : list T) : list T := match xs with [] => [] | x :: t => if f x then x :: upto f t else [x] end.
  Definition bs0 : bs T := MkBs [] [] [].
End spec.
