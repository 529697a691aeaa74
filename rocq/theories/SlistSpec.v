(** What a world of singly linked lists is: for each list the sequence of its nodes, for each node
    its value.  [None]: the call must panic. *)
From Verif Require Import Base BidlistSpec SlistModel.
Open Scope Z_scope.

Record ss (T : Type) := MkSs { ss_lists : list (list nat); ss_vals : list T }.
Arguments MkSs {T}. Arguments ss_lists {T}. Arguments ss_vals {T}.

Section spec.
  Context {T : Type} (zero : T).
  Implicit Types (s : ss T).
  Definition s_upd s (l : nat) (ps : list nat) : ss T := MkSs (<[l := ps]> (ss_lists s)) (ss_vals s).
  Definition s_add s (l : nat) (x : T) (ps : list nat) : ss T := MkSs (<[l := ps]> (ss_lists s)) (ss_vals s ++ [x]).
  Definition s_fresh s : nat := length (ss_vals s).
  Definition s_vals_of s (ps : list nat) : list T := omap (λ a, ss_vals s !! a) ps.

  Definition s_spec (o : s_op T) s : option (s_out T * ss T) :=
    match o with
    | SNew => Some (SList (length (ss_lists s)), MkSs (ss_lists s ++ [[]]) (ss_vals s))
    | SPushFront l x => ps ← ss_lists s !! l; Some (SUnit, s_add s l x (s_fresh s :: ps))
    | SPushBack l x => ps ← ss_lists s !! l; Some (SUnit, s_add s l x (ps ++ [s_fresh s]))
    | SInsertAfter l x m => ps ← ss_lists s !! l; m ← m; Some (SPtr (Some (s_fresh s)), s_add s l x (ins_after m (s_fresh s) ps))
    | SRemove l _ None => Some (SVal zero, s)
    | SRemove l _ (Some n) => ps ← ss_lists s !! l; x ← ss_vals s !! n; Some (SVal x, s_upd s l (without n ps))
    | SMoveToFront l _ None | SMoveToBack l _ None => Some (SUnit, s)
    | SMoveToFront l _ (Some n) => ps ← ss_lists s !! l; Some (SUnit, s_upd s l (n :: without n ps))
    | SMoveToBack l _ (Some n) => ps ← ss_lists s !! l; Some (SUnit, s_upd s l (without n ps ++ [n]))
    | SLen l => ps ← ss_lists s !! l; Some (SInt (Z.of_nat (length ps)), s)
    | SFrontNode l => ps ← ss_lists s !! l; Some (SPtr (head ps), s)
    | SBackNode l => ps ← ss_lists s !! l; Some (SPtr (last ps), s)
    | SNext n => n ← n; Some (SPtr (head (omap (succ_in n) (ss_lists s))), s)
    | SValue n => n ← n; x ← ss_vals s !! n; Some (SVal x, s)
    | SSetValue n x => n ← n; _ ← ss_vals s !! n; Some (SUnit, MkSs (ss_lists s) (<[n := x]> (ss_vals s)))
    end.
  (** The contract: the lists exist, the nodes are nodes of the list the method is called on (or
      nil), and pre is the node before n (nil when n is the first). *)
  Definition s_right (l : nat) (pre n : option nat) s : Prop :=
    match n with
    | None => pre = None
    | Some n => ∃ ps, ss_lists s !! l = Some ps ∧ n ∈ ps ∧ pre = pred_in n ps
    end.
  Definition s_safe (o : s_op T) s : Prop :=
    match o with
    | SNew | SValue _ | SSetValue _ _ => True
    | SPushFront l _ | SPushBack l _ | SLen l | SFrontNode l | SBackNode l => is_Some (ss_lists s !! l)
    | SInsertAfter l _ m => ∃ ps, ss_lists s !! l = Some ps ∧ ∀ a, m = Some a → a ∈ ps
    | SRemove l pre n | SMoveToFront l pre n | SMoveToBack l pre n => s_right l pre n s
    | SNext n => ∀ a, n = Some a → ∃ l ps, ss_lists s !! l = Some ps ∧ a ∈ ps
    end.
  Fixpoint s_safe_run (ops : list (s_op T)) s : Prop :=
    match ops with
    | [] => True
    | o :: ops => s_safe o s ∧ match s_spec o s with Some (_, s') => s_safe_run ops s' | None => True end
    end.
  Definition ss0 : ss T := MkSs [] [].
End spec.
