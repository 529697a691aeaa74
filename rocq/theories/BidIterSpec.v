(** Iterators as positions: an iterator is at a node or nowhere; a node's neighbours are those in the list it
    is in.  [None]: the call must panic. *)
From Verif Require Import Base BidlistModel BidlistSpec BidIterModel.

Section spec.
  Context {T : Type}.
  Record bis := MkBis { p_lists : bs T; p_its : list (option nat) }.
  Definition bis0 : bis := MkBis bs0 [].
  (** the node after / before a, in whichever list a is *)
  Definition next_of (s : bs T) (a : nat) : option nat := head (omap (succ_in a) (s_lists s)).
  Definition prev_of (s : bs T) (a : nat) : option nat := head (omap (pred_in a) (s_lists s)).
  Definition with_vals (s : bs T) (vs : list T) : bs T := MkBs (s_lists s) vs (s_cleared s).
  (** iterator i, which is at p, goes to q p (nowhere it stays) *)
  Definition goes (s : bis) (i : nat) (p : option nat) (q : nat → option nat) : option (bi_out T * bis) :=
    match p with
    | None => Some (BIOut BUnit, s)
    | Some a => _ ← s_vals (p_lists s) !! a; Some (BIOut BUnit, MkBis (p_lists s) (<[i := q a]> (p_its s)))
    end.
  Definition bi_spec (o : bi_op T) (s : bis) : option (bi_out T * bis) :=
    match o with
    | BICall o => '(r, s') ← b_spec o (p_lists s); Some (BIOut r, MkBis s' (p_its s))
    | BINew n => Some (BIIter (length (p_its s)), MkBis (p_lists s) (p_its s ++ [n]))
    | BIValid i => p ← p_its s !! i; Some (BIOut (BBool (match p with Some _ => true | None => false end)), s)
    | BINext i => p ← p_its s !! i; goes s i p (next_of (p_lists s))
    | BIPrev i => p ← p_its s !! i; goes s i p (prev_of (p_lists s))
    | BIValue i => p ← p_its s !! i; a ← p; x ← s_vals (p_lists s) !! a; Some (BIOut (BVal x), s)
    | BISet i x => p ← p_its s !! i;
        match p with
        | None => Some (BIOut BUnit, s)
        | Some a => _ ← s_vals (p_lists s) !! a; Some (BIOut BUnit, MkBis (with_vals (p_lists s) (<[a := x]> (s_vals (p_lists s)))) (p_its s))
        end
    | BIClone i => p ← p_its s !! i; Some (BIIter (length (p_its s)), MkBis (p_lists s) (p_its s ++ [p]))
    | BIEqual i j => p ← p_its s !! i; q ← p_its s !! j; Some (BIOut (BBool (bool_decide (p = q))), s)
    end.
  (** the restrictions of BidlistSpec.v on calls; an iterator at a node dropped by Clear is not moved *)
  Definition bi_safe (o : bi_op T) (s : bis) : Prop :=
    match o with
    | BICall o => b_safe o (p_lists s)
    | BINext i | BIPrev i => ∀ a, p_its s !! i = Some (Some a) → a ∉ s_cleared (p_lists s)
    | _ => True
    end.
  Fixpoint bi_safe_run (ops : list (bi_op T)) (s : bis) : Prop :=
    match ops with
    | [] => True
    | o :: ops => bi_safe o s ∧ match bi_spec o s with Some (_, s') => bi_safe_run ops s' | None => True end
    end.
End spec.
Arguments bis T : clear implicits.
