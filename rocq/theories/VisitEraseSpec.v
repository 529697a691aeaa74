(** Specification for C113: what a visitor that changes the container is handed, and what is left. *)
From Verif Require Import Base History RbSpec MapSpec VisitEraseModel.
Open Scope Z_scope.

Section keyed.
  Context {K V W : Type} (cmp : K → K → Z) (vis : K * V → W → list (kv_call K V) * (bool * W)).
  Implicit Types (l : list (K * V)).
  (** the contents after a call *)
  Definition called l (o : kv_call K V) : list (K * V) := match o with VInsert _ k v => upsert cmp k v l | VRemove k => erase_k cmp k l end.
  (** the entries with a key greater than that of the visit before *)
  Definition beyond (from : option K) l : list (K * V) := match from with None => l | Some k => filter (λ kv, cmp k kv.1 < 0) l end.
  (** Each visit is handed the first entry, as things are then, with a key greater than that of the visit before;
      it ends when there is none or the visitor says so.  The visits and the contents afterwards; [None]: no end
      within f visits. *)
  Fixpoint visited_in_order (f : nat) l (from : option K) (w : W) : option (list (K * V * list (kv_call K V)) * list (K * V)) :=
    match beyond from l with
    | [] => Some ([], l)
    | d :: _ =>
      match f with
      | O => None
      | S f =>
        let r := vis d w in
        let l' := foldl called l r.1 in
        if r.2.1 then
          match visited_in_order f l' (Some d.1) r.2.2 with
          | Some (tr, l'') => Some ((d, r.1) :: tr, l'')
          | None => None
          end
        else Some ([(d, r.1)], l')
      end
    end.
  (** the visitor removes the entry it was handed, if at all, in its last call; random words have 64 bits *)
  Definition removes_last : Prop := ∀ d w, ∃ os end_,
    (vis d w).1 = os ++ end_ ∧
    (∀ o, o ∈ os → match o with VInsert word _ _ => 0 <= word < 2 ^ 64 | VRemove k => cmp d.1 k ≠ 0 end) ∧
    (end_ = [] ∨ end_ = [VRemove d.1]).
  (** the visitor removes what pick picks and never stops *)
  Definition removing (pick : K * V → bool) : Prop := ∀ d w, vis d w = (if pick d then [VRemove d.1] else [], (true, w)).
  (** ... and what it leaves *)
  Definition not_picked (pick : K * V → bool) l : list (K * V) := filter (λ d, pick d = false) l.
End keyed.

(** from s on every call returns what the list l says *)
Definition goes_on_with {S A O R} (ok : O → Prop) (step : O → M S R) (spec : O → A → option (R * A)) (s : S) (l : A) : Prop :=
  ∀ later, Forall ok later → match srun spec later l with
  | Some (rs, _) => ∃ s', run step later s = Ok (rs, s')
  | None => run step later s = Panic
  end.

(** the elements up to the first one that is picked, that one included *)
Fixpoint through_first {A} (pick : A → bool) (l : list A) : list A :=
  match l with [] => [] | x :: l => x :: if pick x then [] else through_first pick l end.

(** nodes with their values *)
Definition entries {T} (vals : list T) (ps : list nat) : list (nat * T) := omap (λ a, pair a <$> vals !! a) ps.

(** the nodes left when only the first one that is picked is removed *)
Fixpoint drop_first {T} (pick : nat * T → bool) (l : list (nat * T)) : list nat :=
  match l with [] => [] | x :: l => if pick x then l.*1 else x.1 :: drop_first pick l end.
