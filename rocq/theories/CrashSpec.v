(** What C81 and C82 say: histories in which a panic of the comparison function is recovered by the
    caller, who then goes on using the container. *)
From Verif Require Import Base RbModel MapModel MapSpec SetModel SetSpec CrashModel.
Open Scope Z_scope.

(** u answers like cmp whenever it answers *)
Definition agrees_with {K C} (u : user_cmp K C) (cmp : K → K → Z) : Prop := ∀ a b c z c', u a b c = (Some z, c') → z = cmp a b.
(** u panics at some time on some arguments *)
Definition can_panic {K C} (u : user_cmp K C) : Prop := ∃ a b c c', u a b c = (None, c').
(** whether u panics depends on its arguments only *)
Definition by_args {K C} (u : user_cmp K C) : Prop := ∀ a b c c', (u a b c).1 = None → (u a b c').1 = None.

Inductive outcome (R : Type) := Answer (r : R) | Recovered.
Arguments Answer {R}. Arguments Recovered {R}.
(** call one operation after the other, recovering from panics; [None]: a call does not return *)
Fixpoint attempts {S O R} (step : O → X S R) (ops : list O) (s : S) : option (list (outcome R) * S) :=
  match ops with
  | [] => Some ([], s)
  | o :: ops => match step o s with
                | (Ok r, s') => (λ p, (Answer r :: p.1, p.2)) <$> attempts step ops s'
                | (Panic, s') => (λ p, (Recovered :: p.1, p.2)) <$> attempts step ops s'
                | (Fuel, _) => None
                end
  end.
(** every call answers as specified, or panics (if the specification or [may] allow it) and leaves
    what [partway] allows *)
Inductive recovered {O A R} (spec : O → A → option (R * A)) (may : O → Prop) (partway : O → A → A → Prop) : list O → A → list (outcome R) → A → Prop :=
| rec_nil a : recovered spec may partway [] a [] a
| rec_answer o ops a r a1 rs a2 : spec o a = Some (r, a1) → recovered spec may partway ops a1 rs a2 → recovered spec may partway (o :: ops) a (Answer r :: rs) a2
| rec_panic o ops a a1 rs a2 : spec o a = None ∨ may o → partway o a a1 → recovered spec may partway ops a1 rs a2 → recovered spec may partway (o :: ops) a (Recovered :: rs) a2.
(** nothing happened *)
Definition untouched {O A} (o : O) (a a1 : A) : Prop := a1 = a.

(** l1 is l with the entries satisfying P removed from a front part of it *)
Definition front_dropped {A} (P : A → Prop) `{∀ x, Decision (P x)} (l l1 : list A) : Prop := ∃ F R, l = F ++ R ∧ l1 = filter (λ x, ¬ P x) F ++ R.

Section maps.
  Context {K V W : Type} (cmp : K → K → Z).
  Notation op := (map_op K V W).
  Notation kvs := (list (K * V)).
  (** the operations that compare keys *)
  Definition map_compares (o : op) : bool :=
    match o with MInsert _ _ | MGet _ | MErase _ | MEraseFound _ | MFind _ _ | MLower _ _ | MUpper _ _ | MContains _ => true | _ => false end.
  (** what a panic leaves of a MultiMap: Erase may have erased some of its entries already *)
  Definition mm_left (o : op) (l l1 : kvs) : Prop :=
    match o with MErase k => front_dropped (λ kv, cmp k kv.1 = 0) l l1 | _ => l1 = l end.
  (** the entries, and by how much Size is too large *)
  Definition surplus (spec : op → kvs → option (map_res K V W * kvs)) (o : op) (a : kvs * nat) : option (map_res K V W * (kvs * nat)) :=
    match o with
    | MSize => Some (RInt (Z.of_nat (length a.1 + a.2)), a)
    | MClear => Some (RUnit, ([], 0%nat))
    | o => (λ p, (p.1, (p.2, a.2))) <$> spec o a.1
    end.
  (** a panic in Insert may make Size one larger *)
  Definition counts (left : op → kvs → kvs → Prop) (o : op) (a a1 : kvs * nat) : Prop :=
    left o a.1 a1.1 ∧ (a1.2 = a.2 ∨ (∃ k v, o = MInsert k v) ∧ a1.2 = S a.2).
End maps.
Section sets.
  Context {T W : Type} (cmp : T → T → Z).
  Notation op := (set_op T W).
  Notation els := (list T).
  (** the operations that compare elements *)
  Definition set_compares (o : op) : bool :=
    match o with SInsert _ | SErase _ | SEraseAll _ | SFind _ _ | SLower _ _ | SUpper _ _ | SContains _ | SCount _ => true | _ => false end.
  Definition ms_left (o : op) (l l1 : els) : Prop :=
    match o with SEraseAll x => front_dropped (λ y, cmp x y = 0) l l1 | _ => l1 = l end.
  Definition s_surplus (spec : op → els → option (set_res T W * els)) (o : op) (a : els * nat) : option (set_res T W * (els * nat)) :=
    match o with
    | SSize => Some (QInt (Z.of_nat (length a.1 + a.2)), a)
    | SClear => Some (QUnit, ([], 0%nat))
    | o => (λ p, (p.1, (p.2, a.2))) <$> spec o a.1
    end.
  Definition s_counts (left : op → els → els → Prop) (o : op) (a a1 : els * nat) : Prop :=
    left o a.1 a1.1 ∧ (a1.2 = a.2 ∨ (∃ x, o = SInsert x) ∧ a1.2 = S a.2).
End sets.
