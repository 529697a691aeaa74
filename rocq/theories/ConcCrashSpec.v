(** What C102 says: goroutine-safe containers whose comparison function panics during some of the calls. *)
From Verif Require Import Base ConcModel ConcSpec CrashModel CrashSpec HeapModel AnyCmpProps.

(** A call is an operation together with a state for the comparison function to start in: whatever
    makes it panic or not during this call, from one comparison to the next, is some such state. *)
(** a body does, run alone, what the model of the operation does, and if that ends in a panic, so does the
    body, leaving the memory as it is then *)
Definition x_implements {S C O R} (x : O → X (S * C) R) (body : O * C → prog S (option R)) : Prop := ∀ o c s,
  match x o (s, c) with
  | (Ok r, (s', _)) => exec (body (o, c)) s = (Some r, s')
  | (Panic, (s', _)) => exec (body (o, c)) s = (None, s')
  | (Fuel, _) => True
  end.
(** the lock of the operation *)
Definition call_lock {C O} (lock : O → mode) (oc : O * C) : mode := lock oc.1.
(** a sequential object whose calls answer as specified or are interrupted ([None]) if [may] allows it and then leave
    what [partway] allows *)
Definition interruptible {C O A R} (spec : O → A → option (R * A)) (may : O → Prop) (partway : O → A → A → Prop) (oc : O * C) (a : A) (r : option R) (a' : A) : Prop :=
  match r with Some x => spec oc.1 a = Some (x, a') | None => (spec oc.1 a = None ∨ may oc.1) ∧ partway oc.1 a a' end.
(** a priority queue as a bag: an interrupted Push has added its element, an interrupted Pop removed none; Pop and Top
    panic on the empty queue *)
Definition bag_interruptible {C T} (may : Prop) (oc : pq_op T * C) (a : list T) (r : option (pq_out T)) (a' : list T) : Prop :=
  match r with
  | Some x => bag_allows oc.1 a x a'
  | None => match oc.1 with
            | PPush x => may ∧ a' = x :: a
            | PPop => (may ∨ a = []) ∧ a' = a
            | PTop => a = [] ∧ a' = a
            | _ => False
            end
  end.
