(** Linearizability (Herlihy and Wing), for histories of calls and returns. *)
From Verif Require Import Base ConcModel.

Section lin.
  Context {O R : Type}.
  Definition lin_id (x : nat * O * R) : nat := x.1.1.
  (** x comes before y in L *)
  Definition before {X} (x y : X) (L : list X) : Prop := ∃ l1 l2 l3, L = l1 ++ x :: l2 ++ y :: l3.
  (** L puts the calls that took effect one after the other: a call appears at most once; what
      appears was called; what returned appears with the result it returned; a call that returned
      before another began appears before it *)
  Record linearizes (h : list (event O R)) (L : list (nat * O * R)) : Prop := {
    lin_once : NoDup (map lin_id L);
    lin_called : ∀ i o r, (i, o, r) ∈ L → EInv i o ∈ h;
    lin_returned : ∀ i r, ERet i r ∈ h → ∃ o, (i, o, r) ∈ L;
    lin_order : ∀ h1 h2 h3 i r j o x y, h = h1 ++ ERet i r :: h2 ++ EInv j o :: h3 →
      x ∈ L → y ∈ L → lin_id x = i → lin_id y = j → before x y L;
  }.
End lin.
(** the results in L are those of a sequential object: [allows o a r a'] says that operation o in
    state a may answer r and lead to state a'; the answer [None] is a panic *)
Fixpoint legal {O R A} (allows : O → A → option R → A → Prop) (L : list (nat * O * option R)) (a : A) : Prop :=
  match L with [] => True | (_, o, r) :: L => ∃ a', allows o a r a' ∧ legal allows L a' end.
(** the object given by a specification of the sequential properties ([None]: the call must panic);
    a call that panics changes nothing *)
Definition by_spec {O R A} (spec : O → A → option (R * A)) (o : O) (a : A) (r : option R) (a' : A) : Prop :=
  match spec o a with Some (x, a1) => r = Some x ∧ a' = a1 | None => r = None ∧ a' = a end.
(** the same for an object given by the bodies of its methods: run one after the other, without
    any interleaving, from s to s', they give the results in L *)
Fixpoint one_by_one {S O R} (body : O → prog S R) (L : list (nat * O * R)) (s s' : S) : Prop :=
  match L with [] => s = s' | (_, o, r) :: L => ∃ s1, exec (body o) s = (r, s1) ∧ one_by_one body L s1 s' end.
(** a body does, run alone, what the sequential model of the operation does; if that panics, the body
    panics without having changed anything *)
Definition implements {S O R} (step : O → M S R) (body : O → prog S (option R)) : Prop := ∀ o s,
  match step o s with
  | Ok (r, s') => exec (body o) s = (Some r, s')
  | Panic => exec (body o) s = (None, s)
  | Fuel => True
  end.
(** bodies contain no lock commands, and those run under RLock write nothing *)
Definition disciplined {S O R} (lock : O → mode) (body : O → prog S (option R)) : Prop := ∀ o,
  plain (body o) ∧ (lock o = Rd → reading (body o)).
(** an object guarded by one lock *)
Definition guarded {S O R} (lock : O → mode) (body : O → prog S R) (o : O) : prog S R := locked (lock o) (body o).
(** steps that do not begin a call *)
Definition goes_on {S O R} (method : O → prog S R) (c c' : config S R) : Prop := mstep method c None c' ∨ ∃ i r, mstep method c (Some (ERet i r)) c'.

(** ---------- methods made of several critical sections ---------- *)
Section sections.
  Context {SO SR O R : Type}.
  (** the sections of call i in a sequence of sections of all calls *)
  Definition of_call (i : nat) (L : list (nat * SO * SR)) : list (SO * SR) := omap (λ x, if decide (lin_id x = i) then Some (x.1.2, x.2) else None) L.
  (** running code with these results of its sections leaves c' to be done *)
  Inductive runs : code SO SR R → list (SO * SR) → code SO SR R → Prop :=
  | runs_nil c : runs c [] c
  | runs_cons o k r l c : runs (k r) l c → runs (COp o k) ((o, r) :: l) c.
  (** L orders the sections of all calls: every section belongs to a call; a call's sections follow its
      code, up to the result it returned if it has; all sections of a call that returned before another
      began come before those of the other *)
  Record arranges (meth : O → code SO SR R) (h : list (event O R)) (L : list (nat * SO * SR)) : Prop := {
    arr_called : ∀ x, x ∈ L → ∃ o, EInv (lin_id x) o ∈ h;
    arr_runs : ∀ i o, EInv i o ∈ h → ∃ c, runs (meth o) (of_call i L) c;
    arr_returned : ∀ i r, ERet i r ∈ h → ∃ o, EInv i o ∈ h ∧ runs (meth o) (of_call i L) (CRet r);
    arr_order : ∀ h1 h2 h3 i r j o m n x y, h = h1 ++ ERet i r :: h2 ++ EInv j o :: h3 →
      L !! m = Some x → L !! n = Some y → lin_id x = i → lin_id y = j → (m < n)%nat;
  }.
End sections.
