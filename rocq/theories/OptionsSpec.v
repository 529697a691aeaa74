(** What a list of options asks for. *)
From Verif Require Import Base OptionsModel.

Section spec.
  Context {C : Type}.
  (** goroutine safety was asked for *)
  Definition wants_lock (c : ctor C) : Prop :=
    match c with
    | NHamt l | NPq l | NMap l | NMultiMap l | NSet l | NMultiSet l | NBloom l | NBloomData l => LSafe ∈ l
    | NSkip l => SSafe ∈ l | NKetama l => KSafe ∈ l | NQueue l | NStack l => CSafe ∈ l | NVector _ => False
    end.
  (** the last number given, if any *)
  Definition last_number {O} (num : O → option Z) (dflt : Z) (l : list O) : Z := default dflt (last (omap num l)).
  Definition wants_number (c : ctor C) : option Z :=
    match c with
    | NSkip l => Some (last_number (λ o, match o with SMaxLevel n => Some n | _ => None end) 10 l)
    | NKetama l => Some (last_number (λ o, match o with KReplicas n => Some n | _ => None end) 10 l)
    | NVector l => Some (last_number (λ o, match o with VCapacity n => Some n end) 0 l)
    | _ => None
    end.
  (** the container asked for last: the caller's own, a list, or (none asked for) a deque *)
  Inductive kind := KDeque | KList | KUser (c : C).
  Definition kind_of (x : cont C) : kind := match x with DequeAt _ => KDeque | ListAt _ => KList | User c => KUser c end.
  Definition wants_cont (c : ctor C) : option kind :=
    match c with
    | NQueue l | NStack l => Some (default KDeque (last (omap (λ o, match o with CSafe => None | CContainer c => Some (KUser c) | CList => Some KList end) l)))
    | _ => None
    end.
  (** Skiplist and Vector cannot be made with a negative number *)
  Definition can_make (c : ctor C) : Prop := match c with NSkip _ | NVector _ => ∃ n, wants_number c = Some n ∧ (0 ≤ n)%Z | _ => True end.
  (** the object is what was asked for *)
  Definition made_as (c : ctor C) (o : made C) : Prop :=
    (wants_lock c ↔ ∃ i, md_lock o = Mutex i) ∧ md_num o = wants_number c ∧ kind_of <$> md_cont o = wants_cont c.
  (** the identities of the mutex and of the deque or list inside an object *)
  Definition ids (o : made C) : list nat :=
    match md_lock o with Mutex i => [i] | Fake => [] end ++ match md_cont o with Some (DequeAt i) | Some (ListAt i) => [i] | _ => [] end.
End spec.
Arguments kind : clear implicits.
