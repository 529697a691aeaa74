(** Specification for C112: what a visitor that inserts is handed.  A traversal is recorded as the list of its
    visits: what was handed over, what the visitor inserted then. *)
From Coq Require Import Sorting.Sorted.
From Verif Require Import Base History.
Open Scope Z_scope.

Section spec.
  Context {K D W : Type} (cmp : K → K → Z) (kd : D → K) (put : D → list D → list D) (vis : D → W → list D * (bool * W)).
  Implicit Types (l : list D) (tr : list (D * list D)).
  (** everything inserted, in the order of the calls *)
  Definition inserted tr : list D := concat tr.*2.
  (** l after the insertions ds *)
  Definition puts (ds : list D) l : list D := foldl (λ l d, put d l) l ds.
  (** an entry with key q is there *)
  Definition has_key (q : K) l : Prop := ∃ d, d ∈ l ∧ cmp q (kd d) = 0.
  (** the visitor answered as recorded, and was asked again as long as it said so; done: it never said stop *)
  Fixpoint answers (w : W) tr (done : bool) : Prop :=
    match tr with
    | [] => done = true
    | (d, ds) :: tr => (vis d w).1 = ds ∧ if (vis d w).2.1 then answers (vis d w).2.2 tr done else tr = [] ∧ done = false
    end.
  (** inserted under a key that is smaller than the one being visited *)
  Definition missed tr : list D := concat ((λ x, filter (λ d, cmp (kd d) (kd x.1) < 0) x.2) <$> tr).

  (** The visits when keys are unique: each is handed the first entry, as things are then, with a greater key
      than the one before. *)
  Record visits_unique l (w : W) tr l' : Prop := {
    vu_answers : ∃ done, answers w tr done ∧
      (** exactly the keys that were there from the start or inserted at a smaller key (after a stop: as far as the
          traversal came) *)
      ∀ q, done = true ∨ (∃ d, d ∈ tr.*1 ∧ cmp q (kd d) <= 0) →
        has_key q tr.*1 ↔ has_key q l ∨ ∃ d ds d', (d, ds) ∈ tr ∧ d' ∈ ds ∧ cmp q (kd d') = 0 ∧ cmp (kd d) q < 0;
    (** no key twice, in ascending order *)
    vu_ascending : StronglySorted (λ x y, cmp (kd x) (kd y) < 0) tr.*1;
    (** the contents afterwards *)
    vu_contents : l' = puts (inserted tr) l;
    (** what is handed over is the entry as it is at that moment *)
    vu_current : ∀ tr1 d ds tr2, tr = tr1 ++ (d, ds) :: tr2 → d ∈ puts (inserted tr1) l
  }.
  (** The visits when keys need not be unique. *)
  Record visits_multi l (w : W) tr l' : Prop := {
    vm_answers : ∃ done rest, answers w tr done ∧
      (** everything except what was inserted under a smaller key than the one being visited (after a stop: and
          except the rest, which is behind all that was visited) *)
      l' ≡ₚ tr.*1 ++ missed tr ++ rest ∧ (done = true → rest = []) ∧ (∀ d e, d ∈ tr.*1 → e ∈ rest → cmp (kd d) (kd e) <= 0);
    (** in the order of the container *)
    vm_order : tr.*1 `sublist_of` l';
    vm_contents : l' = puts (inserted tr) l
  }.
  (** the visitor makes at most b w insertions from state w on *)
  Definition budget (b : W → nat) : Prop := ∀ d w, (length (vis d w).1 + b (vis d w).2.2 <= b w)%nat.
End spec.

(** from s on every call returns what the list l says *)
Definition goes_on_as {S A O R} (step : O → M S R) (spec : O → A → option (R * A)) (s : S) (l : A) : Prop :=
  ∀ later, match srun spec later l with
  | Some (rs, _) => ∃ s', run step later s = Ok (rs, s')
  | None => run step later s = Panic
  end.
