(** Shared base: outcomes of Go code and the comparator contract. *)
From stdpp Require Export prelude list gmap.
From Coq Require Export ZArith Lia.
From Coq Require Export ZifyBool ZifyNat ZifyN.
Open Scope Z_scope.

(** Outcome of running Go code: a result, a panic (nil dereference, index out of
    range, explicit panic, division by zero), or exhaustion of the model's fuel
    (a loop or recursion that did not finish within the stated number of steps). *)
Inductive res (A : Type) : Type :=
| Ok (a : A)
| Panic
| Fuel.
Arguments Ok {A} a.
Arguments Panic {A}.
Arguments Fuel {A}.

Global Instance res_ret : MRet res := fun A a => Ok a.
Global Instance res_bind : MBind res := fun A B f m =>
  match m with Ok a => f a | Panic => Panic | Fuel => Fuel end.

(** State-passing Go code. *)
Definition M (S A : Type) : Type := S → res (A * S).
Definition mret_ {S A} (a : A) : M S A := fun s => Ok (a, s).
Definition mbind_ {S A B} (m : M S A) (f : A → M S B) : M S B := fun s =>
  match m s with Ok (a, s') => f a s' | Panic => Panic | Fuel => Fuel end.
Definition mpanic {S A} : M S A := fun _ => Panic.
Definition mfuel {S A} : M S A := fun _ => Fuel.

Declare Scope go_scope.
Delimit Scope go_scope with go.
Notation "'let!' x := m 'in' k" := (mbind_ m (fun x => k))
  (at level 200, x binder, m at level 100, k at level 200, right associativity) : go_scope.
Notation "m ;; k" := (mbind_ m (fun _ => k))
  (at level 100, k at level 200, right associativity) : go_scope.

(** Slice indexing [s[i]] with Go's bounds check; the index is a Go int. *)
Definition idx {A} (l : list A) (i : Z) : res A :=
  if (0 <=? i) && (i <? Z.of_nat (length l)) then
    match l !! Z.to_nat i with Some a => Ok a | None => Panic end
  else Panic.
(** Slice store [s[i] = x] with Go's bounds check. *)
Definition upd {A} (l : list A) (i : Z) (x : A) : res (list A) :=
  if (0 <=? i) && (i <? Z.of_nat (length l)) then Ok (<[Z.to_nat i := x]> l) else Panic.

(** The documented comparator contract (utils/comparator/comparator.go:23-28): negative,
    zero or positive; a total preorder.  Equality of keys is [cmp a b = 0], which need
    not be Leibniz equality. *)
Record CmpOK {T : Type} (cmp : T → T → Z) : Prop := {
  cmp_flip : ∀ a b, Z.sgn (cmp a b) = - Z.sgn (cmp b a);
  cmp_le_trans : ∀ a b c, cmp a b <= 0 → cmp b c <= 0 → cmp a c <= 0;
}.

Section cmp_facts.
  Context {T : Type} (cmp : T → T → Z) (OK : CmpOK cmp).

  Lemma cmp_refl a : cmp a a = 0.
  Proof using OK. pose proof (cmp_flip _ OK a a). lia. Qed.
  Lemma cmp_flip_lt a b : cmp a b < 0 ↔ 0 < cmp b a.
  Proof using OK. pose proof (cmp_flip _ OK a b). lia. Qed.
  Lemma cmp_flip_gt a b : 0 < cmp a b ↔ cmp b a < 0.
  Proof using OK. pose proof (cmp_flip _ OK a b). lia. Qed.
  Lemma cmp_flip_eq a b : cmp a b = 0 ↔ cmp b a = 0.
  Proof using OK. pose proof (cmp_flip _ OK a b). lia. Qed.
  Lemma cmp_flip_le a b : cmp a b <= 0 ↔ 0 <= cmp b a.
  Proof using OK. pose proof (cmp_flip _ OK a b). lia. Qed.
  Lemma cmp_lt_le_trans a b c : cmp a b < 0 → cmp b c <= 0 → cmp a c < 0.
  Proof using OK.
    intros H1 H2. destruct (Z.lt_ge_cases (cmp a c) 0) as [|H3]; [done|].
    pose proof (cmp_flip _ OK a c). pose proof (cmp_flip _ OK a b).
    assert (cmp c a <= 0) as H4 by lia.
    pose proof (cmp_le_trans _ OK b c a H2 H4). lia.
  Qed.
  Lemma cmp_le_lt_trans a b c : cmp a b <= 0 → cmp b c < 0 → cmp a c < 0.
  Proof using OK.
    intros H1 H2. destruct (Z.lt_ge_cases (cmp a c) 0) as [|H3]; [done|].
    pose proof (cmp_flip _ OK a c). pose proof (cmp_flip _ OK b c).
    assert (cmp c a <= 0) as H4 by lia.
    pose proof (cmp_le_trans _ OK c a b H4 H1). lia.
  Qed.
  Lemma cmp_lt_trans a b c : cmp a b < 0 → cmp b c < 0 → cmp a c < 0.
  Proof using OK. intros H1 H2. apply cmp_lt_le_trans with b; [done|lia]. Qed.
  Lemma cmp_eq_trans a b c : cmp a b = 0 → cmp b c = 0 → cmp a c = 0.
  Proof using OK.
    intros H1 H2.
    pose proof (cmp_le_trans _ OK a b c ltac:(lia) ltac:(lia)).
    apply cmp_flip_eq in H1. apply cmp_flip_eq in H2.
    pose proof (cmp_le_trans _ OK c b a ltac:(lia) ltac:(lia)).
    pose proof (cmp_flip _ OK a c). lia.
  Qed.
  Lemma cmp_eq_l a b c : cmp a b = 0 → Z.sgn (cmp a c) = Z.sgn (cmp b c).
  Proof using OK.
    intros H1. pose proof H1 as H2. apply cmp_flip_eq in H2.
    pose proof (cmp_flip _ OK a c). pose proof (cmp_flip _ OK b c).
    destruct (Z.lt_trichotomy (cmp a c) 0) as [H3|[H3|H3]].
    - pose proof (cmp_le_lt_trans b a c ltac:(lia) H3). lia.
    - pose proof (cmp_eq_trans b a c H2 H3). lia.
    - pose proof (cmp_lt_le_trans c a b ltac:(lia) ltac:(lia)). lia.
  Qed.
  Lemma cmp_eq_r a b c : cmp a b = 0 → Z.sgn (cmp c a) = Z.sgn (cmp c b).
  Proof using OK.
    intros H1. pose proof (cmp_eq_l a b c H1).
    pose proof (cmp_flip _ OK c a). pose proof (cmp_flip _ OK c b). lia.
  Qed.
End cmp_facts.

Lemma idx_Ok {A} (l : list A) i a :
  idx l i = Ok a ↔ 0 <= i ∧ l !! Z.to_nat i = Some a.
Proof.
  unfold idx. destruct (Z.leb_spec 0 i), (Z.ltb_spec i (Z.of_nat (length l))); simpl.
  - destruct (l !! Z.to_nat i) eqn:E; split; intros; naive_solver.
  - split; [done|]. intros [? E]. apply lookup_lt_Some in E. lia.
  - split; [done|]. intros [? E]. lia.
  - split; [done|]. intros [? E]. lia.
Qed.
Lemma idx_Panic {A} (l : list A) i :
  idx l i = Panic ↔ ¬ (0 <= i < Z.of_nat (length l)).
Proof.
  unfold idx. destruct (Z.leb_spec 0 i), (Z.ltb_spec i (Z.of_nat (length l))); simpl; try (split; intros; [lia|done]).
  destruct (lookup_lt_is_Some_2 l (Z.to_nat i) ltac:(lia)) as [x ->]. split; [done|lia].
Qed.
Lemma idx_nat {A} (l : list A) (i : nat) a : l !! i = Some a → idx l (Z.of_nat i) = Ok a.
Proof. intros. apply idx_Ok. rewrite Nat2Z.id. split; [lia|done]. Qed.
Lemma upd_Ok {A} (l : list A) i x :
  0 <= i < Z.of_nat (length l) → upd l i x = Ok (<[Z.to_nat i := x]> l).
Proof.
  intros. unfold upd. destruct (Z.leb_spec 0 i), (Z.ltb_spec i (Z.of_nat (length l))); simpl; try lia; done.
Qed.
Lemma upd_nat {A} (l : list A) (i : nat) x :
  (i < length l)%nat → upd l (Z.of_nat i) x = Ok (<[i := x]> l).
Proof. intros. rewrite upd_Ok by lia. by rewrite Nat2Z.id. Qed.
