(** What C27-C30, C36, C37 talk about: the reachable trees, their contents as a user sees them
    through First, Next, Key and Value, and plain lists of pairs. *)
From Coq Require Export Sorted.
From Verif Require Import Base RbModel.
Open Scope Z_scope.

Section spec.
  Context {K V : Type} (cmp : K → K → Z).
  Implicit Types (s : rb K V) (l : list (nat * (K * V))).
  (** [chain s p l]: walking from node p with Next, until it is nil, meets the nodes of l (address, key, value) *)
  Inductive chain s : ptr → list (nat * (K * V)) → Prop :=
  | chain_nil : chain s None []
  | chain_cons a k v q l : key (Some a) s = Ok (k, s) → value (Some a) s = Ok (v, s) → next (Some a) s = Ok (q, s) → chain s q l → chain s (Some a) ((a, (k, v)) :: l).
  (** the same with Prev *)
  Inductive rchain s : ptr → list (nat * (K * V)) → Prop :=
  | rchain_nil : rchain s None []
  | rchain_cons a k v q l : key (Some a) s = Ok (k, s) → value (Some a) s = Ok (v, s) → prev (Some a) s = Ok (q, s) → rchain s q l → rchain s (Some a) ((a, (k, v)) :: l).
  (** the contents of a tree, by iteration from First *)
  Definition contents s l : Prop := ∃ p, rb_First s = Ok (p, s) ∧ chain s p l.
  (** the trees a client can build: Delete and SetValue are called on nodes in the tree (or Delete on nil) *)
  Inductive reach : rb K V → Prop :=
  | reach_new : reach rb_new
  | reach_insert s s' k v : reach s → rb_Insert cmp k v s = Ok (tt, s') → reach s'
  | reach_delete s s' l a kv : reach s → contents s l → (a, kv) ∈ l → rb_Delete (Some a) s = Ok (tt, s') → reach s'
  | reach_delete_nil s s' : reach s → rb_Delete None s = Ok (tt, s') → reach s'
  | reach_set_value s s' l a kv v : reach s → contents s l → (a, kv) ∈ l → set_value (Some a) v s = Ok (tt, s') → reach s'
  | reach_clear s s' : reach s → rb_Clear s = Ok (tt, s') → reach s'.
  (** the pairs are sorted by key *)
  Definition sorted (l : list (K * V)) : Prop := StronglySorted (λ x y, cmp x.1 y.1 <= 0) l.
  (** the result of a search for the first node whose pair satisfies P *)
  Definition first_match (P : K * V → Prop) l (p : ptr) : Prop :=
    match p with
    | Some a => ∃ L kv R, l = L ++ (a, kv) :: R ∧ P kv ∧ Forall (λ x, ¬ P x.2) L
    | None => Forall (λ x, ¬ P x.2) l
    end.
  (** the colours on the way from a node down to a nil pointer *)
  Inductive path s : ptr → list bool → Prop :=
  | path_nil : path s None []
  | path_node a n q cs : rb_heap s !! a = Some n → (q = n_left n ∨ q = n_right n) → path s q cs → path s (Some a) (n_color n :: cs).
  (** no two red nodes in a row *)
  Fixpoint no_red_red (cs : list bool) : Prop :=
    match cs with
    | c1 :: ((c2 :: _) as cs') => (c1 = RED → c2 = BLACK) ∧ no_red_red cs'
    | _ => True
    end.
  Definition blacks (cs : list bool) : nat := length (filter (λ c, c = BLACK) cs).
  (** calling a visitor on the pairs in order until it returns false *)
  Fixpoint visit {W} (vis : K → V → W → bool * W) (l : list (K * V)) (w : W) : W :=
    match l with
    | [] => w
    | (k, v) :: l => if (vis k v w).1 then visit vis l (vis k v w).2 else (vis k v w).2
    end.
End spec.

Open Scope go_scope.
(** the part of a list from its first element satisfying P on *)
Fixpoint suffix {A} (P : A → bool) (l : list A) : list A := match l with [] => [] | x :: l' => if P x then l else suffix P l' end.
(** do something n times *)
Fixpoint times {S A} (n : nat) (f : A → M S A) (p : A) : M S A := match n with O => mret_ p | S n => let! q := f p in times n f q end.
