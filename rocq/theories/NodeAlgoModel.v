(** Swap and Reverse (algorithm/op.go) over any iterator type that offers Next, Prev, Value, SetValue and Equal
    (utils/iterator/iterator.go:4-40), in particular list and tree iterators.  Iterators are values, so Clone is
    the identity and a loop variable stands for the Go object that Next and Prev mutate. *)
From Verif Require Import Base.
Open Scope go_scope.

Section op.
  Context {W T I : Type}.
  Context (next prev : I → M W I) (value : I → M W T) (set : I → T → M W unit) (equal : I → I → bool).
  (** op.go:8-13 Swap *)
  Definition g_swap (a b : I) : M W unit :=
    let! va := value a in
    let! vb := value b in
    set a vb ;; set b va.
  (** op.go:19-26: the loop of Reverse *)
  Fixpoint g_reverse_loop (fuel : nat) (lft rgt : I) : M W unit :=
    if equal lft rgt then mret_ tt
    else match fuel with
         | O => mfuel
         | S f =>
           g_swap lft rgt ;;
           let! lft' := next lft in
           if equal lft' rgt then mret_ tt
           else let! rgt' := prev rgt in g_reverse_loop f lft' rgt'
         end.
  (** op.go:16-27 Reverse *)
  Definition g_reverse (fuel : nat) (first last : I) : M W unit :=
    let! rgt := prev last in
    g_reverse_loop fuel first rgt.
End op.
