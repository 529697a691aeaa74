(** Model of ds/pair/pair.go.  The components have type [any]; Go's == on them is the parameter
    [eqb] (it panics for uncomparable dynamic types, which is not modelled). *)
From Verif Require Import Base.
Section pair.
  Context {A : Type} (eqb : A → A → bool).
  (** pair.go:3-6 *)
  Record gpair := MkGPair { p_front : A; p_back : A }.
  (** pair.go:8-10 MakePair *)
  Definition make_pair (front back : A) : gpair := MkGPair front back.
  (** pair.go:12-15 New *)
  Definition pair_new (p : gpair) (front back : A) : gpair :=
    let p := MkGPair front (p_back p) in MkGPair (p_front p) back.
  (** pair.go:17-19 Equal; :21-27 Fronts, Backs *)
  Definition pair_equal (p q : gpair) : bool := eqb (p_front p) (p_front q) && eqb (p_back p) (p_back q).
  (** pair.go:21-23 Fronts *)
  Definition pair_fronts (p : gpair) : A := p_front p.
  (** pair.go:25-27 Backs *)
  Definition pair_backs (p : gpair) : A := p_back p.
End pair.
