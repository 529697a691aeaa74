(** Model of algorithm/op.go and algorithm/const_op.go.
    The non-mutating algorithms use only the ConstIterator interface (utils/iterator/iterator.go:
    4-10), so they are modelled over an arbitrary iterator type [I] with Next, Value and Equal as
    state-passing functions; iterators are values, so Clone is the identity and a loop variable
    stands for the Go object that Next mutates.  [f] is the caller's function. *)
From Verif Require Import Base IterModel SortModel.
Open Scope Z_scope.
Open Scope go_scope.

Section const_op.
  Context {W T I : Type}.
  Context (next : I → M W I) (value : I → M W T) (equal : I → I → M W bool).

  (** const_op.go:9-17 Count; the loop from iter on *)
  Fixpoint count (cmp : T → T → Z) (fuel : nat) (iter last : I) (v : T) : M W Z :=
    let! e := equal iter last in
    if (e : bool) then mret_ 0
    else match fuel with
         | O => mfuel
         | S f => let! x := value iter in
                  let! nx := next iter in
                  let! c := count cmp f nx last v in
                  mret_ (if cmp x v =? 0 then c + 1 else c)
         end.
  (** const_op.go:20-28 CountIf *)
  Fixpoint count_if (p : I → M W bool) (fuel : nat) (iter last : I) : M W Z :=
    let! e := equal iter last in
    if (e : bool) then mret_ 0
    else match fuel with
         | O => mfuel
         | S f => let! b := p iter in
                  let! nx := next iter in
                  let! c := count_if p f nx last in
                  mret_ (if (b : bool) then c + 1 else c)
         end.
  (** const_op.go:31-38 Find *)
  Fixpoint find (cmp : T → T → Z) (fuel : nat) (iter last : I) (v : T) : M W I :=
    let! e := equal iter last in
    if (e : bool) then mret_ last
    else match fuel with
         | O => mfuel
         | S f => let! x := value iter in
                  if cmp x v =? 0 then mret_ iter
                  else let! nx := next iter in find cmp f nx last v
         end.
  (** const_op.go:41-48 FindIf *)
  Fixpoint find_if (p : I → M W bool) (fuel : nat) (iter last : I) : M W I :=
    let! e := equal iter last in
    if (e : bool) then mret_ last
    else match fuel with
         | O => mfuel
         | S f => let! b := p iter in
                  if (b : bool) then mret_ iter
                  else let! nx := next iter in find_if p f nx last
         end.
  (** const_op.go:55-61 and 69-75: the loops of MaxElement (better c = c > 0) and MinElement
      (better c = c < 0) *)
  Fixpoint extreme_loop (better : Z → bool) (cmp : T → T → Z) (fuel : nat) (best iter last : I) : M W I :=
    let! e := equal iter last in
    if (e : bool) then mret_ best
    else match fuel with
         | O => mfuel
         | S f => let! x := value iter in
                  let! b := value best in
                  let! nx := next iter in
                  extreme_loop better cmp f (if better (cmp x b) then iter else best) nx last
         end.
  (** const_op.go:51-62 MaxElement *)
  Definition max_element (cmp : T → T → Z) (fuel : nat) (first last : I) : M W I :=
    let! e := equal first last in
    if (e : bool) then mret_ last else extreme_loop (fun c => 0 <? c) cmp fuel first first last.
  (** const_op.go:65-76 MinElement *)
  Definition min_element (cmp : T → T → Z) (fuel : nat) (first last : I) : M W I :=
    let! e := equal first last in
    if (e : bool) then mret_ last else extreme_loop (fun c => c <? 0) cmp fuel first first last.
  (** const_op.go:79-86 AnyOf *)
  Fixpoint any_of (p : I → M W bool) (fuel : nat) (iter last : I) : M W bool :=
    let! e := equal iter last in
    if (e : bool) then mret_ false
    else match fuel with
         | O => mfuel
         | S f => let! b := p iter in
                  if (b : bool) then mret_ true
                  else let! nx := next iter in any_of p f nx last
         end.
  (** const_op.go:89-96 AllOf *)
  Fixpoint all_of (p : I → M W bool) (fuel : nat) (iter last : I) : M W bool :=
    let! e := equal iter last in
    if (e : bool) then mret_ true
    else match fuel with
         | O => mfuel
         | S f => let! b := p iter in
                  if negb b then mret_ false
                  else let! nx := next iter in all_of p f nx last
         end.
  (** const_op.go:99-101 NoneOf *)
  Definition none_of (p : I → M W bool) (fuel : nat) (iter last : I) : M W bool :=
    let! b := any_of p fuel iter last in mret_ (negb b).
End const_op.

(** op.go over random access iterators (op.go needs only Prev/Next/Equal/SetValue) *)
Section op.
  Context {W T : Type}.
  Context (csize : nat → M W Z) (cat : nat → Z → M W T) (cset : nat → Z → T → M W unit).
  Context (eq : iter → iter → bool).
  (** op.go:8-13 Swap: the same statements as sort.go's swapValue *)
  Definition alg_swap (a b : iter) : M W unit :=
    let! va := it_value cat a in
    let! vb := it_value cat b in
    it_set cset a vb ;; it_set cset b va.
  (** op.go:19-26: the loop of Reverse *)
  Fixpoint reverse_loop (fuel : nat) (lft rgt : iter) : M W unit :=
    if eq lft rgt then mret_ tt
    else match fuel with
         | O => mfuel
         | S f =>
           alg_swap lft rgt ;;
           let! lft' := it_next csize lft in
           if eq lft' rgt then mret_ tt
           else let! rgt' := it_prev rgt in reverse_loop f lft' rgt'
         end.
  (** op.go:16-27 Reverse *)
  Definition alg_reverse (fuel : nat) (first last : iter) : M W unit :=
    let! rgt := it_prev (it_clone last) in
    reverse_loop fuel (it_clone first) rgt.
End op.
