(** Walks over a red-black tree with one budget f for the rounds of all loops together: the code of
    RbModel.v, in which every round of a loop takes one from the budget and the rest is handed on.
    When the budget is used up the run ends in [Fuel].  Everything outside the loops is a fixed
    number of steps for each call of Next, Prev or the visitor. *)
From Verif Require Import Base RbModel.
Open Scope Z_scope.
Open Scope go_scope.

Section cost.
  Context {K V : Type}.
  Notation RM := (M (rb K V)).
  (** ds/rbtree/node.go:78-83 minimum, with what is left of the budget *)
  Fixpoint minimum_spend (f : nat) (p : ptr) : RM (ptr * nat) :=
    match f with O => mfuel | S f =>
      let! l := left p in match l with None => mret_ (p, f) | _ => minimum_spend f l end end.
  (** ds/rbtree/node.go:86-91 maximum, with what is left of the budget *)
  Fixpoint maximum_spend (f : nat) (p : ptr) : RM (ptr * nat) :=
    match f with O => mfuel | S f =>
      let! r := right p in match r with None => mret_ (p, f) | _ => maximum_spend f r end end.
  (** ds/rbtree/node.go:53-57 the loop of successor *)
  Fixpoint succ_spend (f : nat) (x y : ptr) : RM (ptr * nat) :=
    match f with O => mfuel | S f =>
      match y with None => mret_ (y, f) | _ =>
        let! r := right y in
        if peq x r then let! p := parent y in succ_spend f y p else mret_ (y, f) end end.
  (** ds/rbtree/node.go:69-72 the loop of presuccessor *)
  Fixpoint pred_spend (f : nat) (x : ptr) : RM (ptr * nat) :=
    match f with O => mfuel | S f =>
      let! p := parent x in
      match p with None => mret_ (p, f) | _ =>
        let! l := left p in
        if peq l x then pred_spend f p else let! q := parent x in mret_ (q, f) end end.
  (** ds/rbtree/node.go:37-39 Next, :48-58 successor *)
  Definition next_spend (f : nat) (x : ptr) : RM (ptr * nat) :=
    let! r := right x in
    match r with Some _ => minimum_spend f r | None => let! y := parent x in succ_spend f x y end.
  (** ds/rbtree/node.go:42-44 Prev, :61-75 presuccessor *)
  Definition prev_spend (f : nat) (x : ptr) : RM (ptr * nat) :=
    let! l := left x in
    match l with Some _ => maximum_spend f l | None =>
      let! p := parent x in
      match p with None => mret_ (None, f) | _ =>
        let! r := right p in
        if peq r x then let! q := parent x in mret_ (q, f) else pred_spend f x end end.
  (** ds/rbtree/node.go:37-39: n calls of Next, one after the other *)
  Fixpoint walk (n : nat) (x : ptr) : RM ptr := match n with O => mret_ x | S n => let! y := next x in walk n y end.
  (** ds/rbtree/node.go:42-44: n calls of Prev *)
  Fixpoint walk_back (n : nat) (x : ptr) : RM ptr := match n with O => mret_ x | S n => let! y := prev x in walk_back n y end.
  (** ds/rbtree/node.go:37-39: n calls of Next within f rounds altogether *)
  Fixpoint walk_within (f n : nat) (x : ptr) : RM ptr := match n with O => mret_ x | S n => let! y := next_spend f x in walk_within y.2 n y.1 end.
  (** ds/rbtree/node.go:42-44: n calls of Prev within f rounds altogether *)
  Fixpoint walk_back_within (f n : nat) (x : ptr) : RM ptr := match n with O => mret_ x | S n => let! y := prev_spend f x in walk_back_within y.2 n y.1 end.
  (** ds/rbtree/rbtree.go:59-64 First, with what is left of the budget *)
  Definition first_spend (f : nat) : RM (ptr * nat) := let! r := get_root in match r with None => mret_ (None, f) | _ => minimum_spend f r end.
  (** ds/rbtree/rbtree.go:399-406 the loop of Traversal; its own rounds count too.  (g only makes the
      recursion structural; it is never used up before f.) *)
  Fixpoint traversal_spend {W} (vis : K → V → W → bool * W) (g f : nat) (x : ptr) (w : W) : RM W :=
    match g, f with S g, S f =>
      match x with None => mret_ w | _ =>
        let! k := key x in let! v := value x in
        let bw := vis k v w in
        if negb bw.1 then mret_ bw.2
        else let! y := next_spend f x in traversal_spend vis g y.2 y.1 bw.2 end
    | _, _ => mfuel end.
  (** ds/rbtree/rbtree.go:399-406 Traversal within f rounds altogether *)
  Definition rb_Traversal_within {W} (f : nat) (vis : K → V → W → bool * W) (w : W) : RM W :=
    let! x := first_spend f in traversal_spend vis (S f) x.2 x.1 w.
End cost.
