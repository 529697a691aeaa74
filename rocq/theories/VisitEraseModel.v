(** Visitors that change the container they are visiting, in particular remove what they are handed (C113):
    Traversal of a container that is not goroutine-safe (with WithGoroutineSafe such a visitor never returns: C67).
    The client may know the handle of the node it is at (of a list it can keep count), so the visitor is handed it
    too. *)
From Verif Require Import Base RbModel MapModel SetModel SkipModel BidlistModel SlistModel.
Local Open Scope go_scope.

Section visit.
  Context {S D C W : Type}.
  (** reading a node; node.Next(); a call on the container made by the visitor; the visitor: from what it is
      handed and a state of its own, the calls it makes, whether to go on, its next state *)
  Context (read : nat → M S D) (next : option nat → M S (option nat)) (act : C → M S unit) (vis : D → W → list C * (bool * W)).
  (** the visitor's calls, one after the other *)
  Fixpoint act_all (os : list C) : M S unit := match os with [] => mret_ tt | o :: os => act o ;; act_all os end.
  (** rbtree.go:400-404, set.go:164-168, multiset.go:159-163, skiplist.go:200-204, bidlist/list.go:299-303,
      simplelist.go:159-163: for node := first; node != nil; node = next(node) { if !visitor(...) { break } }
      The result (which Go does not return) is the list of visits: what was handed over, what the visitor did.
      Out of fuel means: no end within f visits. *)
  Fixpoint visits_loop (f : nat) (x : option nat) (w : W) : M S (list (D * list C)) :=
    match x with
    | None => mret_ []
    | Some a =>
      match f with
      | O => mfuel
      | Datatypes.S f =>
        let! d := read a in
        let r := vis d w in
        act_all r.1 ;;
        if negb r.2.1 then mret_ [(d, r.1)]
        else let! y := next x in let! tr := visits_loop f y r.2.2 in mret_ ((d, r.1) :: tr)
      end
    end.
  (** the whole Traversal; first: how the loop gets its first node *)
  Definition visits_all (first : M S (option nat)) (f : nat) (w : W) : M S (list (D * list C)) := let! x := first in visits_loop f x w.
End visit.

(** calls that change a container with keys *)
Inductive kv_call (K V : Type) := VInsert (word : Z) (k : K) (v : V) | VRemove (k : K).
Arguments VInsert {K V}. Arguments VRemove {K V}.

Section instances.
  Context {K V T W : Type}.
  (** skiplist.go:86-113, 138-156; the random word of Insert is a parameter *)
  Definition sk_act (cmp : K → K → Z) (o : kv_call K V) : M (skip K V) unit :=
    match o with VInsert w k v => sk_Insert cmp w k v | VRemove k => sk_Remove cmp k ;; mret_ tt end.
  (** skiplist.go:201 visitor(e.key, e.value) *)
  Definition sk_read (a : nat) : M (skip K V) (K * V) := let! e := el (Some a) in mret_ (e_key e, e_val e).
  (** skiplist.go:196-205 Traversal *)
  Definition sk_visit (cmp : K → K → Z) (vis : K * V → W → list (kv_call K V) * (bool * W)) : nat → W → M (skip K V) (list (K * V * list (kv_call K V))) :=
    visits_all sk_read (λ p, nextat p 0%Z) (sk_act cmp) vis (nextat None 0%Z).
  (** map.go:56-66 Insert, :81-89 Erase *)
  Definition map_act (cmp : K → K → Z) (o : kv_call K V) : M (rb K V) unit :=
    match o with VInsert _ k v => map_Insert cmp k v | VRemove k => map_Erase cmp k end.
  (** map.go:181-186, rbtree.go:399-405 Traversal *)
  Definition map_visits (cmp : K → K → Z) (vis : K * V → W → list (kv_call K V) * (bool * W)) : nat → W → M (rb K V) (list (K * V * list (kv_call K V))) :=
    visits_all (λ a, let! k := key (Some a) in let! v := value (Some a) in mret_ (k, v)) next (map_act cmp) vis rb_First.
  (** set.go:62-71 Insert, :74-82 Erase; set.go:160-169 Traversal *)
  Definition set_visits (cmp : T → T → Z) (vis : T → W → list (T + T) * (bool * W)) : nat → W → M (rb T bool) (list (T * list (T + T))) :=
    visits_all (λ a, key (Some a)) next (λ o, match o with inl x => set_Insert cmp x | inr x => set_Erase cmp x end) vis rb_First.
  (** bidlist/list.go:298-304 Traversal of list l; the visitor may make any calls on lists *)
  Definition bid_visit (l : nat) (vis : nat * T → W → list (b_op T) * (bool * W)) : nat → W → M (bworld T) (list (nat * T * list (b_op T))) :=
    visits_all (λ a, let! x := nd (Some a) in mret_ (a, b_val x)) b_Next (λ o, b_step o ;; mret_ tt) vis (b_FrontNode l).
  (** simplelist.go:158-164 Traversal of list l; the visitor may make any calls on lists *)
  Definition s_visit (zero : T) (l : nat) (vis : nat * T → W → list (s_op T) * (bool * W)) : nat → W → M (sworld T) (list (nat * T * list (s_op T))) :=
    visits_all (λ a, let! x := sn (Some a) in mret_ (a, sn_val x)) s_Next (λ o, s_step zero o ;; mret_ tt) vis (s_FrontNode l).
End instances.
