(** The consistent-hash ring: a finite map from points to nodes, and what the API must do to it. *)
From Verif Require Import Base History RbModel KetamaModel.
Open Scope Z_scope.

Notation ring := (gmap BinNums.N bytes).
Section spec.
  Context (h : bytes → bytes) (replicas : Z).
  (** a big-endian number *)
  Definition number (bs : bytes) : N := foldl (λ a b, (a * 256 + b)%N) 0%N bs.
  (** the i-th 8-byte word of the 64-byte digest of the salted string, counting cyclically *)
  Definition point (name : bytes) (i : nat) : N := number (take 8 (drop (8 * (i mod 8)) (h (ksalt ++ name)))).
  (** the points of a node *)
  Definition points (node : bytes) : list N := point node <$> seq 0 (Z.to_nat replicas).
  (** a node takes the free ones of its points; it gives back those it owns *)
  Definition take_point (node : bytes) (r : ring) (p : N) : ring := if r !! p then r else <[p := node]> r.
  Definition add_node (r : ring) (node : bytes) : ring := foldl (take_point node) r (points node).
  Definition drop_point (node : bytes) (r : ring) (p : N) : ring := if decide (r !! p = Some node) then delete p r else r.
  Definition remove_node (r : ring) (node : bytes) : ring := foldl (drop_point node) r (points node).
  Definition after (r : ring) (o : kt_op) : ring :=
    match o with KAdd nodes => foldl add_node r nodes | KRemove nodes => foldl remove_node r nodes | _ => r end.
  (** [owner r q n]: n owns the first point at or clockwise after q *)
  Definition owner (r : ring) (q : N) (n : bytes) : Prop :=
    ∃ p, r !! p = Some n ∧
      (((q <= p)%N ∧ ∀ p', is_Some (r !! p') → (q <= p')%N → (p <= p')%N)
       ∨ ((∀ p', is_Some (r !! p') → (p' < q)%N) ∧ ∀ p', is_Some (r !! p') → (p <= p')%N)).
  (** the answer of an operation on a ring *)
  Definition answer (r : ring) (o : kt_op) (a : kt_res) : Prop :=
    match o with
    | KAdd _ | KRemove _ => a = KUnit
    | KEmpty => ∃ b, a = KBool b ∧ (b = true ↔ r = ∅)
    | KGet key => ∃ x, a = KNode x ∧ match x with None => r = ∅ | Some n => owner r (point key 0) n end
    end.
  (** the nodes added and not removed since *)
  Definition current_after (cur : list bytes) (o : kt_op) : list bytes :=
    match o with KAdd nodes => nodes ++ cur | KRemove nodes => filter (λ n, n ∉ nodes) cur | _ => cur end.
  Definition current (ops : list kt_op) : list bytes := foldl current_after [] ops.
  (** the nodes a history mentions *)
  Definition mentioned (o : kt_op) : list bytes := match o with KAdd nodes | KRemove nodes => nodes | _ => [] end.
  (** no two of these nodes share a point *)
  Definition no_collision (ns : list bytes) : Prop := ∀ n1 n2 p, n1 ∈ ns → n2 ∈ ns → p ∈ points n1 → p ∈ points n2 → n1 = n2.
End spec.
