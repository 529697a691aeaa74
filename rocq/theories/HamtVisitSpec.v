(** Specification for C114: what a visitor of a Hamt that erases is handed, and what is left. *)
From Verif Require Import Base HamtModel HamtSpec VisitEraseModel.

Section spec.
  Context {T V : Type} (vis : key * T → V → list (kv_call key T) * (bool * V)).
  (** handing over the entries of a list, one after the other, to a visitor in state w: the visits (what was handed
      over, what the visitor did), and its state afterwards *)
  Fixpoint fed (l : list (key * T)) (w : V) : list (key * T * list (kv_call key T)) * V :=
    match l with [] => ([], w) | d :: l => ((d, (vis d w).1) :: (fed l (vis d w).2.2).1, (fed l (vis d w).2.2).2) end.
  (** the map after a call *)
  Definition upd (m : gmap key T) (o : kv_call key T) : gmap key T := match o with VInsert _ k v => <[k := v]> m | VRemove k => delete k m end.
  (** the map after all calls of the visits *)
  Definition upds (m : gmap key T) (tr : list (key * T * list (kv_call key T))) : gmap key T := foldl upd m (concat (map snd tr)).
  (** The visitor never stops and only erases; with done_ w k: in state w it holds that the key k will not come any more.
      It erases only keys of which it holds that, or the one it is handed, and holds it only of keys it was handed
      (or of which it held it at first). *)
  Definition erases_handed (done_ : V → key → Prop) : Prop := ∀ d w,
    (vis d w).2.1 = true ∧ (∀ o, o ∈ (vis d w).1 → ∃ k, o = VRemove k ∧ (k = d.1 ∨ done_ w k)) ∧ (∀ k, done_ (vis d w).2.2 k → k = d.1 ∨ done_ w k).

  (** handing over the keys of a list, one after the other, each with the value it has by then, to a visitor in state w;
      the visits, the map and the state afterwards *)
  Fixpoint fed_now (ks : list key) (m : gmap key T) (w : V) : list (key * T * list (kv_call key T)) * (gmap key T * V) :=
    match ks with
    | [] => ([], (m, w))
    | k :: ks =>
      match m !! k with
      | None => ([], (m, w))
      | Some v => let r := vis (k, v) w in let t := fed_now ks (foldl upd m r.1) r.2.2 in ((k, v, r.1) :: t.1, t.2)
      end
    end.
  (** the visitor never stops and only inserts, under keys that are there *)
  Definition overwrites (there : key → Prop) : Prop := ∀ d w, (vis d w).2.1 = true ∧ ∀ o, o ∈ (vis d w).1 → ∃ z k v, o = VInsert z k v ∧ there k.
End spec.
