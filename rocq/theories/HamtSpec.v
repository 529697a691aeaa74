(** The API of Hamt and its meaning on finite maps. *)
From Verif Require Import Base History HamtModel.

Inductive hm_op (T W : Type) := HInsert (k : key) (v : T) | HGet (k : key) | HErase (k : key) | HKeys | HStringKeys | HTraverse (vis : key → T → W → bool * W) (w : W).
Arguments HInsert {T W}. Arguments HGet {T W}. Arguments HErase {T W}. Arguments HKeys {T W}. Arguments HStringKeys {T W}. Arguments HTraverse {T W}.
Inductive hm_res (T W : Type) := HUnit | HVal (o : option T) | HBool (b : bool) | HKeyList (l : list key) | HVis (w : W).
Arguments HUnit {T W}. Arguments HVal {T W}. Arguments HBool {T W}. Arguments HKeyList {T W}. Arguments HVis {T W}.

Section spec.
  Context {T W : Type} (hf : key → N).
  Definition bindr {A B} (m : res A) (k : A → res B) : res B := match m with Ok a => k a | Panic => Panic | Fuel => Fuel end.
  Definition hm_step (o : hm_op T W) (h : hamt T) : res (hm_res T W * hamt T) :=
    match o with
    | HInsert k v => bindr (hm_Insert hf k v h) (λ h, Ok (HUnit, h))
    | HGet k => bindr (hm_Get hf k h) (λ r, Ok (HVal r, h))
    | HErase k => bindr (hm_Erase hf k h) (λ r, Ok (HBool r.1, r.2))
    | HKeys => bindr (hm_Keys h) (λ l, Ok (HKeyList l, h))
    | HStringKeys => bindr (hm_StringKeys h) (λ l, Ok (HKeyList l, h))
    | HTraverse vis w => bindr (hm_Traversal vis w h) (λ w, Ok (HVis w, h))
    end.
  (** calling a visitor on pairs in order until it returns false *)
  Fixpoint visit_until (vis : key → T → W → bool * W) (l : list (key * T)) (w : W) : W :=
    match l with [] => w | (k, v) :: l => if (vis k v w).1 then visit_until vis l (vis k v w).2 else (vis k v w).2 end.
  (** calling a visitor on pairs in order, whatever it returns *)
  Definition visit_all (vis : key → T → W → bool * W) (l : list (key * T)) (w : W) : W := foldl (λ w x, (vis x.1 x.2 w).2) w l.
  Notation fmap_ := (gmap key T).
  Definition hm_after (m : fmap_) (o : hm_op T W) : fmap_ := match o with HInsert k v => <[k := v]> m | HErase k => delete k m | _ => m end.
  (** the answer demanded by the map; a traversal calls the visitor on present pairs only, on no key
      twice, and on all of them if the visitor never asks to stop *)
  Definition hm_answer (m : fmap_) (o : hm_op T W) (a : hm_res T W) : Prop :=
    match o with
    | HInsert _ _ => a = HUnit
    | HGet k => a = HVal (m !! k)
    | HErase k => a = HBool (bool_decide (is_Some (m !! k)))
    | HKeys | HStringKeys => ∃ l, a = HKeyList l ∧ NoDup l ∧ ∀ k, k ∈ l ↔ is_Some (m !! k)
    | HTraverse vis w => ∃ l, a = HVis (visit_all vis l w) ∧ NoDup l.*1 ∧ (∀ k v, (k, v) ∈ l → m !! k = Some v) ∧
        ((∀ k v w, (vis k v w).1 = true) → ∀ k v, m !! k = Some v → (k, v) ∈ l)
    end.
  (** the keys an operation is called with are byte strings *)
  Definition is_bytes (k : key) : Prop := Forall (λ b, (b < 256)%N) k.
  Definition hm_op_ok (o : hm_op T W) : Prop := match o with HInsert k _ | HGet k | HErase k => is_bytes k | _ => True end.
End spec.
