(** What a Bloom filter is: the list of added values; a query answers whether every probed
    position of the value is probed by some added value. *)
From Verif Require Import Base BloomModel.
Open Scope N_scope.

Section spec.
  Context (h : list N → list N).
  (** the i-th 8-byte big-endian word of the digest of the salted value, reduced mod m;
      only 8 words exist, probe i uses word i mod 8 *)
  Definition probe (m : N) (v : list N) (i : nat) : N :=
    be_word (take 8 (drop (8 * (i mod 8)) (h (salt ++ v)))) mod m.
  Definition covered (m k : N) (added : list (list N)) (v : list N) : Prop :=
    ∀ i, (i < N.to_nat k)%nat → ∃ w j, w ∈ added ∧ (j < N.to_nat k)%nat ∧ probe m w j = probe m v i.
  (** values added by a history *)
  Definition added_by (ops : list bf_op) : list (list N) :=
    omap (fun o => match o with FAdd v => Some v | _ => None end) ops.
End spec.
