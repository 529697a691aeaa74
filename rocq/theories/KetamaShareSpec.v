(** What C103 says: how often a node is chosen, over all digests the nodes could have. *)
From Verif Require Import Base History RbModel KetamaModel KetamaSpec SkipCostSpec.
Open Scope Z_scope.
Open Scope go_scope.

(** the eight bytes of a 64-bit word, the most significant first *)
Definition be8 (w : Z) : bytes := (λ i, Z.to_N (w / 256 ^ i mod 256)) <$> [7; 6; 5; 4; 3; 2; 1; 0].
(** the i-th digest made of the words ws, eight words for each *)
Definition digest (ws : list Z) (i : nat) : bytes := concat (be8 <$> take 8 (drop (8 * i) ws)).
(** a hash function that gives node number i of ns the i-th of these digests, and other strings what h gives them *)
Definition drawn_hash (h : bytes → bytes) (ns : list bytes) (ws : list Z) (d : bytes) : bytes :=
  match list_find (λ n, d = ksalt ++ n) ns with Some (i, _) => digest ws i | None => h d end.
(** what Get answers after a history of calls ([None]: the history does not run through) *)
Definition get_answer (h : bytes → bytes) (replicas : Z) (ops : list kt_op) (key : bytes) : option (option bytes) :=
  match run (kt_step h replicas) (ops ++ [KGet key]) kt_new with
  | Ok (rs, _) => match last rs with Some (KNode x) => Some x | _ => None end
  | _ => None
  end.
(** the number of lists of n 64-bit words that satisfy P; there are 2^64 ^ n of them *)
Definition how_many (n : nat) (P : list Z → Prop) `{∀ ws, Decision (P ws)} : Z := total words n (λ ws, if decide (P ws) then 1 else 0).
(** the number of different nodes added and not removed since *)
Definition live (ops : list kt_op) : Z := Z.of_nat (length (remove_dups (current ops))).
