(** C111: Insert and EraseAt of a deque move only the elements on the nearer side. True of Insert; EraseAt always
    moves the elements before the position (deque.go:222 compares a segment index with an element count). *)
From Verif Require Import Base Wp History DequeModel SegmentProofs DequeLists DequeProofs DequeOps DequeOps2 DequeOps3 DequeOps4 DequeSpec DequeHist DequeSideSpec DequeSideProofs.
Open Scope nat_scope.

(** Inserting at position k of n elements writes at most min(k, n-k)/128 + 3 segments. *)
Theorem deque_insert_side_partial {T} (zero : T) ops rs (d : deque T) k x :
  run (dq_step zero) ops dq_new = Ok (rs, d) → k <= Z.to_nat (dq_size d) →
  ∃ d', dq_insert zero (Z.of_nat k) x d = Ok (tt, d') ∧ dq_size d' = (dq_size d + 1)%Z ∧
    writes_at_most (k `min` (Z.to_nat (dq_size d) - k) / 128 + 3) d d'.
Proof.
  intros E Hk. destruct (dq_reach zero _ _ _ E) as (l & _ & R). assert (dq_size d = Z.of_nat (length l)) as Hsz by (by destruct R as (? & ? & [])).
  rewrite Hsz, Nat2Z.id in *. destruct (proj1 (wp_Ok _ _ _) (insert_dq zero d l (Z.of_nat k) x R)) as ([] & d' & E' & R').
  exists d'. split; [done|]. split; [|exact (insert_writes zero d l k x R Hk _ _ E')].
  rewrite bool_decide_eq_true_2 in R' by lia. destruct R' as (? & ? & []). rewrite app_length in *. cbn [length] in *. rewrite take_length, drop_length in *. lia.
Qed.
(** Erasing position k of n elements writes at most k/128 + 2 segments... *)
Theorem deque_erase_at_partial {T} (zero : T) ops rs (d : deque T) k :
  run (dq_step zero) ops dq_new = Ok (rs, d) → k < Z.to_nat (dq_size d) →
  ∃ d', dq_erase_at (Z.of_nat k) d = Ok (tt, d') ∧ dq_size d' = (dq_size d - 1)%Z ∧
    writes_at_most (k / 128 + 2) d d'.
Proof.
  intros E Hk. destruct (dq_reach zero _ _ _ E) as (l & _ & R). assert (dq_size d = Z.of_nat (length l)) as Hsz by (by destruct R as (? & ? & [])).
  rewrite Hsz, Nat2Z.id in *. destruct (proj1 (wp_Ok _ _ _) (erase_at_dq d l k R Hk)) as ([] & d' & E' & R').
  exists d'. split; [done|]. split; [|exact (proj1 (erase_at_writes d l k R Hk _ _ E'))].
  destruct R' as (? & ? & []). rewrite app_length in *. rewrite take_length, drop_length in *. lia.
Qed.
(** ... and at least k/128: there is no bound on the segments written that depends on the distance to the end. *)
Theorem deque_erase_side_refuted {T} (zero : T) ops rs (d : deque T) k d' :
  run (dq_step zero) ops dq_new = Ok (rs, d) → k < Z.to_nat (dq_size d) →
  dq_erase_at (Z.of_nat k) d = Ok (tt, d') → writes_at_least (k / 128) d d'.
Proof.
  intros E Hk E'. destruct (dq_reach zero _ _ _ E) as (l & _ & R). assert (dq_size d = Z.of_nat (length l)) as Hsz by (by destruct R as (? & ? & [])).
  rewrite Hsz, Nat2Z.id in *. exact (proj2 (erase_at_writes d l k R Hk _ _ E')).
Qed.
Print Assumptions deque_insert_side_partial.
Print Assumptions deque_erase_at_partial.
Print Assumptions deque_erase_side_refuted.

(** * Non-vacuity: a deque of 1000 elements; the specification counts what it should *)
Definition pushes n : list (dq_op nat) := DPushBack <$> seq 0 n.
Fixpoint differs (l l' : list (segment nat)) : nat :=
  match l, l' with
  | a :: l, b :: l' => (if decide ((sg_data a, sg_begin a, sg_end a, sg_size a) = (sg_data b, sg_begin b, sg_end b, sg_size b)) then 0 else 1) + differs l l'
  | l, l' => length l + length l'
  end.
(** the segments written by a call at position k of a deque of n elements *)
Definition wrote n (f : deque nat → res (unit * deque nat)) : option nat :=
  match run (dq_step 0) (pushes n) dq_new with
  | Ok (_, d) => match f d with Ok (_, d') => Some (differs (dq_heap d) (dq_heap d')) | _ => None end
  | _ => None
  end.
Example insert_near_back : wrote 1000 (dq_insert 0 990 7) = Some 1. Proof. by vm_compute. Qed.
Example insert_near_front : wrote 1000 (dq_insert 0 10 7) = Some 2. Proof. by vm_compute. Qed.
Example erase_near_front : wrote 1000 (dq_erase_at 10) = Some 1. Proof. by vm_compute. Qed.
Example erase_last : wrote 1000 (dq_erase_at 999) = Some 8. Proof. by vm_compute. Qed.
