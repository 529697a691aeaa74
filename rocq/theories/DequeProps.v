(** Properties C16 (deque), C17, C18. *)
From Verif Require Import Base History DequeModel DequeSpec DequeOps DequeHist IterModel IterSpec IterProps.
Open Scope Z_scope.

(** C17: every history gives the results of the sequence and panics exactly where the sequence
    has no answer (pops, Front, Back and At outside the sequence); after every panic-free history
    Size, Empty, At, Front and Back are those of the sequence. *)
Theorem deque_is_sequence {T} (zero : T) (ops : list (dq_op T)) :
  match srun dq_spec ops [] with
  | Some (rs, l) =>
      ∃ d, run (dq_step zero) ops dq_new = Ok (rs, d) ∧
           dq_Size d = Ok (Z.of_nat (length l), d) ∧ dq_Empty d = Ok (bool_decide (l = []), d) ∧
           (∀ i, dq_at i d = match dq_nth l i with Some x => Ok (x, d) | None => Panic end) ∧
           dq_front d = match head l with Some x => Ok (x, d) | None => Panic end ∧
           dq_back d = match last l with Some x => Ok (x, d) | None => Panic end
  | None => run (dq_step zero) ops dq_new = Panic
  end.
Proof.
  pose proof (dq_history zero ops) as H. unfold agrees in H. destruct (srun dq_spec ops []) as [[rs l]|]; [|done].
  destruct H as (d & E & R). exists d. split; [done|]. pose proof (deque_ra_law (T := T) 0) as L. split_and!.
  - exact (ra_size _ _ _ _ _ L _ _ R).
  - unfold dq_Empty, dget, mbind_, mret_. rewrite (DequeOps4.size_dq _ _ R). by destruct l.
  - intros i. exact (ra_at _ _ _ _ _ L _ _ i R).
  - by apply DequeOps2.front_dq.
  - by apply DequeOps2.back_dq.
Qed.
Print Assumptions deque_is_sequence.

(** a history crossing segment boundaries, moving both halves on insertion and erasure, and
    shrinking the table *)
Definition demo_ops : list (dq_op Z) :=
  map DPushBack (map Z.of_nat (seq 0 300)) ++ map DPushFront (map Z.of_nat (seq 0 300)) ++
  [DInsert 130 (-1); DInsert 470 (-2); DAt 130; DAt 470; DEraseAt 5; DEraseAt 500; DAt 129; DAt 469] ++
  [DEraseRange 10 500; DSize; DFront; DBack; DSet 3 77; DAt 3; DSet 500 1; DInsert 900 1; DPopFront; DPopBack; DClear; DEmpty].
Example deque_example :
  (drop 600 <$> (fst <$> srun dq_spec demo_ops [])) =
    Some [DUnit; DUnit; DVal (-1); DVal (-2); DUnit; DUnit; DVal (-1); DVal (-2); DUnit; DInt 110; DVal 299; DVal 299;
          DBool true; DVal 77; DBool false; DUnit; DVal 299; DVal 299; DUnit; DBool true].
Proof. vm_compute. reflexivity. Qed.

(** C18: the memory reachable from a deque is linear in its size. *)
Theorem deque_storage {T} (zero : T) ops rs d n :
  run (dq_step zero) ops dq_new = Ok (rs, d) → dq_Size d = Ok (Z.of_nat n, d) →
  (dq_live d <= n / 128 + 2)%nat ∧ (dq_slots d <= 2 `max` (24 * dq_live d / 10))%nat ∧
  (dq_pooled d <= dq_live d + 1)%nat ∧ (n = 0%nat → dq_live d = 0%nat).
Proof.
  intros E Hn. destruct (dq_reach zero _ _ _ E) as (l & _ & R).
  pose proof (ra_size _ _ _ _ _ (deque_ra_law (T := T) 0) _ _ R) as Hs. rewrite Hs in Hn. injection Hn as Hn. apply Nat2Z.inj in Hn as <-.
  destruct (storage_dq d l R) as (H1 & H2 & H3 & H4). split_and!; try done. intros H0. apply H4. by destruct l.
Qed.
Print Assumptions deque_storage.
(** every live segment has room for 128 elements: the constant of the bound *)
Example deque_storage_example :
  match run (dq_step 0%Z) (map DPushBack (map Z.of_nat (seq 0 1000)) ++ repeat DPopFront 900) dq_new with
  | Ok (_, d) => (dq_size d, dq_live d, dq_slots d, dq_pooled d)
  | _ => (0%Z, 0, 0, 0)%nat
  end = (100%Z, 1, 2, 2)%nat.
Proof. vm_compute. reflexivity. Qed.

(** C16 for the deque: it obeys the law of [random_access_iterators], and every reachable deque
    holds a sequence. *)
Theorem deque_iterators {T} (zero : T) ops rs d o :
  run (dq_step zero) ops dq_new = Ok (rs, d) →
  ra_law (W := deque T) (λ _, dq_Size) (λ _, dq_at) (λ _ i x, dq_set i x ;; mret_ tt)%go o dinv ∧
  ∃ l, srun dq_spec ops [] = Some (rs, l) ∧ dinv d l.
Proof. intros E. split; [apply deque_ra_law|]. by apply (dq_reach zero). Qed.
Print Assumptions deque_iterators.
