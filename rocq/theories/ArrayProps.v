(** Property C14: fixed-size array. *)
From Verif Require Import Base History GoSliceModel VectorModel ArrayModel ArraySpec ArrayProofs.
Open Scope Z_scope.

(** C14: every history over any number of arrays gives the results of mathematical sequences
    (independent of each other), panics exactly where the specification says. *)
Theorem array_is_fixed_sequence {T} (zero : T) (ops : list (a_op T)) :
  match srun (a_spec zero) ops [] with
  | Some (rs, ls) =>
      ∃ w, run (a_step zero) ops world0 = Ok (rs, w) ∧
           ∀ a l, ls !! a = Some l →
             a_size a w = Ok (Z.of_nat (length l), w) ∧
             ∀ i, a_at a i w = match a_nth l i with Some x => Ok (x, w) | None => Panic end
  | None => run (a_step zero) ops world0 = Panic
  end.
Proof.
  pose proof (a_history zero ops) as H. unfold agrees in H. destruct (srun (a_spec zero) ops []) as [[rs ls]|]; [|done].
  destruct H as (w & E & R). exists w. split; [done|]. intros a l Hl. by apply (a_obs zero w ls).
Qed.
Print Assumptions array_is_fixed_sequence.
Example array_example :
  srun (a_spec 0) [ANew 2; ASet 0 1 7; AFrom 0; ASet 1 0 5; ASwap 0 1; AAt 0 0; AAt 1 0; AFill 1 3; ABack 1; ANew 3; ASwap 1 2; ASet 1 9 1] []
  = Some ([AArr 0; AUnit; AArr 1; AUnit; AUnit; AVal 5; AVal 0; AUnit; AVal 3; AArr 2; AUnit; AUnit], [[5; 7]; [3; 3]; [0; 0; 0]]).
Proof. vm_compute. reflexivity. Qed.

(** C14: the size of an existing array never changes. *)
Theorem array_size_constant {T} (zero : T) ops more rs w rs' w' a n :
  run (a_step zero) ops world0 = Ok (rs, w) → run (a_step zero) more w = Ok (rs', w') →
  a_size a w = Ok (n, w) → a_size a w' = Ok (n, w').
Proof. exact (a_size_const zero ops more rs w rs' w' a n). Qed.
Print Assumptions array_size_constant.
