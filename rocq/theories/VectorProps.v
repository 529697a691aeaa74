(** Properties C12, C13: vector.  [zero] is the element type's zero value, [grow] the arbitrary
    capacity policy of append. *)
From Verif Require Import Base History GoSliceModel VectorModel VectorSpec VectorProofs.
Open Scope Z_scope.

(** C12: every history over any number of vectors gives the results of mathematical sequences,
    panics exactly where the specification says, and the final contents (as read with At and
    Size) are those sequences. *)
Theorem vector_is_sequence {T} (zero : T) grow (ops : list (v_op T)) :
  match srun v_spec ops [] with
  | Some (rs, ls) =>
      ∃ w, run (v_step zero grow) ops world0 = Ok (rs, w) ∧
           ∀ v l, ls !! v = Some l →
             v_size v w = Ok (Z.of_nat (length l), w) ∧
             ∀ i, v_at v i w = match nth_ l i with Some x => Ok (x, w) | None => Panic end
  | None => run (v_step zero grow) ops world0 = Panic
  end.
Proof.
  pose proof (v_history zero grow ops) as H. unfold agrees in H. destruct (srun v_spec ops []) as [[rs ls]|]; [|done].
  destruct H as (w & E & R). exists w. split; [done|]. intros v l Hl. by eapply v_obs.
Qed.
Print Assumptions vector_is_sequence.
Example vector_example :
  srun v_spec [VNew 1; VPushBack 0 7; VPushBack 0 8; VInsertAt 0 1 9; VFrom 0; VEraseAt 0 0; VEraseRange 1 (1%nat, 1) (1%nat, 3); VAt 0 0; VPopBack 1; VSetAt 0 5 1; VSize 0] []
  = Some ([VVec 0; VUnit; VUnit; VUnit; VVec 1; VUnit; VIter (1%nat, 1); VVal 9; VVal 7; VUnit; VInt 2], [[9; 8]; []]).
Proof. vm_compute. reflexivity. Qed.

(** C13, independence: calls that do not name vector v leave every observation of v unchanged,
    in particular calls on a copy of v and, conversely, on the original. *)
Theorem vector_independence {T} (zero : T) grow ops rs w more rs' w' v n :
  run (v_step zero grow) ops world0 = Ok (rs, w) →
  run (v_step zero grow) more w = Ok (rs', w') →
  Forall (fun o => v_target o ≠ Some v) more →
  v_size v w = Ok (n, w) →
  v_size v w' = Ok (n, w') ∧
  ∀ i x, v_at v i w = Ok (x, w) ↔ v_at v i w' = Ok (x, w').
Proof.
  intros E E' HF Hn. destruct (v_reach zero grow _ _ _ E) as (ls & _ & R).
  destruct (ls !! v) as [l|] eqn:Hl.
  2: { unfold v_size, mbind_, data in Hn. by rewrite (rel_lookup_None zero grow _ _ _ R Hl) in Hn. }
  pose proof (v_run_agrees zero grow w ls more R) as HA. unfold agrees in HA.
  destruct (srun v_spec more ls) as [[rs2 ls']|] eqn:Es; [|by rewrite E' in HA].
  destruct HA as (w2 & E2 & R'). rewrite E' in E2. simplify_eq.
  pose proof (v_srun_frame zero grow _ _ _ _ _ _ Es HF Hl) as Hl'.
  destruct (v_obs zero grow _ _ _ _ R Hl) as [O1 O2]. destruct (v_obs zero grow _ _ _ _ R' Hl') as [O1' O2'].
  split; [congruence|]. intros i x. rewrite O2, O2'. destruct (nth_ l i); naive_solver.
Qed.
Print Assumptions vector_independence.
(** C13, the copy: NewFromVector gives a new vector with the same contents. *)
Theorem vector_copy {T} (zero : T) grow ops rs w v n :
  run (v_step zero grow) ops world0 = Ok (rs, w) → v_size v w = Ok (n, w) →
  ∃ c w', v_from zero v w = Ok (c, w') ∧ c ≠ v ∧ v_size c w' = Ok (n, w') ∧ v_size v w' = Ok (n, w') ∧
    ∀ i x, (v_at v i w = Ok (x, w) ↔ v_at c i w' = Ok (x, w')) ∧ (v_at v i w = Ok (x, w) ↔ v_at v i w' = Ok (x, w')).
Proof.
  intros E Hn. destruct (v_reach zero grow _ _ _ E) as (ls & _ & R).
  destruct (ls !! v) as [l|] eqn:Hl.
  2: { unfold v_size, mbind_, data in Hn. by rewrite (rel_lookup_None zero grow _ _ _ R Hl) in Hn. }
  pose proof (v_step_agrees zero grow (VFrom v) w ls I R) as HA. unfold agrees in HA. simpl in HA. rewrite Hl in HA. simpl in HA.
  destruct HA as (w' & E' & R'). unfold omap_, mbind_ in E'. destruct (v_from zero v w) as [[c w1]| |]; simplify_eq/=.
  unfold mret_ in E'. simplify_eq. exists (length ls), w'. pose proof (lookup_lt_Some _ _ _ Hl).
  assert ((ls ++ [l]) !! v = Some l) as Hv by (by rewrite lookup_app_l).
  assert ((ls ++ [l]) !! length ls = Some l) as Hc by (by apply list_lookup_middle).
  destruct (v_obs zero grow _ _ _ _ R Hl) as [O1 O2]. destruct (v_obs zero grow _ _ _ _ R' Hv) as [O1' O2'].
  destruct (v_obs zero grow _ _ _ _ R' Hc) as [O1'' O2''].
  split_and!; [done|lia|congruence|congruence|]. intros i x. rewrite O2, O2', O2''. destruct (nth_ l i); naive_solver.
Qed.
Print Assumptions vector_copy.
(** C13, capacity: in every reachable state Capacity >= Size, Reserve(n) reaches n and never
    lowers the capacity, ShrinkToFit makes Capacity = Size; neither changes any contents. *)
Theorem vector_capacity {T} (zero : T) grow ops rs w v n :
  run (v_step zero grow) ops world0 = Ok (rs, w) → v_size v w = Ok (n, w) →
  ∃ c, v_capacity v w = Ok (c, w) ∧ n <= c ∧
    (∀ k, ∃ w' c', v_reserve zero v k w = Ok (tt, w') ∧ v_capacity v w' = Ok (c', w') ∧ k <= c' ∧ c <= c' ∧
       ∀ u i x, v_at u i w = Ok (x, w) ↔ v_at u i w' = Ok (x, w')) ∧
    ∃ w', v_shrink_to_fit zero v w = Ok (tt, w') ∧ v_capacity v w' = Ok (n, w') ∧
       ∀ u i x, v_at u i w = Ok (x, w) ↔ v_at u i w' = Ok (x, w').
Proof.
  intros E Hn. destruct (v_reach zero grow _ _ _ E) as (ls & _ & R).
  destruct (ls !! v) as [l|] eqn:Hl.
  2: { unfold v_size, mbind_, data in Hn. by rewrite (rel_lookup_None zero grow _ _ _ R Hl) in Hn. }
  assert (∀ w', v_rel w' ls → ∀ u i x, v_at u i w = Ok (x, w) ↔ v_at u i w' = Ok (x, w')) as Hobs.
  { intros w' R' u i x. destruct (ls !! u) as [lu|] eqn:Hu.
    - destruct (v_obs zero grow _ _ _ _ R Hu) as [_ ->]. destruct (v_obs zero grow _ _ _ _ R' Hu) as [_ ->].
      destruct (nth_ lu i); naive_solver.
    - unfold v_at, mbind_, data. by rewrite (rel_lookup_None zero grow _ _ _ R Hu), (rel_lookup_None zero grow _ _ _ R' Hu). }
  destruct (v_obs zero grow _ _ _ _ R Hl) as [O1 _]. rewrite O1 in Hn. simplify_eq.
  destruct (v_cap_ok zero grow _ _ _ _ R Hl) as (c & ? & ? & HR & w' & ? & ? & ?).
  exists c. split_and!; [done|done| |].
  - intros k. destruct (HR k) as (w1 & c1 & ? & ? & ? & ? & ?). exists w1, c1. split_and!; auto.
  - exists w'. split_and!; auto.
Qed.
Print Assumptions vector_capacity.
Example vector_reachable :
  match run (v_step 0 (fun _ n => n)) [VNew 0; VPushBack 0 5; VPushBack 0 6; VPushBack 0 7; VFrom 0; VSetAt 1 0 9] world0 with
  | Ok (_, w) => (match v_size 0 w, v_capacity 0 w, v_at 0 0 w, v_at 1 0 w with
                  | Ok (a, _), Ok (b, _), Ok (c, _), Ok (d, _) => Some (a, b, c, d) | _, _, _, _ => None end)
  | _ => None end = Some (3, 6, 5, 9).
Proof. vm_compute. reflexivity. Qed.
