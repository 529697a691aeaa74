(** Concrete executions: the hypotheses of the theorems of ConcProps and ConcInst are met by calls
    that overlap and wait for each other, and the conclusion fails without the lock. *)
From Verif Require Import Base History ConcModel ConcSpec ConcProofs ConcProps ConcTables ConcInst ConcPlay DequeModel DequeSpec AdapterModel AdapterSpec.
Open Scope Z_scope.

(** a queue: Push 7 (call 0) waits for Size (call 2), Pop (call 1) waits for both *)
Notation qmethod := (guarded queue_lock (whole (q_step (deque_container 0)))).
Example overlap : ∃ c, execution qmethod deque_start
  [EInv 2%nat QSize; EInv 0%nat (QPush 7); EInv 1%nat QPop; ERet 2%nat (Some (AInt 0)); ERet 0%nat (Some AUnit); ERet 1%nat (Some (AVal 7))] c.
Proof.
  apply (history_sound qmethod _ [ACall 2 QSize; AStep 2; ACall 0 (QPush 7); AStep 0; ACall 1 QPop; AStep 2; AStep 2; ARet 2; AStep 0; AStep 0; AStep 0; AStep 1; AStep 1; AStep 1; AStep 1; ARet 0; ARet 1]).
  vm_compute. reflexivity.
Qed.
Example overlap_linearizable : ∃ L, linearizes
  [EInv 2%nat QSize; EInv 0%nat (QPush 7); EInv 1%nat QPop; ERet 2%nat (Some (AInt 0)); ERet 0%nat (Some AUnit); ERet 1%nat (Some (AVal 7))] L ∧ legal (by_spec q_spec) L [].
Proof.
  destruct overlap as [c Hc]. destruct (bodies_exist queue_lock (q_step (deque_container 0)) (proj1 (queue_readers_read 0))) as [H1 H2].
  by apply (deque_queue_linearizable 0 _ _ c H1 H2).
Qed.

(** a counter: Inc returns the old value; its body reads and writes in two steps *)
Definition inc_body (_ : unit) : prog Z (option Z) := PAct id (λ s, PAct (λ _, s + 1) (λ _, PDone (Some s))).
Definition inc_spec (_ : unit) (n : Z) : option (Z * Z) := Some (n, n + 1).
Example counter_linearizable h c : execution (guarded (λ _, Wr) inc_body) 0 h c → ∃ L, linearizes h L ∧ legal (by_spec inc_spec) L 0.
Proof.
  intros H. refine (guarded_by_spec (λ _ s, Ok (s, s + 1)) inc_spec eq (λ _, True) (λ _, Wr) inc_body 0 0 h c _ eq_refl _ _ H _).
  - intros o s a _ ->. cbn. eauto.
  - by intros [] s.
  - intros o. done.
  - done.
Qed.
Lemma inc_legal (L : list (nat * unit * option Z)) a n i o r : legal (by_spec inc_spec) L a → L !! n = Some (i, o, r) → r = Some (a + Z.of_nat n).
Proof.
  revert a n. induction L as [|[[j o'] r'] L IH]; intros a n; cbn [legal]; [by rewrite lookup_nil|]. intros (a' & [-> ->] & Hl). destruct n as [|n]; cbn [lookup list_lookup].
  - intros [= <- <- <-]. f_equal. lia.
  - intros E. rewrite (IH _ _ Hl E). f_equal. lia.
Qed.
(** without the lock two increments may return the same value, which no sequence of increments does *)
Example unlocked_not_linearizable : ∃ h c, execution inc_body 0 h c ∧ ¬ ∃ L, linearizes h L ∧ legal (by_spec inc_spec) L 0.
Proof.
  exists [EInv 0%nat tt; EInv 1%nat tt; ERet 0%nat (Some 0); ERet 1%nat (Some 0)].
  destruct (history_sound inc_body 0 [ACall 0 tt; ACall 1 tt; AStep 0; AStep 1; AStep 0; AStep 1; ARet 0; ARet 1] [EInv 0%nat tt; EInv 1%nat tt; ERet 0%nat (Some 0); ERet 1%nat (Some 0)]) as [c Hc]; [vm_compute; reflexivity|].
  exists c. split; [done|]. intros (L & Hlin & Hleg). destruct (lin_returned _ _ Hlin 0%nat (Some 0)) as [o1 H1]; [do 2 right; left|]. destruct (lin_returned _ _ Hlin 1%nat (Some 0)) as [o2 H2]; [do 3 right; left|].
  apply elem_of_list_lookup in H1 as [n1 H1], H2 as [n2 H2]. pose proof (inc_legal _ _ _ _ _ _ Hleg H1) as [= E1]. pose proof (inc_legal _ _ _ _ _ _ Hleg H2) as [= E2].
  replace n1 with 0%nat in H1 by lia. replace n2 with 0%nat in H2 by lia. congruence.
Qed.
Print Assumptions unlocked_not_linearizable.
