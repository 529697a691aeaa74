(** C38, C39: priority queue and heap. *)
From Verif Require Import Base History ListLib HeapModel HeapSpec HeapProofs.
From Coq Require Import Sorted.
Open Scope Z_scope.

Section props.
  Context {T : Type}.

  (** [pq_exec cmp ops s rs s']: the calls [ops] on contents s may return rs and leave s' *)
  Inductive pq_exec (cmp : T → T → Z) : list (pq_op T) → list T → list (pq_out T) → list T → Prop :=
  | pq_exec_nil s : pq_exec cmp [] s [] s
  | pq_exec_cons o ops s r s1 rs s2 :
      pq_allows cmp o s r s1 → pq_exec cmp ops s1 rs s2 → pq_exec cmp (o :: ops) s (r :: rs) s2.

  Lemma pq_run_gen (cmp : T → T → Z) (OK : CmpOK cmp) ops l s : pq_rel cmp l s →
    match run (pq_step cmp) ops l with
    | Ok (rs, l') => ∃ s', pq_exec cmp ops s rs s' ∧ pq_rel cmp l' s'
    | Panic => ∃ pre o post rs s', ops = pre ++ o :: post ∧ pq_exec cmp pre s rs s' ∧ pq_panics o s'
    | Fuel => False
    end.
  Proof.
    revert l s. induction ops as [|o ops IH]; intros l s Hrel; cbn [run].
    - exists s. split; [constructor|done].
    - destruct (pq_step_ok cmp OK o l s Hrel) as [[Hp ->]|(r & l' & s' & -> & Ha & Hrel')].
      + exists [], o, ops, [], s. split_and!; [done|constructor|done].
      + specialize (IH l' s' Hrel'). destruct (run (pq_step cmp) ops l') as [[rs l'']| |].
        * destruct IH as (s'' & ? & ?). exists s''. split; [by econstructor|done].
        * destruct IH as (pre & o' & post & rs & s'' & -> & ? & ?). exists (o :: pre), o', post, (r :: rs), s''.
          split_and!; [done|by econstructor|done].
        * done.
  Qed.

  (** C38, history form: every history of calls on a new queue behaves as a multiset whose Pop and
      Top give a least element; a run stops early only at a Pop or Top of the empty queue. *)
  Theorem priority_queue_is_ordered_bag (cmp : T → T → Z) (OK : CmpOK cmp) (ops : list (pq_op T)) :
    match run (pq_step cmp) ops [] with
    | Ok (rs, l) => ∃ s, pq_exec cmp ops [] rs s ∧ l ≡ₚ s
    | Panic => ∃ pre o post rs s, ops = pre ++ o :: post ∧ pq_exec cmp pre [] rs s ∧ pq_panics o s
    | Fuel => False
    end.
  Proof.
    pose proof (pq_run_gen cmp OK ops [] []) as H.
    destruct (run (pq_step cmp) ops []) as [[rs l]| |]; [|apply H|apply H];
      try (split; [intros k x y _ Hx; by rewrite lookup_nil in Hx|done]).
    destruct H as (s & ? & _ & ?); [split; [intros k x y _ Hx; by rewrite lookup_nil in Hx|done]|]. eauto.
  Qed.

  (** Pushing the elements of xs and popping as many times yields a sorted permutation of xs. *)
  Theorem priority_queue_sorts (cmp : T → T → Z) (OK : CmpOK cmp) (xs : list T) :
    ∃ ys l, run (pq_step cmp) ((PPush <$> xs) ++ replicate (length xs) PPop) []
            = Ok (replicate (length xs) PUnit ++ (PVal <$> ys), l) ∧ l = [] ∧ ys ≡ₚ xs ∧
            StronglySorted (λ a b, cmp a b <= 0) ys.
  Proof.
    assert (∀ n l, is_heap cmp l → length l = n → ∃ ys, run (pq_step cmp) (replicate n PPop) l = Ok (PVal <$> ys, []) ∧
      ys ≡ₚ l ∧ StronglySorted (λ a b, cmp a b <= 0) ys) as Hpop.
    { induction n as [|n IH]; intros l Hh Hl.
      - destruct l; [|done]. exists []. split_and!; [done|done|constructor].
      - destruct (heap_pop_ok cmp OK l Hh) as (x & l' & E & Hp & Hh' & Hx & Hle); [by intros ->|].
        destruct (IH l' Hh') as (ys & E' & Hp' & Hs). { apply Permutation_length in Hp. cbn in Hp. lia. }
        exists (x :: ys). cbn [replicate run pq_step]. unfold mbind_, mret_. rewrite E, E'. split_and!; [done| |].
        + by rewrite Hp', Hp.
        + constructor; [done|]. apply Forall_forall. intros y Hy. apply Hle. rewrite Hp, <-Hp'. by right. }
    assert (∀ xs l, is_heap cmp l → ∃ l', is_heap cmp l' ∧ l' ≡ₚ xs ++ l ∧ ∀ ops, run (pq_step cmp) ((PPush <$> xs) ++ ops) l =
      match run (pq_step cmp) ops l' with Ok (rs, l'') => Ok (replicate (length xs) PUnit ++ rs, l'') | Panic => Panic | Fuel => Fuel end) as Hpush.
    { clear xs. induction xs as [|x xs IH]; intros l Hh.
      - exists l. split_and!; [done|done|]. intros ops. cbn. by destruct (run _ _ _) as [[? ?]| |].
      - destruct (heap_push_ok cmp OK l x Hh) as (l1 & E1 & Hp1 & Hh1). destruct (IH l1 Hh1) as (l' & Hh' & Hp' & E').
        exists l'. split_and!; [done| |].
        + rewrite Hp', Hp1. by rewrite <-Permutation_middle.
        + intros ops. cbn [fmap list_fmap app run pq_step]. unfold mbind_, mret_. rewrite E1, E'.
          by destruct (run _ ops l') as [[? ?]| |]. }
    destruct (Hpush xs []) as (l' & Hh' & Hp' & E'); [intros k x y _ Hx; by rewrite lookup_nil in Hx|].
    rewrite app_nil_r in Hp'. destruct (Hpop (length xs) l' Hh') as (ys & E & Hp & Hs); [by apply Permutation_length|].
    exists ys, []. rewrite E', E. split_and!; [done|done|by rewrite Hp|done].
  Qed.

  (** C39 *)
  Theorem heap_init_establishes (cmp : T → T → Z) (OK : CmpOK cmp) (l : list T) :
    ∃ l', h_init cmp l = Ok (tt, l') ∧ l' ≡ₚ l ∧ is_heap cmp l'.
  Proof. by apply h_init_ok. Qed.
  Theorem heap_remove_any (cmp : T → T → Z) (OK : CmpOK cmp) (l : list T) (i : nat) (x : T) :
    is_heap cmp l → l !! i = Some x →
    ∃ l', heap_remove cmp (Z.of_nat i) l = Ok (x, l') ∧ l ≡ₚ x :: l' ∧ is_heap cmp l'.
  Proof. by apply heap_remove_ok. Qed.
  Theorem heap_fix_after_change (cmp : T → T → Z) (OK : CmpOK cmp) (l : list T) (i : nat) (x : T) :
    is_heap cmp l → (i < length l)%nat →
    ∃ l', heap_fix cmp (Z.of_nat i) (<[i := x]> l) = Ok (tt, l') ∧ l' ≡ₚ <[i := x]> l ∧ is_heap cmp l'.
  Proof. by apply heap_fix_ok. Qed.
  (** Push and Pop on a heap; Pop of the empty heap panics. *)
  Theorem heap_push_pop (cmp : T → T → Z) (OK : CmpOK cmp) (l : list T) (x : T) :
    is_heap cmp l →
    (∃ l', heap_push cmp x l = Ok (tt, l') ∧ l' ≡ₚ x :: l ∧ is_heap cmp l') ∧
    (l ≠ [] → ∃ y l', heap_pop cmp l = Ok (y, l') ∧ l ≡ₚ y :: l' ∧ is_heap cmp l' ∧ least cmp y l) ∧
    (l = [] → heap_pop cmp l = Panic).
  Proof.
    intros Hh. split_and!; [by apply heap_push_ok|intros; by apply heap_pop_ok|by intros ->].
  Qed.
End props.

Example ex_sub_ok : CmpOK Z.sub.
Proof. split; intros; lia. Qed.
Example ex_pq : ∃ l, run (pq_step Z.sub) [PPush 3; PPush 1; PPush 2; PPush 1; PTop; PPop; PPop; PSize; PPop] []
  = Ok ([PUnit; PUnit; PUnit; PUnit; PVal 1; PVal 1; PVal 1; PInt 2; PVal 2], l).
Proof. eexists. vm_compute. reflexivity. Qed.
Example ex_heap : is_heap Z.sub [1; 3; 2; 4; 5; 9].
Proof.
  intros k x y Hk Hx Hy. destruct k as [|[|[|[|[|[|k]]]]]]; [lia|..|done]; vm_compute in Hx, Hy; simplify_eq; lia.
Qed.
Example ex_remove : heap_remove Z.sub 1 [1; 3; 2; 4; 5; 9] = Ok (3, [1; 4; 2; 9; 5]).
Proof. reflexivity. Qed.

Print Assumptions priority_queue_is_ordered_bag.
Print Assumptions priority_queue_sorts.
Print Assumptions heap_init_establishes.
Print Assumptions heap_remove_any.
Print Assumptions heap_fix_after_change.
Print Assumptions heap_push_pop.
