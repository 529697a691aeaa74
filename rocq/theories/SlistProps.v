(** Properties C26, C61: the singly linked list. *)
From Verif Require Import Base Wp History BidlistSpec SlistModel SlistSpec SlistProofs.
Open Scope nat_scope.

(** C26: every history of calls whose node arguments are right (SlistSpec.s_safe) gives the results
    of the node sequences; afterwards the length, the first and last node and the traversal of every
    list agree with its sequence. *)
Theorem slist_is_sequence {T} (zero : T) ops : s_safe_run zero ops ss0 →
  match srun (s_spec zero) ops ss0 with
  | Some (rs, s) =>
      ∃ w, run (s_step zero) ops sworld0 = Ok (rs, w) ∧
           ∀ l ps, ss_lists s !! l = Some ps →
             s_Len l w = Ok (Z.of_nat (length ps), w) ∧ s_FrontNode l w = Ok (head ps, w) ∧ s_BackNode l w = Ok (last ps, w) ∧
             ∀ fuel visitor, length ps ≤ fuel → s_Traversal visitor fuel l w = Ok (upto visitor (s_vals_of s ps), w)
  | None => run (s_step zero) ops sworld0 = Panic
  end.
Proof.
  intros Hs. pose proof (s_history_from zero ops sworld0 ss0 srel_0 Hs) as H. destruct (srun (s_spec zero) ops ss0) as [[rs s]|]; [|done].
  destruct H as (w & E & H). exists w. split; [done|]. intros l ps Hl. pose proof (sl_ok w l _ (sr_list _ _ _ _ H Hl)) as El.
  assert (s_FrontNode l w = Ok (head ps, w)) as Ef by (unfold s_FrontNode, mbind_; by rewrite El).
  split_and!; [unfold s_Len, mbind_; by rewrite El|done|unfold s_BackNode, mbind_; by rewrite El|].
  intros fuel v Hf. unfold s_Traversal, mbind_. rewrite Ef. by apply (straverse_ok v w s l []).
Qed.
Print Assumptions slist_is_sequence.
(** a history that moves and removes first, inner and last nodes of two lists *)
Definition demo_s : list (s_op Z) :=
  [SNew; SNew; SPushBack 0 1%Z; SPushBack 0 2%Z; SPushFront 0 0%Z; SPushFront 1 9%Z; SInsertAfter 0 7%Z (Some 1); SInsertAfter 0 5%Z (Some 0);
   SMoveToFront 0 (Some 1) (Some 4); SMoveToBack 0 None (Some 4); SMoveToBack 0 (Some 2) (Some 0); SMoveToFront 0 (Some 4) (Some 0);
   SRemove 0 None (Some 0); SRemove 0 (Some 1) (Some 4); SRemove 0 (Some 2) (Some 5); SRemove 1 None (Some 3); SLen 0; SFrontNode 0; SBackNode 0; SNext (Some 2); SLen 1; SFrontNode 1; SBackNode 1].
Lemma s_safe_step {T} (zero : T) o ops s r s' : s_spec zero o s = Some (r, s') → s_safe o s → s_safe_run zero ops s' → s_safe_run zero (o :: ops) s.
Proof. intros E H H'. cbn [s_safe_run]. by rewrite E. Qed.
Ltac s_safe_tac := cbn [s_safe]; unfold s_right; cbn [ss_lists ss_vals];
  repeat match goal with
  | |- True => exact I
  | |- _ ∧ _ => split
  | |- is_Some _ => vm_compute; eexists; reflexivity
  | |- ∃ ps, _ !! _ = Some ps ∧ _ => eexists; split; [vm_compute; reflexivity|]
  | |- _ = pred_in _ _ => vm_compute; reflexivity
  | |- ∀ a, Some _ = Some a → _ => intros ? [= <-]
  | |- ∀ a, None = Some a → _ => intros ? [=]
  | |- _ ∈ _ => repeat (first [apply elem_of_list_here | apply elem_of_list_further])
  | |- ∃ l ps, _ => (exists 0); eexists
  | |- _ !! _ = Some _ => vm_compute; reflexivity
  end.
Example slist_example :
  s_safe_run 0%Z demo_s ss0 ∧
  (drop 12 <$> (fst <$> srun (s_spec 0%Z) demo_s ss0)) =
    Some [SVal 1%Z; SVal 7%Z; SVal 5%Z; SVal 9%Z; SInt 2%Z; SPtr (Some 2); SPtr (Some 1); SPtr (Some 1); SInt 0%Z; SPtr None; SPtr None].
Proof.
  split; [|vm_compute; reflexivity]. unfold demo_s, ss0.
  do 23 (simple eapply s_safe_step; [vm_compute; reflexivity|s_safe_tac|]). exact I.
Qed.

(** MoveToFront with a predecessor that is not the node before n does nothing. *)
Theorem slist_move_to_front_guard {T} (w : sworld T) l pre n x :
  sw_nodes w !! pre = Some x → sn_next x ≠ n → s_MoveToFront l (Some pre) n w = Ok (tt, w).
Proof.
  intros Hx Hn. unfold s_MoveToFront, speq, mbind_. rewrite (bool_decide_eq_false_2 (Some pre = None)) by done. rewrite (sn_ok w pre x Hx).
  rewrite (bool_decide_eq_false_2 (sn_next x = n)) by done. done.
Qed.
Print Assumptions slist_move_to_front_guard.

(** C61 is false: InsertAfter never looks whether the mark is in the list, so a mark of another list
    makes the two lists' lengths and contents disagree. *)
Theorem slist_foreign_mark_refuted {T} (zero x y z : T) :
  (∃ w, run (s_step zero) [SNew; SNew; SPushBack 0 x; SPushBack 1 y; SInsertAfter 0 z (Some 1); SLen 0; SLen 1; SBackNode 0; SBackNode 1; SNext (Some 1); SNext (Some 0)] sworld0
        = Ok ([SList 0; SList 1; SUnit; SUnit; SPtr (Some 2); SInt 2%Z; SInt 1%Z; SPtr (Some 2); SPtr (Some 1); SPtr (Some 2); SPtr None], w) ∧
       s_Traversal (λ _, true) 10 0 w = Ok ([x], w) ∧ s_Traversal (λ _, true) 10 1 w = Ok ([y; z], w)).
Proof. eexists. split; [vm_compute; reflexivity|]. split; vm_compute; reflexivity. Qed.
Print Assumptions slist_foreign_mark_refuted.
(** what holds: given a node of the list, InsertAfter puts the new node right after it and touches no
    other list *)
Theorem slist_insert_after_partial {T} (zero : T) ops s l ps m x : s_safe_run zero ops ss0 → (∃ rs, srun (s_spec zero) ops ss0 = Some (rs, s)) →
  ss_lists s !! l = Some ps → m ∈ ps → ∃ w w' n, (∃ rs, run (s_step zero) ops sworld0 = Ok (rs, w)) ∧ s_InsertAfter l x (Some m) w = Ok (Some n, w') ∧ ss_vals s !! n = None ∧
    (∀ fuel, length ps < fuel → s_Traversal (λ _, true) fuel l w' = Ok (s_vals_of (MkSs [] (ss_vals s ++ [x])) (ins_after m n ps), w')) ∧
    ∀ j qs fuel, j ≠ l → ss_lists s !! j = Some qs → length qs ≤ fuel → s_Traversal (λ _, true) fuel j w' = Ok (s_vals_of s qs, w').
Proof.
  intros Hs (rs & E) Hl Hm. pose proof (s_history_from zero ops sworld0 ss0 srel_0 Hs) as H. rewrite E in H. destruct H as (w & Ew & H).
  pose proof (InsertAfter_ok w s l ps m x H Hl Hm) as W. apply wp_Ok in W as (r & w' & Er & -> & H'). exists w, w', (s_fresh s). split; [by exists rs|]. split; [done|]. split; [by apply lookup_ge_None_2|].
  assert (∀ xs : list T, upto (λ _, true) xs = xs) as Hup by (induction xs; cbn; congruence). split.
  - intros fuel Hf. assert (ss_lists (s_add s l x (ins_after m (s_fresh s) ps)) !! l = Some (ins_after m (s_fresh s) ps)) as Hl' by (cbn; apply list_lookup_insert; by eapply lookup_lt_Some).
    unfold s_Traversal, s_FrontNode, mbind_. rewrite (sl_ok w' l _ (sr_list _ _ _ _ H' Hl')). cbn [sbl sl_head mret_]. unfold mret_. rewrite (straverse_ok (λ _, true) w' _ l [] _ H' Hl'); [by rewrite Hup|].
    destruct (sr_lists _ _ H l ps Hl) as [_ Hnd]. destruct (BidlistProofs.elem_split m ps Hm) as (p & q & ->). rewrite BidlistProofs.ins_after_split by done. rewrite app_length in *. cbn in *. lia.
  - intros j qs fuel Hne Hj Hf. assert (ss_lists (s_add s l x (ins_after m (s_fresh s) ps)) !! j = Some qs) as Hj' by (cbn; by rewrite list_lookup_insert_ne).
    unfold s_Traversal, s_FrontNode, mbind_. rewrite (sl_ok w' j _ (sr_list _ _ _ _ H' Hj')). cbn [sbl sl_head]. unfold mret_. rewrite (straverse_ok (λ _, true) w' _ j [] _ H' Hj') by done. rewrite Hup.
    f_equal. f_equal. assert (Forall (λ a, a < length (ss_vals s)) qs) as Hf2.
    { apply Forall_forall. intros a Ha. destruct (sr_elem _ _ _ _ _ H Hj Ha) as [v Hv]. by eapply lookup_lt_Some. }
    clear -Hf2. unfold s_vals_of. cbn. induction Hf2 as [|a qs Ha _ IH]; [done|]. cbn. rewrite lookup_app_l by done. by rewrite IH.
Qed.
Print Assumptions slist_insert_after_partial.
