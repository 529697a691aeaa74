(** Properties C21 - C25: the doubly linked list. *)
From Verif Require Import Base Wp History BidlistModel BidlistSpec BidlistCyc BidlistProofs BidlistOps BidlistHist.
Open Scope nat_scope.

(** the world reached from nothing by a safe history, with what it represents *)
Definition b_reach {T} (ops : list (b_op T)) (w : bworld T) (s : bs T) : Prop :=
  b_safe_run ops bs0 ∧ ∃ rs, run b_step ops bworld0 = Ok (rs, w) ∧ srun b_spec ops bs0 = Some (rs, s).
Lemma reach_rel {T} ops (w : bworld T) s : b_reach ops w s → brel w s.
Proof.
  intros (Hs & rs & E1 & E2). pose proof (b_history_from ops bworld0 bs0 brel_0 Hs) as H. rewrite E2 in H. cbn in H. destruct H as (w' & E & H). rewrite E1 in E. by simplify_eq.
Qed.

(** C21: every history of calls on a world of lists (within [b_safe_run]: see BidlistSpec.v) gives
    the results of the node sequences and panics exactly where they have no answer; afterwards every
    list's nodes are visited in order, in reverse order, and by Traversal up to the first refusal. *)
Theorem bidlist_is_sequence {T} (ops : list (b_op T)) : b_safe_run ops bs0 →
  match srun b_spec ops bs0 with
  | Some (rs, s) =>
      ∃ w, run b_step ops bworld0 = Ok (rs, w) ∧
           ∀ l ps, s_lists s !! l = Some ps →
             b_Len l w = Ok (Z.of_nat (length ps), w) ∧ b_FrontNode l w = Ok (head ps, w) ∧ b_BackNode l w = Ok (last ps, w) ∧
             ∀ fuel, length ps ≤ fuel →
               bi_walk bi_Next fuel (head ps) w = Ok (vals_of s ps, w) ∧
               bi_walk bi_Prev fuel (last ps) w = Ok (reverse (vals_of s ps), w) ∧
               ∀ visitor, b_Traversal visitor fuel l w = Ok (upto visitor (vals_of s ps), w)
  | None => run b_step ops bworld0 = Panic
  end.
Proof.
  intros Hs. pose proof (b_history_from ops bworld0 bs0 brel_0 Hs) as H. destruct (srun b_spec ops bs0) as [[rs s]|]; [|done].
  destruct H as (w & E & H). exists w. split; [done|]. intros l ps Hl. pose proof (ls_ok w l _ (br_list _ _ _ _ H Hl)) as El.
  assert (b_FrontNode l w = Ok (head ps, w)) as Ef by (unfold b_FrontNode, mbind_; by rewrite El).
  split_and!; [unfold b_Len, mbind_; by rewrite El|done|by apply BackNode_ok with s|].
  intros fuel Hf. split_and!.
  - by apply (walk_next_ok w s l []).
  - apply (walk_prev_ok w s l ps []); [done|by rewrite app_nil_r|done].
  - intros v. unfold b_Traversal, mbind_. rewrite Ef. by apply (traverse_ok v w s l []).
Qed.
Print Assumptions bidlist_is_sequence.

(** a safe history with every operation: two lists, removed nodes, foreign nodes, copies *)
Definition demo_b : list (b_op Z) :=
  [BNew; BNew; BPushBack 0 10%Z; BPushBack 0 11%Z; BPushFront 0 9%Z; BPushBack 1 20%Z; BInsertAfter 0 15%Z (Some 0); BInsertBefore 0 8%Z (Some 2);
   BMoveToBack 0 (Some 5); BMoveToFront 0 (Some 1); BMoveAfter 0 (Some 0) (Some 5); BRemove 0 (Some 4); BRemove 0 (Some 4); BInsertAfter 0 1%Z (Some 3);
   BRemove 0 (Some 3); BPushBackList 0 1; BPushFrontList 0 0; BNext (Some 6); BPrev (Some 6); BPopFront 0; BPopBack 0; BSetValue (Some 1) 7%Z;
   BFront 0; BBack 0; BLen 0; BClear 1; BEmpty 1; BFrontNode 0; BBackNode 0; BValue (Some 1)].
(** a checker for [b_safe_run], to evaluate examples *)
Definition b_safe_c {T} (o : b_op T) (s : bs T) : bool :=
  forallb (λ l, l <? length (s_lists s)) (lists_of o) &&
  forallb (λ n, match n with Some a => negb (existsb (Nat.eqb a) (s_cleared s)) | None => true end) (nodes_of o) &&
  match o with
  | BPushBackList l o | BPushFrontList l o => match s_lists s !! l with Some [] => match s_lists s !! o with Some [] => true | _ => false end | _ => true end
  | BMoveAfter l n m => match s_lists s !! l with Some ps => negb (bool_decide (head ps = n) && bool_decide (last ps = m) && negb (bool_decide (n = m))) | None => true end
  | _ => true
  end.
Fixpoint b_safe_run_c {T} (ops : list (b_op T)) (s : bs T) : bool :=
  match ops with
  | [] => true
  | o :: ops => b_safe_c o s && match b_spec o s with Some (_, s') => b_safe_run_c ops s' | None => true end
  end.
Lemma b_safe_c_ok {T} (o : b_op T) s : b_safe_c o s = true → b_safe o s.
Proof.
  unfold b_safe_c, b_safe. intros H. apply andb_prop in H as [H H3]. apply andb_prop in H as [H1 H2]. split_and!.
  - intros l Hl. rewrite forallb_forall in H1. apply elem_of_list_In in Hl. apply H1 in Hl. by apply Nat.ltb_lt.
  - intros a Ha Hc. rewrite forallb_forall in H2. apply elem_of_list_In in Ha. apply H2 in Ha. apply elem_of_list_In in Hc.
    assert (existsb (Nat.eqb a) (s_cleared s) = true) as E; [|by rewrite E in Ha]. apply existsb_exists. exists a. split; [done|apply Nat.eqb_refl].
  - destruct o; try done.
    + intros ps Hps (E1 & E2 & E3). rewrite Hps in H3. rewrite E1, E2 in H3. rewrite !bool_decide_eq_true_2, bool_decide_eq_false_2 in H3 by done. done.
    + intros E. rewrite E in H3. by destruct (s_lists s !! o) as [[]|].
    + intros E. rewrite E in H3. by destruct (s_lists s !! o) as [[]|].
Qed.
Lemma b_safe_run_c_ok {T} (ops : list (b_op T)) : ∀ s, b_safe_run_c ops s = true → b_safe_run ops s.
Proof.
  induction ops as [|o ops IH]; intros s H; [done|]. cbn in H. apply andb_prop in H as [H1 H2]. cbn. split; [by apply b_safe_c_ok|].
  destruct (b_spec o s) as [[r s']|]; [by apply IH|done].
Qed.
Example bidlist_example : b_safe_run demo_b bs0 ∧
  (drop 16 <$> (fst <$> srun b_spec demo_b bs0)) =
    Some [BUnit; BPtr None; BPtr (Some 0); BVal 11%Z; BVal 20%Z; BUnit; BVal 9%Z; BVal 10%Z; BInt 8%Z; BUnit; BBool true; BPtr (Some 10); BPtr (Some 0); BVal 7%Z].
Proof. split; [by apply b_safe_run_c_ok; vm_compute|vm_compute; reflexivity]. Qed.

(** C22: a node that is in no position of list l (a node of another list, or a removed node) given
    to l's methods leaves the whole world as it was. *)
Theorem bidlist_foreign_nodes {T} ops (w : bworld T) s l ps n x v m :
  b_reach ops w s → s_lists s !! l = Some ps → n ∉ ps → s_vals s !! n = Some v → n ∉ s_cleared s →
  b_InsertAfter l x (Some n) w = Ok (None, w) ∧ b_InsertBefore l x (Some n) w = Ok (None, w) ∧ b_Remove l (Some n) w = Ok (v, w) ∧
  b_MoveToFront l (Some n) w = Ok (tt, w) ∧ b_MoveToBack l (Some n) w = Ok (tt, w) ∧ b_MoveAfter l (Some n) m w = Ok (tt, w) ∧
  ∀ a, a ∈ ps → b_MoveAfter l (Some a) (Some n) w = Ok (tt, w).
Proof.
  intros R Hl Hn Hv Hc. apply reach_rel in R as H. destruct (br_val _ _ _ _ H Hv) as (nn & Hnn & Hvv). pose proof (br_member w s l ps n nn H Hl Hnn ltac:(by left)) as Hm.
  assert (ptr_eqb (b_owner nn) (Some l) = false) as Ho. { apply bool_decide_eq_false_2. by rewrite Hm. }
  unfold b_InsertAfter, b_InsertBefore, b_Remove, b_MoveToFront, b_MoveToBack, b_MoveAfter, mbind_. rewrite !(nd_ok w n nn Hnn). rewrite !Ho. split_and!; try done.
  - unfold mret_. rewrite (nd_ok w n nn Hnn). by rewrite Hvv.
  - intros a Ha. destruct (br_elem _ _ _ _ _ H Hl Ha) as (na & xa & Hna & Hoa & _). rewrite (nd_ok w a na Hna).
    unfold ptr_eqb at 1 2. rewrite bool_decide_eq_true_2 by done. rewrite bool_decide_eq_false_2 by (intros [= ->]; done). cbn [negb orb]. rewrite (nd_ok w n nn Hnn), Ho. done.
Qed.
Print Assumptions bidlist_foreign_nodes.
(** the hypotheses: node 3 belongs to list 1, node 4 was removed *)
Example bidlist_foreign_example :
  match srun b_spec (take 12 demo_b) bs0 with
  | Some (_, s) => (s_lists s !! 0, bool_decide (3 ∈ default [] (s_lists s !! 1)), existsb (existsb (Nat.eqb 4)) (s_lists s), s_vals s !! 4)
  | None => (None, false, true, None)
  end = (Some [1; 2; 5; 0], true, false, Some 15%Z).
Proof. vm_compute. reflexivity. Qed.

(** C23 is false when the receiver is empty and the argument is not: the call panics. *)
Theorem bidlist_list_copy_refuted {T} ops (w : bworld T) s l o qs :
  b_reach ops w s → s_lists s !! l = Some [] → s_lists s !! o = Some qs → qs ≠ [] → b_PushBackList l o w = Panic ∧ b_PushFrontList l o w = Panic.
Proof.
  intros R Hl Ho Hq. apply reach_rel in R as H. pose proof (ls_ok w l _ (br_list _ _ _ _ H Hl)) as El. pose proof (ls_ok w o _ (br_list _ _ _ _ H Ho)) as Eo.
  unfold b_PushBackList, b_PushFrontList, b_Len, b_FrontNode, mbind_. rewrite !Eo. unfold mret_. rewrite Eo, (BackNode_ok w s o qs H Ho). cbn [bl b_len b_head]. rewrite Nat2Z.id.
  split.
  - destruct qs as [|a qs]; [done|]. cbn [length push_back_loop head]. unfold mbind_. destruct (br_elem _ _ _ _ a H Ho) as (na & x & Hna & _); [set_solver|].
    rewrite (nd_ok w a na Hna), El. done.
  - destruct qs as [|a qs _] using rev_ind; [done|]. rewrite app_length, Nat.add_1_r, last_snoc. cbn [push_front_loop]. unfold mbind_. destruct (br_elem _ _ _ _ a H Ho) as (na & x & Hna & _); [set_solver|].
    rewrite (nd_ok w a na Hna), El. done.
Qed.
Print Assumptions bidlist_list_copy_refuted.
Example bidlist_copy_refuted_example : run b_step [BNew; BNew; BPushBack 1 5%Z; BPushBackList 0 1] bworld0 = Panic.
Proof. reflexivity. Qed.
(** what holds of C23: with a non-empty receiver or an empty argument (l = o included) the copies
    are appended or prepended in order, as fresh nodes; every other list is as before *)
Theorem bidlist_list_copy_partial {T} ops (w : bworld T) s l o ps qs :
  b_reach ops w s → s_lists s !! l = Some ps → s_lists s !! o = Some qs → (ps ≠ [] ∨ qs = []) →
  (∃ w' s' fs, b_PushBackList l o w = Ok (tt, w') ∧ b_reach (ops ++ [BPushBackList l o]) w' s' ∧
     s_lists s' = <[l := ps ++ fs]> (s_lists s) ∧ vals_of s' (ps ++ fs) = vals_of s ps ++ vals_of s qs ∧ Forall (λ a, s_vals s !! a = None) fs) ∧
  (∃ w' s' fs, b_PushFrontList l o w = Ok (tt, w') ∧ b_reach (ops ++ [BPushFrontList l o]) w' s' ∧
     s_lists s' = <[l := fs ++ ps]> (s_lists s) ∧ vals_of s' (fs ++ ps) = vals_of s qs ++ vals_of s ps ∧ Forall (λ a, s_vals s !! a = None) fs).
Proof.
  intros R Hl Ho Hd. apply reach_rel in R as H.
  assert (∀ ops s0 o s r s', b_safe_run ops (s0 : bs T) → (∃ rs, srun b_spec ops s0 = Some (rs, s)) → b_safe o s → b_spec o s = Some (r, s') →
    b_safe_run (ops ++ [o]) s0 ∧ ∀ rs, srun b_spec ops s0 = Some (rs, s) → srun b_spec (ops ++ [o]) s0 = Some (rs ++ [r], s')) as Hsnoc.
  { clear. induction ops as [|o' ops IH]; intros s0 o s r s' Hs (rs & E) Hsafe Hsp; cbn in *.
    - simplify_eq. rewrite Hsp. split; [done|]. intros rs [= <-]. done.
    - destruct Hs as [H1 H2]. destruct (b_spec o' s0) as [[r0 s1]|] eqn:E0; [|done]. destruct (srun b_spec ops s1) as [[rs1 s2]|] eqn:E1; [|done]. simplify_eq.
      destruct (IH s1 o s r s' H2) as [I1 I2]; [eauto|done|done|]. split; [done|]. intros rs [= <-]. rewrite (I2 rs1 E1). done. }
  assert (∀ ops w0 o w r w' rs, run b_step ops w0 = Ok (rs, w : bworld T) → b_step o w = Ok (r, w') → run b_step (ops ++ [o]) w0 = Ok (rs ++ [r], w')) as Hrun.
  { clear. induction ops as [|o' ops IH]; intros w0 o w r w' rs E1 E2; cbn in *.
    - simplify_eq. by rewrite E2.
    - destruct (b_step o' w0) as [[r0 w1]| |]; [|done|done]. destruct (run b_step ops w1) as [[rs1 w2]| |] eqn:E; [|done|done]. simplify_eq. by rewrite (IH w1 o w r w' rs1 E E2). }
  assert (∀ P, P = [] → P = ps → qs = []) as Hd'. { intros P -> <-. by destruct Hd. }
  assert (Forall (λ a, a < length (s_vals s)) ps) as Hltp by (by apply (br_lt w s l)).
  assert (∀ xs, length xs = length qs → vals_of (MkBs [] (s_vals s ++ xs) []) (seq (fresh s) (length qs)) = xs) as Hseq.
  { intros xs Hx. rewrite <-Hx. clear. unfold fresh. generalize (s_vals s) as V. induction xs as [|x xs IH]; intros V; [done|]. cbn [length seq]. rewrite vals_of_cons. cbn [s_vals]. rewrite list_lookup_middle by done. f_equal.
    specialize (IH (V ++ [x])). rewrite app_length, Nat.add_1_r, <-app_assoc in IH. exact IH. }
  assert (∀ xs, vals_of (MkBs [] (s_vals s ++ xs) []) ps = vals_of s ps) as Hps'.
  { intros xs. clear -Hltp. induction Hltp as [|a ps Ha _ IH]; [done|]. rewrite !vals_of_cons, IH. cbn. by rewrite lookup_app_l. }
  assert (∀ (A B : list (list nat)) C D V ps, vals_of (MkBs A V C : bs T) ps = vals_of (MkBs B V D) ps) as Hany by done.
  assert (∀ n : nat, Forall (λ a, s_vals s !! a = None) (seq (fresh s) n)) as Hnone.
  { intros n. apply Forall_seq. intros j Hj. apply lookup_ge_None_2. unfold fresh in Hj. lia. }
  destruct R as (Hs & rs & E1 & E2).
  split.
  - pose proof (PushBackList_ok w s l o ps qs H Hl Ho ltac:(intros E; by apply (Hd' ps))) as W. apply wp_Ok in W as ([] & w' & Ew & H').
    destruct (Hsnoc ops bs0 (BPushBackList l o) s BUnit (MkBs (<[l := ps ++ seq (fresh s) (length qs)]> (s_lists s)) (s_vals s ++ vals_of s qs) (s_cleared s))) as [S1 S2].
    { done. } { eauto. } { split_and!; cbn; [|intros a Ha; by apply elem_of_nil in Ha|intros E; destruct Hd; congruence]. intros j Hj. apply elem_of_cons in Hj as [->|Hj]; [by eapply lookup_lt_Some|]. apply elem_of_list_singleton in Hj as ->. by eapply lookup_lt_Some. }
    { cbn. by rewrite Hl, Ho. }
    eexists w', _, (seq (fresh s) (length qs)). split; [done|]. split; [split; [exact S1|]; eexists; split; [eapply Hrun; [exact E1|]; cbn; unfold mbind_; by rewrite Ew|by apply S2]|].
    cbn [s_lists]. split; [done|]. split; [|by apply Hnone]. rewrite vals_of_app. f_equal.
    + erewrite Hany. apply Hps'. + erewrite Hany. apply Hseq. by apply (vals_of_length w s o).
  - pose proof (PushFrontList_ok w s l o ps qs H Hl Ho ltac:(intros E; by apply (Hd' ps))) as W. apply wp_Ok in W as ([] & w' & Ew & H').
    destruct (Hsnoc ops bs0 (BPushFrontList l o) s BUnit (MkBs (<[l := reverse (seq (fresh s) (length qs)) ++ ps]> (s_lists s)) (s_vals s ++ reverse (vals_of s qs)) (s_cleared s))) as [S1 S2].
    { done. } { eauto. } { split_and!; cbn; [|intros a Ha; by apply elem_of_nil in Ha|intros E; destruct Hd; congruence]. intros j Hj. apply elem_of_cons in Hj as [->|Hj]; [by eapply lookup_lt_Some|]. apply elem_of_list_singleton in Hj as ->. by eapply lookup_lt_Some. }
    { cbn. by rewrite Hl, Ho. }
    eexists w', _, (reverse (seq (fresh s) (length qs))). split; [done|]. split; [split; [exact S1|]; eexists; split; [eapply Hrun; [exact E1|]; cbn; unfold mbind_; by rewrite Ew|by apply S2]|].
    cbn [s_lists]. split; [done|]. split; [|by apply Forall_reverse, Hnone]. rewrite vals_of_app. f_equal.
    + assert (∀ (s : bs T) ps, vals_of s (reverse ps) = reverse (vals_of s ps)) as Hrev.
      { clear. intros s ps. induction ps as [|a ps IH]; [done|]. rewrite reverse_cons, vals_of_app, IH, !vals_of_cons. cbn. destruct (s_vals s !! a); [by rewrite reverse_cons|by rewrite app_nil_r]. }
      rewrite Hrev. erewrite Hany, Hseq; [by rewrite reverse_involutive|]. rewrite reverse_length. by apply (vals_of_length w s o).
    + erewrite Hany. apply Hps'.
Qed.
Print Assumptions bidlist_list_copy_partial.

(** C24 is false for the first node moved after the last one: nothing happens. *)
Theorem bidlist_move_after_refuted {T} ops (w : bworld T) s l h m ps :
  b_reach ops w s → s_lists s !! l = Some (h :: ps) → last ps = Some m → b_MoveAfter l (Some h) (Some m) w = Ok (tt, w).
Proof.
  intros R Hl Hm. apply reach_rel in R as H. destruct ps as [|m' ps _] using rev_ind; [done|]. rewrite last_snoc in Hm. simplify_eq.
  destruct (br_lists _ _ H l _ Hl) as (Hc & Hnd & _). pose proof (cyc_nxt _ (h :: ps) m [] Hc) as Hx.
  destruct (br_elem _ _ _ _ h H Hl) as (nh & xh & Hnh & Hoh & _); [set_solver|]. destruct (br_elem _ _ _ _ m H Hl) as (nm & xm & Hnm & Hom & _); [set_solver|].
  assert (h ≠ m). { apply NoDup_cons in Hnd as [? _]. set_solver. }
  unfold b_MoveAfter, move_to_after, mbind_. rewrite (nd_ok w h nh Hnh), Hoh. unfold ptr_eqb. rewrite bool_decide_eq_true_2 by done. rewrite bool_decide_eq_false_2 by congruence. cbn [negb orb].
  rewrite !(nd_ok w m nm Hnm), Hom. rewrite bool_decide_eq_true_2 by done. cbn [negb]. unfold nxt in Hx. rewrite Hnm in Hx. injection Hx as Hx. rewrite (nd_ok w m nm Hnm), Hx. cbn [head app]. by rewrite bool_decide_eq_true_2.
Qed.
Print Assumptions bidlist_move_after_refuted.
Example bidlist_move_after_refuted_example :
  (fst <$> (match run b_step [BNew; BPushBack 0 1%Z; BPushBack 0 2%Z; BPushBack 0 3%Z; BMoveAfter 0 (Some 0) (Some 2); BFront 0; BBack 0] bworld0 with Ok r => Some r | _ => None end))
   = Some [BList 0; BUnit; BUnit; BUnit; BUnit; BVal 1%Z; BVal 3%Z].
Proof. reflexivity. Qed.
(** what holds of C24: in every other case n lands right after the mark, the others keep their order *)
Theorem bidlist_move_after_partial {T} ops (w : bworld T) s l ps n m :
  b_reach ops w s → s_lists s !! l = Some ps → n ∈ ps → m ∈ ps → n ≠ m → ¬ (head ps = Some n ∧ last ps = Some m) →
  ∃ w' p q, b_MoveAfter l (Some n) (Some m) w = Ok (tt, w') ∧ without n ps = p ++ m :: q ∧
    ∀ fuel, length ps ≤ fuel → b_FrontNode l w' = Ok (head (p ++ m :: n :: q), w') ∧
      bi_walk bi_Next fuel (head (p ++ m :: n :: q)) w' = Ok (vals_of s (p ++ m :: n :: q), w') ∧
      bi_walk bi_Prev fuel (last (p ++ m :: n :: q)) w' = Ok (reverse (vals_of s (p ++ m :: n :: q)), w').
Proof.
  intros R Hl Hn Hm Hne Hd. apply reach_rel in R as H. destruct (br_elem _ _ _ _ n H Hl Hn) as (nn & xn & Hnn & Hon & _). destruct (br_elem _ _ _ _ m H Hl Hm) as (nm & xm & Hnm & Hom & _).
  pose proof (move_after_in w s l ps n m H Hl Hn Hm Hne Hd) as W. apply wp_Ok in W as ([] & w' & Ew & H').
  destruct (br_lists _ _ H l _ Hl) as (_ & Hnd & _).
  destruct (elem_split m (without n ps)) as (p & q & E). { unfold without. rewrite elem_of_list_filter. done. }
  exists w', p, q. split_and!; [|done|].
  - unfold b_MoveAfter, mbind_. rewrite (nd_ok w n nn Hnn), Hon. unfold ptr_eqb. rewrite bool_decide_eq_true_2 by done. rewrite bool_decide_eq_false_2 by congruence. cbn [negb orb].
    rewrite (nd_ok w m nm Hnm), Hom. rewrite bool_decide_eq_true_2 by done. done.
  - rewrite E, ins_after_split in H' by (rewrite <-E; by apply NoDup_filter). set (ps' := p ++ m :: n :: q) in *.
    assert (s_lists (upd_list s l ps') !! l = Some ps') as Hl'. { cbn. apply list_lookup_insert. by eapply lookup_lt_Some. }
    assert (length ps' = length ps) as Hlen.
    { destruct (elem_split n ps Hn) as (p0 & q0 & E0). pose proof E as E'. rewrite E0, without_split in E' by (by rewrite <-E0). apply (f_equal length) in E'. rewrite !app_length in E'. cbn in E'. unfold ps'. rewrite E0, !app_length. cbn. lia. }
    intros fuel Hf. split_and!.
    + unfold b_FrontNode, mbind_. by rewrite (ls_ok w' l _ (br_list _ _ _ _ H' Hl')).
    + apply (walk_next_ok w' _ l [] ps' H' Hl'). lia.
    + apply (walk_prev_ok w' _ l ps' [] H'); [by rewrite app_nil_r|lia].
Qed.
Print Assumptions bidlist_move_after_partial.

(** C25 is false: nodes obtained before Clear still claim to belong to the list.  Removing one makes
    the length -1; inserting after one makes the length 1 while the list shows no node. *)
Theorem bidlist_clear_refuted {T} (x y : T) :
  run b_step [BNew; BPushBack 0 x; BClear 0; BRemove 0 (Some 0); BLen 0] bworld0 = Ok ([BList 0; BUnit; BUnit; BVal x; BInt (-1)%Z], MkBWorld [MkBNode None None x None] [MkBList None (-1)%Z]) ∧
  (∃ w, run b_step [BNew; BPushBack 0 x; BClear 0; BInsertAfter 0 y (Some 0); BLen 0; BFrontNode 0] bworld0 = Ok ([BList 0; BUnit; BUnit; BPtr (Some 1); BInt 1%Z; BPtr None], w)) ∧
  run b_step [BNew; BPushBack 0 x; BClear 0; BInsertAfter 0 y (Some 0); BFront 0] bworld0 = Panic.
Proof. split_and!; [done|by eexists|done]. Qed.
Print Assumptions bidlist_clear_refuted.
(** what holds of C25: Clear empties exactly that list, and every later history that does not hand
    a dropped node back to a method behaves as from the empty list (bidlist_is_sequence, of which
    this is the step) *)
Theorem bidlist_clear_partial {T} ops (w : bworld T) s l ps :
  b_reach ops w s → s_lists s !! l = Some ps →
  ∃ w', b_Clear l w = Ok (tt, w') ∧ b_Len l w' = Ok (0%Z, w') ∧ b_FrontNode l w' = Ok (None, w') ∧ b_Front l w' = Panic ∧
    (∀ j qs, j ≠ l → s_lists s !! j = Some qs → ∀ fuel, length qs ≤ fuel → bi_walk bi_Next fuel (head qs) w' = Ok (vals_of s qs, w')) ∧
    ∀ more, let s' := MkBs (<[l := []]> (s_lists s)) (s_vals s) (ps ++ s_cleared s) in
      b_safe_run more s' → match srun b_spec more s' with Some (rs, _) => ∃ w'', run b_step more w' = Ok (rs, w'') | None => run b_step more w' = Panic end.
Proof.
  intros R Hl. apply reach_rel in R as H. pose proof (Clear_ok w s l ps H Hl) as W. apply wp_Ok in W as ([] & w' & Ew & H'). exists w'.
  assert (b_lists w' !! l = Some (bl [])) as El. { apply (br_list w' _ l [] H'). cbn. apply list_lookup_insert. by eapply lookup_lt_Some. }
  split; [done|]. unfold b_Len, b_FrontNode, b_Front, mbind_. rewrite (ls_ok w' l _ El). split_and!; try done.
  - intros j qs Hne Hj fuel Hf. apply (walk_next_ok w' _ j [] qs H'); [|done]. cbn. by rewrite list_lookup_insert_ne.
  - intros more. cbv zeta. set (s' := MkBs _ _ _) in *. intros Hs. pose proof (b_history_from more w' s' H' Hs) as A. destruct (srun b_spec more s') as [[rs s'']|]; [|done]. destruct A as (w'' & E & _). by exists w''.
Qed.
Print Assumptions bidlist_clear_partial.
