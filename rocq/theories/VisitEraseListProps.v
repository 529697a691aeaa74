(** C113, the lists: removing the node it is handed ends the Traversal of a bidirectional list (refuted); a visitor
    of a singly linked list, which has to know the node before, may remove as it goes. *)
From Verif Require Import Base Wp History BidlistModel BidlistSpec BidlistCyc BidlistProofs BidlistOps BidlistHist BidlistProps SlistModel SlistSpec SlistProofs SlistProps VisitEraseModel VisitEraseSpec VisitEraseLists VisitEraseSlist.
Open Scope nat_scope.

(** Bidirectional list: the visits end at the first node that is removed; the nodes after it are never visited. *)
Theorem bidlist_traversal_removing_refuted {T W} ops (w : bworld T) s l ps (pick : nat * T → bool) (vis : nat * T → W → list (b_op T) * (bool * W)) f u :
  b_reach ops w s → s_lists s !! l = Some ps → length ps ≤ f →
  (∀ d u, vis d u = (if pick d then [BRemove l (Some d.1)] else [], (true, u))) →
  ∃ tr w', bid_visit l vis f u w = Ok (tr, w') ∧ tr.*1 = through_first pick (entries (s_vals s) ps) ∧
    let s' := upd_list s l (drop_first pick (entries (s_vals s) ps)) in
    ∀ later, b_safe_run later s' → match srun b_spec later s' with Some (rs, _) => ∃ w'', run b_step later w' = Ok (rs, w'') | None => run b_step later w' = Panic end.
Proof.
  intros Hr Hl Hf Hv. pose proof (reach_rel _ _ _ Hr) as H. destruct (bid_loop_ok (W := W) l pick w s ps [] f u H Hl Hf) as (tr & w' & E & Htr & H').
  exists tr, w'. split_and!; [|done|].
  - unfold bid_visit, visits_all, mbind_ at 1. assert (b_FrontNode l w = Ok (head ps, w)) as -> by (unfold b_FrontNode, mbind_; by rewrite (ls_ok w l _ (br_list _ _ _ _ H Hl))).
    rewrite <-E. by apply visits_loop_ext.
  - cbv zeta. intros later Hs. cbn [app] in H'. pose proof (b_history_from later w' _ H' Hs) as Ha. unfold agrees in Ha. destruct (srun _ later _) as [[rs s2]|]; [|done]. destruct Ha as (w2 & ? & _). by exists w2.
Qed.
Print Assumptions bidlist_traversal_removing_refuted.

(** Singly linked list: the visitor keeps the last node it did not remove, as Remove(pre, n) needs it. *)
Theorem slist_traversal_removing_partial {T} (zero : T) ops rs s w l ps (pick : nat * T → bool) (vis : nat * T → option nat → list (s_op T) * (bool * option nat)) f :
  s_safe_run zero ops ss0 → run (s_step zero) ops sworld0 = Ok (rs, w) → srun (s_spec zero) ops ss0 = Some (rs, s) → ss_lists s !! l = Some ps → length ps ≤ f →
  (∀ d pre, vis d pre = if pick d then ([SRemove l pre (Some d.1)], (true, pre)) else ([], (true, Some d.1))) →
  ∃ tr w', s_visit zero l vis f None w = Ok (tr, w') ∧ tr.*1 = entries (ss_vals s) ps ∧
    let s' := s_upd s l (filter (λ d, pick d = false) (entries (ss_vals s) ps)).*1 in
    ∀ later, s_safe_run zero later s' → match srun (s_spec zero) later s' with Some (rs, _) => ∃ w'', run (s_step zero) later w' = Ok (rs, w'') | None => run (s_step zero) later w' = Panic end.
Proof.
  intros Hs E1 E2 Hl Hf Hv. assert (srel w s) as H. { pose proof (s_history_from zero ops sworld0 ss0 srel_0 Hs) as H. rewrite E2 in H; unfold agrees in H. destruct H as (w0 & E & H). congruence. }
  destruct (s_loop_ok zero l pick ps [] f w s H Hl Hf) as (tr & w' & E & Htr & H').
  exists tr, w'. split_and!; [|done|].
  - unfold s_visit, visits_all, mbind_ at 1. assert (s_FrontNode l w = Ok (head ps, w)) as -> by (unfold s_FrontNode, mbind_; by rewrite (sl_ok w l _ (sr_list _ _ _ _ H Hl))).
    rewrite <-E. by apply visits_loop_ext.
  - cbv zeta. intros later Hs'. cbn [app] in H'. pose proof (s_history_from zero later w' _ H' Hs') as Ha. unfold agrees in Ha. destruct (srun _ later _) as [[rs' s2]|]; [|done]. destruct Ha as (w2 & ? & _). by exists w2.
Qed.
Print Assumptions slist_traversal_removing_partial.

(** * Non-vacuity: lists of five and of three nodes *)
Definition b_five : list (b_op Z) := [BNew; BPushBack 0 10; BPushBack 0 11; BPushBack 0 12; BPushBack 0 13; BPushFront 0 9]%Z.
Definition b_pick (d : nat * Z) : bool := Z.even d.2.
Definition b_vis (d : nat * Z) (u : unit) : list (b_op Z) * (bool * unit) := (if b_pick d then [BRemove 0 (Some d.1)] else [], (true, u)).
Example b_five_ok : b_safe_run_c b_five bs0 = true ∧ match run b_step b_five bworld0 with
  | Ok (_, w) => match bid_visit 0 b_vis 9 tt w with Ok (tr, w') => tr.*1 = [(4, 9%Z); (0, 10%Z)] ∧ match b_Traversal (λ _, true) 9 0 w' with Ok (vs, _) => vs = [9; 11; 12; 13]%Z | _ => False end | _ => False end
  | _ => False end.
Proof. by vm_compute. Qed.
Definition s_five : list (s_op Z) := [SNew; SPushBack 0 10; SPushBack 0 11; SPushBack 0 12; SPushBack 0 14; SPushFront 0 9]%Z.
Definition s_vis (d : nat * Z) (pre : option nat) : list (s_op Z) * (bool * option nat) := if b_pick d then ([SRemove 0 pre (Some d.1)], (true, pre)) else ([], (true, Some d.1)).
Example s_five_safe : s_safe_run 0%Z s_five ss0.
Proof. repeat (eapply s_safe_step; [reflexivity|cbn; try lia; done|]). done. Qed.
Example s_five_ok : match run (s_step 0%Z) s_five sworld0 with
  | Ok (_, w) => match s_visit 0%Z 0 s_vis 9 None w with Ok (tr, w') => tr.*1 = [(4, 9%Z); (0, 10%Z); (1, 11%Z); (2, 12%Z); (3, 14%Z)] ∧ match s_Traversal (λ _, true) 9 0 w' with Ok (vs, _) => vs = [9; 11]%Z | _ => False end | _ => False end
  | _ => False end.
Proof. by vm_compute. Qed.
