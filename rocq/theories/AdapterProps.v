(** Properties C19, C20: queue and stack. *)
From Verif Require Import Base Wp History DequeModel DequeSpec DequeOps DequeHist BidlistModel BidlistSpec BidlistCyc BidlistProofs BidlistOps BidlistHist AdapterModel AdapterSpec.
Open Scope Z_scope.

Lemma last_reverse {A} (l : list A) : last l = head (reverse l).
Proof. destruct l as [|x l _] using rev_ind; [done|]. by rewrite last_snoc, reverse_snoc. Qed.

(** any container that obeys the law makes a queue and a stack *)
Theorem queue_over_any_container {S T} (c : container S T) rel : cont_law c rel →
  ∀ ops s l, rel s l → agrees rel (run (q_step c) ops s) (srun q_spec ops l).
Proof.
  intros L ops s l Hr. apply (run_agrees _ _ _ (λ _, True)); [|by apply Forall_forall|done]. clear - L. intros o s l _ Hr.
  destruct o; cbn [q_step q_spec]; unfold q_Push, q_Pop, q_Front, q_Back, q_Size, q_Empty, q_Clear, mbind_.
  - destruct (cl_push_back _ _ L s l x Hr) as (s' & -> & H). by exists s'.
  - pose proof (cl_pop_front _ _ L s l Hr) as H. destruct l as [|x l]; [by rewrite H|]. destruct H as (s' & -> & H). by exists s'.
  - pose proof (cl_front _ _ L s l Hr) as H. destruct l as [|x l]; cbn in H; [by rewrite H|]. destruct H as (s' & -> & H). by exists s'.
  - pose proof (cl_back _ _ L s l Hr) as H. destruct (last l) as [x|]; [|by rewrite H]. destruct H as (s' & -> & H). by exists s'.
  - destruct (cl_size _ _ L s l Hr) as (s' & -> & H). by exists s'.
  - destruct (cl_empty _ _ L s l Hr) as (s' & -> & H). by exists s'.
  - destruct (cl_clear _ _ L s l Hr) as (s' & -> & H). by exists s'.
Qed.
Print Assumptions queue_over_any_container.
Theorem stack_over_any_container {S T} (c : container S T) rel : cont_law c rel →
  ∀ ops s l, rel s l → agrees (λ s l, rel s (reverse l)) (run (st_step c) ops s) (srun st_spec ops (reverse l)).
Proof.
  intros L ops s l Hr. apply (run_agrees _ _ _ (λ _, True)); [|by apply Forall_forall|by rewrite reverse_involutive]. clear - L. intros o s l _ Hr.
  destruct o; cbn [st_step st_spec]; unfold st_Push, st_Pop, st_Top, st_Size, st_Empty, st_Clear, mbind_.
  - destruct (cl_push_back _ _ L s _ x Hr) as (s' & -> & H). exists s'. by rewrite reverse_cons.
  - destruct (cl_pop_back _ _ L s _ Hr) as [H0 H1]. destruct l as [|x l]; [by rewrite H0|]. rewrite reverse_cons in H1. destruct (H1 _ _ eq_refl) as (s' & -> & H). by exists s'.
  - pose proof (cl_back _ _ L s _ Hr) as H. rewrite last_reverse, reverse_involutive in H. destruct l as [|x l]; cbn in H; [by rewrite H|]. destruct H as (s' & -> & H). by exists s'.
  - destruct (cl_size _ _ L s _ Hr) as (s' & -> & H). rewrite reverse_length. by exists s'.
  - destruct (cl_empty _ _ L s _ Hr) as (s' & -> & H). exists s'. split; [|done]. unfold mret_. repeat f_equal. apply bool_decide_ext. destruct l as [|x l]; [done|]. rewrite reverse_cons. split; [by destruct (reverse l)|done].
  - destruct (cl_clear _ _ L s _ Hr) as (s' & -> & H). by exists s'.
Qed.
Print Assumptions stack_over_any_container.

(** the library's containers obey it *)
#[local] Opaque dq_push_back dq_push_front dq_front dq_back dq_pop_front dq_pop_back dq_Empty dq_Size dq_clear b_PushBack b_PushFront b_Front b_Back b_PopFront b_PopBack b_Empty b_Len b_Clear.
Theorem deque_is_container {T} (zero : T) : cont_law (deque_container zero) dinv.
Proof.
  pose proof (@dq_step_agrees T zero) as A. unfold agrees, dq_step in A.
  split; cbn [deque_container c_PushBack c_PushFront c_Front c_Back c_PopFront c_PopBack c_Empty c_Size c_Clear].
  - intros s l x H. specialize (A (DPushBack x) s l H). cbn in A. destruct A as (s' & E & H'). unfold mbind_ in E. destruct (dq_push_back zero x s) as [[[] s1]| |]; [|done|done]. injection E as ->. eauto.
  - intros s l x H. specialize (A (DPushFront x) s l H). cbn in A. destruct A as (s' & E & H'). unfold mbind_ in E. destruct (dq_push_front zero x s) as [[[] s1]| |]; [|done|done]. injection E as ->. eauto.
  - intros s l H. specialize (A DFront s l H). cbn in A. unfold mbind_ in A. destruct (head l) as [x|]; cbn in A; destruct (dq_front s) as [[y s1]| |]; try done; destruct A as (s' & E & H'); [injection E as -> ->|..]; try done. eauto.
  - intros s l H. specialize (A DBack s l H). cbn in A. unfold mbind_ in A. destruct (last l) as [x|]; cbn in A; destruct (dq_back s) as [[y s1]| |]; try done; destruct A as (s' & E & H'); [injection E as -> ->|..]; try done. eauto.
  - intros s l H. specialize (A DPopFront s l H). cbn in A. unfold mbind_ in A. destruct l as [|x l]; cbn in A; destruct (dq_pop_front s) as [[y s1]| |]; try done; destruct A as (s' & E & H'); [injection E as -> ->|..]; try done. eauto.
  - intros s l H. specialize (A DPopBack s l H). cbn in A. unfold mbind_ in A. split.
    + intros ->. cbn in A. destruct (dq_pop_back s) as [[y s1]| |]; done.
    + intros l' x ->. rewrite last_snoc in A. cbn in A. rewrite app_length, Nat.add_sub, take_app in A. destruct (dq_pop_back s) as [[y s1]| |]; destruct A as (s' & E & H'); [injection E as -> ->|..]; try done. eauto.
  - intros s l H. specialize (A DEmpty s l H). cbn in A. destruct A as (s' & E & H'). unfold mbind_ in E. destruct (dq_Empty s) as [[y s1]| |]; [|done|done]. injection E as -> ->. eauto.
  - intros s l H. specialize (A DSize s l H). cbn in A. destruct A as (s' & E & H'). unfold mbind_ in E. destruct (dq_Size s) as [[y s1]| |]; [|done|done]. injection E as -> ->. eauto.
  - intros s l H. specialize (A DClear s l H). cbn in A. destruct A as (s' & E & H'). unfold mbind_ in E. destruct (dq_clear s) as [[[] s1]| |]; [|done|done]. injection E as ->. eauto.
Qed.
Print Assumptions deque_is_container.
(** list number l of a world holds the elements xs *)
Definition list_holds {T} (l : nat) (w : bworld T) (xs : list T) : Prop := ∃ s ps, brel w s ∧ s_lists s !! l = Some ps ∧ vals_of s ps = xs.
Theorem list_is_container {T} (l : nat) : cont_law (list_container (T := T) l) (list_holds l).
Proof.
  pose proof (@b_step_agrees T) as A. unfold agrees, b_step in A.
  assert (∀ (o : b_op T) s ps, lists_of o = [l] → nodes_of o = [] → (match o with BPushBackList _ _ | BPushFrontList _ _ | BMoveAfter _ _ _ => False | _ => True end) → s_lists s !! l = Some ps → b_safe o s) as Hsafe.
  { intros o s ps E1 E2 E3 Hl. unfold b_safe. rewrite E1, E2. split_and!; [intros ? ->%elem_of_list_singleton; by eapply lookup_lt_Some|intros ? ?%elem_of_nil; done|by destruct o]. }
  assert (∀ (s : bs T) k x ps, vals_of (add_node s k x ps) [fresh s] = [x]) as Hfr.
  { intros s k x ps. unfold vals_of. cbn. unfold fresh. by rewrite list_lookup_middle. }
  split; cbn [list_container c_PushBack c_PushFront c_Front c_Back c_PopFront c_PopBack c_Empty c_Size c_Clear].
  - intros w xs x (s & ps & H & Hl & <-). specialize (A (BPushBack l x) w s H (Hsafe (BPushBack l x) s ps eq_refl eq_refl I Hl)). cbn in A. rewrite Hl in A. cbn in A. destruct A as (w' & E & H'). unfold mbind_ in E.
    destruct (b_PushBack l x w) as [[[] w1]| |]; [|done|done]. injection E as ->. exists w'. split; [done|]. eexists _, (ps ++ [fresh s]). split; [exact H'|]. split; [cbn; apply list_lookup_insert; by eapply lookup_lt_Some|].
    rewrite vals_of_app, Hfr by done. f_equal. apply vals_of_add. by eapply br_lt.
  - intros w xs x (s & ps & H & Hl & <-). specialize (A (BPushFront l x) w s H (Hsafe (BPushFront l x) s ps eq_refl eq_refl I Hl)). cbn in A. rewrite Hl in A. cbn in A. destruct A as (w' & E & H'). unfold mbind_ in E.
    destruct (b_PushFront l x w) as [[[] w1]| |]; [|done|done]. injection E as ->. exists w'. split; [done|]. eexists _, (fresh s :: ps). split; [exact H'|]. split; [cbn; apply list_lookup_insert; by eapply lookup_lt_Some|].
    rewrite (vals_of_app _ [fresh s] ps), Hfr by done. cbn. f_equal. apply vals_of_add. by eapply br_lt.
  - intros w xs (s & ps & H & Hl & <-). specialize (A (BFront l) w s H (Hsafe (BFront l) s ps eq_refl eq_refl I Hl)). cbn in A. rewrite Hl in A. cbn in A. unfold mbind_ in A.
    destruct ps as [|a ps]; cbn in A. { cbn. by destruct (b_Front l w) as [[]| |]. }
    destruct (br_elem _ _ _ _ a H Hl) as (n & x & _ & _ & Hx & _); [set_solver|]. rewrite Hx in A. cbn in A. rewrite vals_of_cons, Hx. cbn. destruct A as (w' & E & H'). destruct (b_Front l w) as [[y w1]| |]; [|done|done]. injection E as -> ->.
    exists w'. split; [done|]. exists s, (a :: ps). by rewrite vals_of_cons, Hx.
  - intros w xs (s & ps & H & Hl & <-). specialize (A (BBack l) w s H (Hsafe (BBack l) s ps eq_refl eq_refl I Hl)). cbn in A. rewrite Hl in A. cbn in A. unfold mbind_ in A.
    destruct ps as [|a ps _] using rev_ind; cbn in A. { cbn. by destruct (b_Back l w) as [[]| |]. }
    destruct (br_elem _ _ _ _ a H Hl) as (n & x & _ & _ & Hx & _); [set_solver|]. rewrite last_snoc in A. cbn in A. rewrite Hx in A. cbn in A. rewrite vals_of_app, vals_of_cons, Hx. cbn [vals_of omap list_omap]. rewrite last_snoc. destruct A as (w' & E & H'). destruct (b_Back l w) as [[y w1]| |]; [|done|done]. injection E as -> ->.
    exists w'. split; [done|]. exists s, (ps ++ [a]). by rewrite vals_of_app, vals_of_cons, Hx.
  - intros w xs (s & ps & H & Hl & <-). specialize (A (BPopFront l) w s H (Hsafe (BPopFront l) s ps eq_refl eq_refl I Hl)). cbn in A. rewrite Hl in A. cbn in A. unfold mbind_ in A.
    destruct ps as [|a ps]; cbn in A. { cbn. by destruct (b_PopFront l w) as [[]| |]. }
    destruct (br_elem _ _ _ _ a H Hl) as (n & x & _ & _ & Hx & _); [set_solver|]. rewrite Hx in A. cbn in A. rewrite vals_of_cons, Hx. destruct A as (w' & E & H'). destruct (b_PopFront l w) as [[y w1]| |]; [|done|done]. injection E as -> ->.
    exists w'. split; [done|]. exists (upd_list s l ps), ps. split; [done|]. split; [cbn; apply list_lookup_insert; by eapply lookup_lt_Some|done].
  - intros w xs (s & ps & H & Hl & <-). specialize (A (BPopBack l) w s H (Hsafe (BPopBack l) s ps eq_refl eq_refl I Hl)). cbn in A. rewrite Hl in A. cbn in A. unfold mbind_ in A.
    destruct ps as [|a ps _] using rev_ind; cbn in A. { split; [intros _; by destruct (b_PopBack l w) as [[]| |]|intros [] x E; cbn in E; done]. }
    destruct (br_elem _ _ _ _ a H Hl) as (n & x & _ & _ & Hx & _); [set_solver|]. rewrite last_snoc in A. cbn in A. rewrite Hx in A. cbn in A. rewrite vals_of_app, vals_of_cons, Hx. cbn [vals_of omap list_omap]. split.
    { intros E. by destruct (vals_of s ps). } intros l' y E. apply app_inj_tail in E as [<- <-]. destruct A as (w' & E & H'). destruct (b_PopBack l w) as [[y w1]| |]; [|done|done]. injection E as -> ->.
    rewrite app_length, Nat.add_sub, take_app in H'. exists w'. split; [done|]. exists (upd_list s l ps), ps. split; [done|]. split; [cbn; apply list_lookup_insert; by eapply lookup_lt_Some|done].
  - intros w xs (s & ps & H & Hl & <-). specialize (A (BEmpty l) w s H (Hsafe (BEmpty l) s ps eq_refl eq_refl I Hl)). cbn in A. rewrite Hl in A. cbn in A. unfold mbind_ in A. destruct A as (w' & E & H').
    destruct (b_Empty l w) as [[y w1]| |]; [|done|done]. injection E as -> ->. exists w'. split; [|by exists s, ps]. f_equal. f_equal. apply bool_decide_ext.
    pose proof (vals_of_length _ _ _ _ H Hl) as Hlen. destruct ps, (vals_of s _); done.
  - intros w xs (s & ps & H & Hl & <-). specialize (A (BLen l) w s H (Hsafe (BLen l) s ps eq_refl eq_refl I Hl)). cbn in A. rewrite Hl in A. cbn in A. unfold mbind_ in A. destruct A as (w' & E & H').
    destruct (b_Len l w) as [[y w1]| |]; [|done|done]. injection E as -> ->. exists w'. split; [|by exists s, ps]. by rewrite (vals_of_length _ _ _ _ H Hl).
  - intros w xs (s & ps & H & Hl & <-). specialize (A (BClear l) w s H (Hsafe (BClear l) s ps eq_refl eq_refl I Hl)). cbn in A. rewrite Hl in A. cbn in A. unfold mbind_ in A. destruct A as (w' & E & H').
    destruct (b_Clear l w) as [[[] w1]| |]; [|done|done]. injection E as ->. exists w'. split; [done|]. eexists _, []. split; [exact H'|]. split; [cbn; apply list_lookup_insert; by eapply lookup_lt_Some|done].
Qed.
Print Assumptions list_is_container.
Lemma list_start_holds {T} : list_holds 0 (list_start (T := T)) [].
Proof.
  exists (MkBs [[]] [] []), []. split; [|done]. split; try done.
  - intros k ps Hk. apply list_lookup_singleton_Some in Hk as [_ <-]. split_and!; [done|constructor|intros ? ?%elem_of_nil; done].
Qed.

(** C19: first in, first out, over both containers *)
Theorem queue_is_fifo {T} (zero : T) (ops : list (q_op T)) :
  match srun q_spec ops [] with
  | Some (rs, l) => (∃ d, run (q_step (deque_container zero)) ops deque_start = Ok (rs, d)) ∧ (∃ w, run (q_step (list_container 0)) ops list_start = Ok (rs, w))
  | None => run (q_step (deque_container zero)) ops deque_start = Panic ∧ run (q_step (list_container 0)) ops list_start = Panic
  end.
Proof.
  pose proof (queue_over_any_container _ _ (deque_is_container zero) ops _ _ dinv_new) as H1.
  pose proof (queue_over_any_container _ _ (list_is_container (T := T) 0) ops _ _ list_start_holds) as H2.
  unfold agrees in *. destruct (srun q_spec ops []) as [[rs l]|]; [|done]. destruct H1 as (d & ? & _), H2 as (w & ? & _). eauto.
Qed.
Print Assumptions queue_is_fifo.
(** in histories without Clear: the elements popped, then those still there, are those pushed, in order *)
Theorem queue_preserves_order {T} (ops : list (q_op T)) rs l : QClear ∉ ops → srun q_spec ops [] = Some (rs, l) →
  omap (λ or : q_op T * ad_out T, match or with (QPop, AVal x) => Some x | _ => None end) (zip ops rs) ++ l =
  omap (λ o, match o with QPush x => Some x | _ => None end) ops.
Proof.
  change l with ([] ++ l) at 2. assert (∀ l0, QClear ∉ ops → srun q_spec ops l0 = Some (rs, l) →
    omap (λ or : q_op T * ad_out T, match or with (QPop, AVal x) => Some x | _ => None end) (zip ops rs) ++ l = l0 ++ omap (λ o, match o with QPush x => Some x | _ => None end) ops) as H; [|by intros; apply (H [])].
  revert rs. induction ops as [|o ops IH]; intros rs l0 Hc E.
  - cbn in E. simplify_eq. cbn. by rewrite app_nil_r.
  - cbn [srun] in E. destruct (q_spec o l0) as [[r l1]|] eqn:Eo; [|done]. destruct (srun q_spec ops l1) as [[rs1 l2]|] eqn:E1; [|done]. injection E as <- <-.
    apply not_elem_of_cons in Hc as [Hc1 Hc2]. specialize (IH rs1 l1 Hc2 E1).
    destruct o; cbn in Eo; try (by case_match; simplify_eq; cbn; rewrite IH); simplify_eq; cbn; try done.
    all: try (rewrite IH, <-app_assoc; done).
    all: destruct l0; simplify_eq; cbn; by rewrite IH.
Qed.
Print Assumptions queue_preserves_order.
(** C20: last in, first out, over both containers *)
Theorem stack_is_lifo {T} (zero : T) (ops : list (st_op T)) :
  match srun st_spec ops [] with
  | Some (rs, l) => (∃ d, run (st_step (deque_container zero)) ops deque_start = Ok (rs, d)) ∧ (∃ w, run (st_step (list_container 0)) ops list_start = Ok (rs, w))
  | None => run (st_step (deque_container zero)) ops deque_start = Panic ∧ run (st_step (list_container 0)) ops list_start = Panic
  end.
Proof.
  pose proof (stack_over_any_container _ _ (deque_is_container zero) ops _ _ dinv_new) as H1.
  pose proof (stack_over_any_container _ _ (list_is_container (T := T) 0) ops _ _ list_start_holds) as H2.
  unfold agrees in *. change (reverse (@nil T)) with (@nil T) in *. destruct (srun st_spec ops []) as [[rs l]|]; [|done]. destruct H1 as (d & ? & _), H2 as (w & ? & _). eauto.
Qed.
Print Assumptions stack_is_lifo.
Example queue_example :
  srun q_spec [QPush 1; QPush 2; QPop; QPush 3; QFront; QBack; QSize; QPop; QPop; QEmpty] [] = Some ([AUnit; AUnit; AVal 1; AUnit; AVal 2; AVal 3; AInt 2; AVal 2; AVal 3; ABool true], []) ∧
  srun q_spec [QPush 1; QClear; QPop] [] = None.
Proof. split; reflexivity. Qed.
Example stack_example :
  srun st_spec [TPush 1; TPush 2; TPop; TPush 3; TTop; TSize; TPop; TPop; TEmpty] [] = Some ([AUnit; AUnit; AVal 2; AUnit; AVal 3; AInt 2; AVal 3; AVal 1; ABool true], []) ∧
  srun st_spec [TPush 1; TClear; TTop] [] = None.
Proof. split; reflexivity. Qed.
