(** Property C92: iterators of bidirectional lists, held while the lists change. *)
From Verif Require Import Base Wp History BidlistModel BidlistSpec BidlistCyc BidlistProofs BidlistOps BidlistHist BidlistProps BidIterModel BidIterSpec.

Section props.
  Context {T : Type}.
  Definition birel (w : biworld T) (s : bis T) : Prop := brel (bi_w w) (p_lists s) ∧ bi_its w = p_its s.
  Lemma ptr_eqb_dec (p q : option nat) : ptr_eqb p q = bool_decide (q = p).
  Proof. unfold ptr_eqb. apply bool_decide_ext. done. Qed.
  Lemma bi_step_agrees o (w : biworld T) s : birel w s → bi_safe o s → agrees birel (bi_step o w) (bi_spec o s).
  Proof.
    intros [Hr Hi] Hs. assert (Hw : MkBI (bi_w w) (bi_its w) = w) by (by destruct w).
    destruct o as [o|n|i|i|i|i|i x|i|i j]; cbn [bi_step bi_spec bi_safe] in *.
    - pose proof (b_step_agrees o (bi_w w) (p_lists s) Hr Hs) as H. unfold agrees, mbind_, on_lists in *. destruct (b_spec o (p_lists s)) as [[r s']|]; cbn [mbind option_bind]; [|by rewrite H].
      destruct H as (w' & -> & H). eexists. by split.
    - eexists. split; [unfold new_iter; by rewrite Hi|]. split; [done|]. cbn. by rewrite ?Hi.
    - unfold agrees, mbind_, the_iter. rewrite Hi. destruct (p_its s !! i) as [p|]; cbn [mbind option_bind]; [|done]. exists w. split; [|done]. destruct p; reflexivity.
    - unfold agrees, mbind_, the_iter. rewrite Hi. destruct (p_its s !! i) as [p|] eqn:Ei; cbn [mbind option_bind]; [|done]. destruct p as [a|]; cbn [goes bi_Next].
      + pose proof (b_step_agrees (BNext (Some a)) (bi_w w) (p_lists s) Hr) as H. unfold agrees in H. cbn [b_spec b_step] in H. unfold mbind_, on_lists in *.
        assert (Hb : b_safe (BNext (Some a)) (p_lists s)). { split; [cbn; set_solver|]. split; [|done]. intros b Hb. cbn in Hb. apply elem_of_list_singleton in Hb. injection Hb as ->. by apply Hs. }
        specialize (H Hb). cbn [mbind option_bind] in H. destruct (s_vals (p_lists s) !! a) as [x|]; cbn [mbind option_bind] in *.
        * destruct (b_Next (Some a) (bi_w w)) as [[q w']| |]; destruct H as (w2 & E & H); try done. unfold mret_ in E. injection E as -> <-. eexists. split; [reflexivity|]. split; [done|]. cbn. by rewrite ?Hi.
        * destruct (b_Next (Some a) (bi_w w)) as [[q w']| |]; done.
      + unfold mbind_, on_lists. cbn [mret_]. unfold put_iter. cbn. eexists. split; [reflexivity|]. split; [done|]. cbn. rewrite Hi. by apply list_insert_id.
    - unfold agrees, mbind_, the_iter. rewrite Hi. destruct (p_its s !! i) as [p|] eqn:Ei; cbn [mbind option_bind]; [|done]. destruct p as [a|]; cbn [goes bi_Prev].
      + pose proof (b_step_agrees (BPrev (Some a)) (bi_w w) (p_lists s) Hr) as H. unfold agrees in H. cbn [b_spec b_step] in H. unfold mbind_, on_lists in *.
        assert (Hb : b_safe (BPrev (Some a)) (p_lists s)). { split; [cbn; set_solver|]. split; [|done]. intros b Hb. cbn in Hb. apply elem_of_list_singleton in Hb. injection Hb as ->. by apply Hs. }
        specialize (H Hb). cbn [mbind option_bind] in H. destruct (s_vals (p_lists s) !! a) as [x|]; cbn [mbind option_bind] in *.
        * destruct (b_Prev (Some a) (bi_w w)) as [[q w']| |]; destruct H as (w2 & E & H); try done. unfold mret_ in E. injection E as -> <-. eexists. split; [reflexivity|]. split; [done|]. cbn. by rewrite ?Hi.
        * destruct (b_Prev (Some a) (bi_w w)) as [[q w']| |]; done.
      + unfold mbind_, on_lists. cbn [mret_]. unfold put_iter. cbn. eexists. split; [reflexivity|]. split; [done|]. cbn. rewrite Hi. by apply list_insert_id.
    - unfold agrees, mbind_, the_iter. rewrite Hi. destruct (p_its s !! i) as [p|] eqn:Ei; cbn [mbind option_bind]; [|done]. destruct p as [a|]; cbn [bi_Value mbind option_bind]; [|done].
      pose proof (b_step_agrees (BValue (Some a)) (bi_w w) (p_lists s) Hr) as H. unfold agrees in H. cbn [b_spec b_step] in H. unfold mbind_, on_lists in *.
      assert (Hb : b_safe (BValue (Some a)) (p_lists s)) by (split; [cbn; set_solver|]; split; [cbn; set_solver|done]). specialize (H Hb). cbn [mbind option_bind] in H.
      destruct (s_vals (p_lists s) !! a) as [x|]; cbn [mbind option_bind] in *.
      + destruct (nd (Some a) (bi_w w)) as [[q w']| |]; destruct H as (w2 & E & H); try done. unfold mret_ in *. injection E as -> <-. eexists. split; [reflexivity|]. by split.
      + destruct (nd (Some a) (bi_w w)) as [[q w']| |]; done.
    - unfold agrees, mbind_, the_iter. rewrite Hi. destruct (p_its s !! i) as [p|] eqn:Ei; cbn [mbind option_bind]; [|done]. destruct p as [a|]; cbn [bi_SetValue mbind option_bind].
      2:{ unfold mbind_, on_lists. cbn [mret_]. eexists. split; [reflexivity|]. by split. }
      pose proof (b_step_agrees (BSetValue (Some a) x) (bi_w w) (p_lists s) Hr) as H. unfold agrees in H. cbn [b_spec b_step] in H. unfold mbind_, on_lists in *.
      assert (Hb : b_safe (BSetValue (Some a) x) (p_lists s)) by (split; [cbn; set_solver|]; split; [cbn; set_solver|done]). specialize (H Hb). cbn [mbind option_bind] in H.
      destruct (s_vals (p_lists s) !! a) as [y|]; cbn [mbind option_bind] in *.
      + destruct (set_val (Some a) x (bi_w w)) as [[q w']| |]; destruct H as (w2 & E & H); try done. unfold mret_ in *. injection E as <-. eexists. split; [reflexivity|]. by split.
      + destruct (set_val (Some a) x (bi_w w)) as [[q w']| |]; done.
    - unfold agrees, mbind_, the_iter. rewrite Hi. destruct (p_its s !! i) as [p|] eqn:Ei; cbn [mbind option_bind]; [|done]. eexists. split; [unfold new_iter; by rewrite Hi|]. split; [done|]. cbn. by rewrite ?Hi.
    - unfold agrees, mbind_, the_iter. rewrite Hi. destruct (p_its s !! i) as [p|] eqn:Ei; cbn [mbind option_bind]; [|done].
      unfold mbind_. rewrite Hi. destruct (p_its s !! j) as [q|] eqn:Ej; cbn [mbind option_bind]; [|done]. exists w. split; [|by split]. unfold mret_, bi_Equal. by rewrite ptr_eqb_dec.
  Qed.
  (** every history of calls on lists, nodes and iterators gives the results of positions in node sequences *)
  Theorem bidlist_iterators ops : bi_safe_run ops (bis0 (T := T)) → agrees birel (run bi_step ops biworld0) (srun bi_spec ops bis0).
  Proof.
    assert (∀ w s, birel w s → bi_safe_run ops s → agrees birel (run bi_step ops w) (srun bi_spec ops s)) as H.
    { induction ops as [|o ops IH]; intros w s Hr Hs; [by eexists|]. destruct Hs as [Ho Hs]. cbn [run srun]. pose proof (bi_step_agrees o w s Hr Ho) as H. unfold agrees in H.
      destruct (bi_spec o s) as [[r s']|]; [|cbn; by rewrite H]. destruct H as (w' & -> & Hr'). specialize (IH w' s' Hr' Hs). unfold agrees in *. destruct (srun bi_spec ops s') as [[rs s'']|]; [|by rewrite IH].
      destruct IH as (w'' & -> & ?). by eexists. }
    intros Hs. apply H; [|done]. split; [apply brel_0|done].
  Qed.
End props.

(** a checker for [bi_safe_run], to evaluate examples *)
Definition bi_safe_c {T} (o : bi_op T) (s : bis T) : bool :=
  match o with
  | BICall o => b_safe_c o (p_lists s)
  | BINext i | BIPrev i => match p_its s !! i with Some (Some a) => negb (existsb (Nat.eqb a) (s_cleared (p_lists s))) | _ => true end
  | _ => true
  end.
Fixpoint bi_safe_run_c {T} (ops : list (bi_op T)) (s : bis T) : bool :=
  match ops with
  | [] => true
  | o :: ops => bi_safe_c o s && match bi_spec o s with Some (_, s') => bi_safe_run_c ops s' | None => true end
  end.
Lemma bi_safe_run_c_ok {T} (ops : list (bi_op T)) : ∀ s, bi_safe_run_c ops s = true → bi_safe_run ops s.
Proof.
  induction ops as [|o ops IH]; intros s H; [done|]. cbn in H. apply andb_true_iff in H as [H1 H2]. split; [|destruct (bi_spec o s) as [[r s']|]; [by apply IH|done]].
  destruct o; try done; cbn in *; [by apply b_safe_c_ok| |]; intros a E; rewrite E in H1; apply negb_true_iff in H1; intros Hin; apply not_true_iff_false in H1; apply H1, existsb_exists; exists a; (split; [by apply elem_of_list_In|apply Nat.eqb_refl]).
Qed.
(** three elements; an iterator walks, writes, survives the removal of its neighbour and of its own node *)
Example bidlist_iterators_example :
  let ops := [BICall BNew; BICall (BPushBack 0 10%Z); BICall (BPushBack 0 11%Z); BICall (BPushBack 0 12%Z); BINew (Some 0%nat); BIClone 0; BINext 0; BIValue 0; BISet 0 21%Z;
    BIEqual 0 1; BICall (BRemove 0 (Some 0%nat)); BIPrev 0; BIValid 0; BISet 0 5%Z; BIValue 1; BINext 1; BIValid 1; BIEqual 0 1; BICall (BFront 0)] in
  bi_safe_run ops bis0 ∧ ∃ w, run bi_step ops biworld0 = Ok ([BIOut (BList 0); BIOut BUnit; BIOut BUnit; BIOut BUnit; BIIter 0; BIIter 1; BIOut BUnit; BIOut (BVal 11%Z); BIOut BUnit;
    BIOut (BBool false); BIOut (BVal 10%Z); BIOut BUnit; BIOut (BBool false); BIOut BUnit; BIOut (BVal 10%Z); BIOut BUnit; BIOut (BBool false); BIOut (BBool true); BIOut (BVal 21%Z)], w).
Proof. split; [apply bi_safe_run_c_ok; by vm_compute|]. eexists. vm_compute. reflexivity. Qed.
Print Assumptions bidlist_iterators.
