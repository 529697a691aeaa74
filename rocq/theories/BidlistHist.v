(** Histories of bidirectional list operations, list copies, traversal. *)
From Verif Require Import Base Wp History BidlistModel BidlistSpec BidlistCyc BidlistProofs BidlistOps.
Open Scope nat_scope.

Section hist.
  Context {T : Type}.
  Implicit Types (ns : list (bnode T)) (w : bworld T) (s : bs T) (ps : list nat).

  Lemma vals_of_cons s a ps : vals_of s (a :: ps) = match s_vals s !! a with Some x => x :: vals_of s ps | None => vals_of s ps end.
  Proof using. unfold vals_of. cbn. by destruct (s_vals s !! a). Qed.
  Lemma vals_of_add s k x ps P : Forall (λ a, a < fresh s) ps → vals_of (add_node s k x P) ps = vals_of s ps.
  Proof using.
    induction 1 as [|a ps Ha _ IH]; [done|]. rewrite !vals_of_cons, IH. cbn. by rewrite lookup_app_l.
  Qed.
  Lemma br_lt w s k ps : brel w s → s_lists s !! k = Some ps → Forall (λ a, a < fresh s) ps.
  Proof using.
    intros H Hk. apply Forall_forall. intros a Ha. destruct (br_elem _ _ _ _ _ H Hk Ha) as (n & x & _ & _ & Hx & _). by eapply lookup_lt_Some.
  Qed.
  Lemma vals_of_app s p q : vals_of s (p ++ q) = vals_of s p ++ vals_of s q.
  Proof using. unfold vals_of. apply omap_app. Qed.
  Lemma vals_of_length w s k ps : brel w s → s_lists s !! k = Some ps → length (vals_of s ps) = length ps.
  Proof using.
    intros H Hk. pose proof (br_lt _ _ _ _ H Hk) as Hf. clear Hk. induction Hf as [|a ps Ha _ IH]; [done|].
    rewrite vals_of_cons. destruct (lookup_lt_is_Some_2 _ _ Ha) as [x ->]. cbn. by rewrite IH.
  Qed.

  (** PushBackList *)
  Lemma push_back_loop_ok l o rest : ∀ w s P Q pre ext n, brel w s → s_lists s !! l = Some P → P ≠ [] → s_lists s !! o = Some Q → Q = pre ++ rest ++ ext →
    (rest ≠ [] → n = head rest) →
    wp (push_back_loop l (length rest) n) (λ _ w', brel w' (MkBs (<[l := P ++ seq (fresh s) (length rest)]> (s_lists s)) (s_vals s ++ vals_of s rest) (s_cleared s))) w.
  Proof using.
    induction rest as [|a rest IH]; intros w s P Q pre ext n H Hl HP Ho HQ Hn.
    - cbn. apply wp_ret. rewrite !app_nil_r. rewrite list_insert_id by done. by destruct s.
    - rewrite (Hn ltac:(done)). cbn [length push_back_loop head]. 
      destruct (br_elem w s o Q a H Ho) as (na & x & Hna & _ & Hx & Hvx); [rewrite HQ; set_solver|]. wp_step (nd_ok w a na Hna).
      pose proof (br_list _ _ _ _ H Hl) as Hb. wp_step (ls_ok w l _ Hb). cbn [bl b_head]. destruct P as [|h P]; [done|]. cbn [head].
      destruct (br_lists _ _ H l _ Hl) as (Hc & Hnd & _). pose proof (cyc_prv _ [] h P Hc) as Hp. rewrite app_nil_r in Hp. destruct (nd_prev w h _ Hp) as (nh & Eh & Hh). wp_step Eh. rewrite Hh.
      destruct (exists_last (l := h :: P)) as (P0 & m & EP); [done|]. rewrite EP, last_snoc.
      destruct (br_elem w s l _ m H Hl) as (nm & xm & Hnm & _); [rewrite EP; set_solver|].
      apply wp_bind. eapply wp_mono; [apply (InsertAfter_ok w s l _ (b_val na) m nm H Hl Hnm); right; rewrite EP; set_solver|]. cbv beta.
      intros r w1. rewrite decide_True by (rewrite EP; set_solver). intros [_ H1].
      rewrite EP, ins_after_split in H1 by (by rewrite <-EP). rewrite Hvx in H1.
      set (s1 := add_node s l x _) in H1.
      assert (∃ ext', s_lists s1 !! o = Some (pre ++ (a :: rest) ++ ext')) as (ext' & Ho1).
      { unfold s1. cbn [s_lists add_node]. destruct (decide (o = l)) as [->|Hne].
        - rewrite list_lookup_insert by (by eapply lookup_lt_Some). exists (ext ++ [fresh s]). f_equal. assert (P0 ++ [m] = pre ++ (a :: rest) ++ ext) as HQ' by congruence. change [m; fresh s] with ([m] ++ [fresh s]). rewrite app_assoc, HQ'. by rewrite <-!app_assoc.
        - rewrite list_lookup_insert_ne by done. exists ext. by rewrite Ho, HQ. }
      apply wp_bind. eapply wp_eq. { apply (Next_ok w1 s1 o pre a (rest ++ ext') H1). exact Ho1. }
      eapply wp_mono; [apply (IH w1 s1 (P0 ++ [m; fresh s]) (pre ++ (a :: rest) ++ ext') (pre ++ [a]) ext' _ H1)|].
      + unfold s1. cbn. rewrite list_lookup_insert by (by eapply lookup_lt_Some). done.
      + by destruct P0.
      + exact Ho1.
      + by rewrite <-app_assoc.
      + intros Hr. by rewrite head_app_ne.
      + cbv beta. intros _ w' H'. unfold s1 in H'. cbn [s_lists s_vals s_cleared add_node fresh] in H'. rewrite list_insert_insert in H'.
        rewrite vals_of_add in H' by (pose proof (br_lt _ _ _ _ H Ho) as Hf; rewrite HQ in Hf; apply Forall_app in Hf as [_ Hf]; apply Forall_app in Hf as [Hf _]; by apply Forall_cons in Hf as [_ ?]).
        rewrite vals_of_cons, Hx. cbn [seq length]. rewrite <-!app_assoc in H'. rewrite <-app_assoc. cbn [app] in *. unfold fresh in *. cbn [s_vals add_node] in H'. rewrite app_length in H'. cbn [length] in H'. rewrite Nat.add_1_r in H'. exact H'.
  Qed.
  Lemma PushBackList_ok w s l o P Q : brel w s → s_lists s !! l = Some P → s_lists s !! o = Some Q → (P = [] → Q = []) →
    wp (b_PushBackList l o) (λ _ w', brel w' (MkBs (<[l := P ++ seq (fresh s) (length Q)]> (s_lists s)) (s_vals s ++ vals_of s Q) (s_cleared s))) w.
  Proof using.
    intros H Hl Ho Hsafe. unfold b_PushBackList, b_Len, b_FrontNode. pose proof (br_list _ _ _ _ H Ho) as Hb. apply wp_bind. wp_step (ls_ok w o _ Hb). apply wp_ret. apply wp_bind. wp_step (ls_ok w o _ Hb). apply wp_ret.
    cbn [bl b_len b_head]. rewrite Nat2Z.id. destruct (decide (Q = [])) as [->|HQ].
    - cbn. apply wp_ret. rewrite !app_nil_r. rewrite list_insert_id by done. by destruct s.
    - apply (push_back_loop_ok l o Q w s P Q [] []); try done; [naive_solver|by rewrite app_nil_r].
  Qed.

  (** PushFrontList *)
  Lemma last_rev_cons {A} (p : list A) a : last (p ++ [a]) = Some a.
  Proof using. apply last_snoc. Qed.
  Lemma push_front_loop_ok l o rest : ∀ w s P Q pre ext n, brel w s → s_lists s !! l = Some P → P ≠ [] → s_lists s !! o = Some Q → Q = pre ++ rest ++ ext →
    (rest ≠ [] → n = last rest) →
    wp (push_front_loop l (length rest) n) (λ _ w', brel w' (MkBs (<[l := reverse (seq (fresh s) (length rest)) ++ P]> (s_lists s)) (s_vals s ++ reverse (vals_of s rest)) (s_cleared s))) w.
  Proof using.
    induction rest as [|a rest IH] using rev_ind; intros w s P Q pre ext n H Hl HP Ho HQ Hn.
    - cbn. apply wp_ret. rewrite app_nil_r. rewrite list_insert_id by done. by destruct s.
    - rewrite (Hn ltac:(by destruct rest)). rewrite last_snoc, app_length, Nat.add_1_r. cbn [push_front_loop]. rewrite <-app_assoc in HQ. cbn [app] in HQ.
      destruct (br_elem w s o Q a H Ho) as (na & x & Hna & _ & Hx & Hvx); [rewrite HQ; set_solver|]. wp_step (nd_ok w a na Hna).
      pose proof (br_list _ _ _ _ H Hl) as Hb. wp_step (ls_ok w l _ Hb). cbn [bl b_head]. destruct P as [|h P]; [done|]. cbn [head].
      destruct (br_lists _ _ H l _ Hl) as (Hc & Hnd & _).
      destruct (br_elem w s l _ h H Hl) as (nm & xm & Hnm & _); [set_solver|].
      apply wp_bind. eapply wp_mono; [apply (InsertBefore_ok w s l _ (b_val na) h nm H Hl Hnm); right; set_solver|]. cbv beta.
      intros r w1. rewrite decide_True by set_solver. intros [_ H1].
      rewrite (ins_before_split h _ [] P) in H1 by done. rewrite Hvx in H1. cbn [app] in H1.
      set (s1 := add_node s l x _) in H1.
      assert (∃ pre', s_lists s1 !! o = Some ((pre' ++ rest) ++ a :: ext)) as (pre' & Ho1).
      { unfold s1. cbn [s_lists add_node]. destruct (decide (o = l)) as [->|Hne].
        - rewrite list_lookup_insert by (by eapply lookup_lt_Some). exists (fresh s :: pre). f_equal. assert (h :: P = pre ++ rest ++ a :: ext) as HQ' by congruence. rewrite HQ', <-app_assoc. done.
        - rewrite list_lookup_insert_ne by done. exists pre. by rewrite Ho, HQ, <-app_assoc. }
      apply wp_bind. eapply wp_eq. { apply (Prev_ok w1 s1 o (pre' ++ rest) a ext H1). exact Ho1. }
      eapply wp_mono; [apply (IH w1 s1 (fresh s :: h :: P) ((pre' ++ rest) ++ a :: ext) pre' (a :: ext) _ H1)|].
      + unfold s1. cbn. rewrite list_lookup_insert by (by eapply lookup_lt_Some). done.
      + done.
      + exact Ho1.
      + by rewrite <-app_assoc.
      + intros Hr. by rewrite last_app_ne.
      + cbv beta. intros _ w' H'. unfold s1 in H'. cbn [s_lists s_vals s_cleared add_node fresh] in H'. rewrite list_insert_insert in H'.
        rewrite vals_of_add in H' by (pose proof (br_lt _ _ _ _ H Ho) as Hf; rewrite HQ in Hf; apply Forall_app in Hf as [_ Hf]; by apply Forall_app in Hf as [Hf _]).
        rewrite vals_of_app, reverse_app. cbn [seq]. rewrite reverse_cons, <-app_assoc. rewrite vals_of_cons, Hx. cbn [vals_of omap list_omap].
        rewrite <-app_assoc in H'. unfold fresh in *. cbn [s_vals add_node] in H'. rewrite app_length in H'. cbn [length] in H'. rewrite Nat.add_1_r in H'. exact H'.
  Qed.
  Lemma BackNode_ok w s l Q : brel w s → s_lists s !! l = Some Q → b_BackNode l w = Ok (last Q, w).
  Proof using.
    intros H Ho. unfold b_BackNode, mbind_. rewrite (ls_ok w l _ (br_list _ _ _ _ H Ho)). cbn [bl b_head]. destruct Q as [|h Q]; [done|]. cbn [head].
    destruct (br_lists _ _ H l _ Ho) as (Hc & Hnd & _). pose proof (cyc_prv _ [] h Q Hc) as Hp. rewrite app_nil_r in Hp. destruct (nd_prev w h _ Hp) as (nh & Eh & Hh). rewrite Eh. by rewrite Hh.
  Qed.
  Lemma PushFrontList_ok w s l o P Q : brel w s → s_lists s !! l = Some P → s_lists s !! o = Some Q → (P = [] → Q = []) →
    wp (b_PushFrontList l o) (λ _ w', brel w' (MkBs (<[l := reverse (seq (fresh s) (length Q)) ++ P]> (s_lists s)) (s_vals s ++ reverse (vals_of s Q)) (s_cleared s))) w.
  Proof using.
    intros H Hl Ho Hsafe. unfold b_PushFrontList, b_Len. pose proof (br_list _ _ _ _ H Ho) as Hb. apply wp_bind. wp_step (ls_ok w o _ Hb). apply wp_ret. wp_step (BackNode_ok w s o Q H Ho).
    cbn [bl b_len b_head]. rewrite Nat2Z.id. destruct (decide (Q = [])) as [->|HQ].
    - cbn. apply wp_ret. rewrite !app_nil_r. rewrite list_insert_id by done. by destruct s.
    - apply (push_front_loop_ok l o Q w s P Q [] []); try done; [naive_solver|by rewrite app_nil_r].
  Qed.

  (** nodes not in any list *)
  Lemma loose w s a n : brel w s → b_nodes w !! a = Some n → a ∉ s_cleared s → b_owner n = None ∨ ∃ k p q, b_owner n = Some k ∧ s_lists s !! k = Some (p ++ a :: q).
  Proof using.
    intros H Ha Hcl. destruct (b_owner n) as [k|] eqn:E; [right|by left]. destruct (br_owner _ _ H a k) as (ps & Hps & Hin); [unfold own; rewrite Ha; cbn; by rewrite E|done|].
    destruct (elem_split a ps Hin) as (p & q & ->). by exists k, p, q.
  Qed.
  Lemma not_own w s a n k ps : brel w s → b_nodes w !! a = Some n → b_owner n ≠ Some k → s_lists s !! k = Some ps → a ∉ ps.
  Proof using. intros H Ha Ho Hk Hin. destruct (br_elem _ _ _ _ _ H Hk Hin) as (n' & x & Hn' & Ho' & _). congruence. Qed.

  Lemma wp_agrees {A} (m : M (bworld T) A) w x s' : wp m (λ r w', r = x ∧ brel w' s') w → agrees brel (m w) (Some (x, s')).
  Proof using. rewrite wp_Ok. intros (a & w' & E & -> & H). exists w'. done. Qed.
  Lemma agrees_ok w s (x : b_out T) : brel w s → agrees brel (Ok (x, w)) (Some (x, s)).
  Proof using. intros H. by exists w. Qed.
  Lemma unit_agrees (m : M (bworld T) unit) w s' : wp m (λ _ w', brel w' s') w → agrees brel ((m ;; mret_ (BUnit (T:=T)))%go w) (Some (BUnit, s')).
  Proof using. intros H. apply wp_agrees. apply wp_bind. eapply wp_mono; [exact H|]. cbv beta. intros _ w' ?. by apply wp_ret. Qed.
  Lemma br_none w s a : brel w s → s_vals s !! a = None → b_nodes w !! a = None.
  Proof using. intros H. rewrite <-(br_vals _ _ H), list_lookup_fmap. by destruct (b_nodes w !! a). Qed.
  Lemma nd_panic w s a : brel w s → s_vals s !! a = None → nd (Some a) w = Panic.
  Proof using. intros H Ha. unfold nd. by rewrite (br_none w s a H Ha). Qed.
  Lemma bind_panic {A B} (m : M (bworld T) A) (f : A → M (bworld T) B) w : m w = Panic → mbind_ m f w = Panic.
  Proof using. unfold mbind_. by intros ->. Qed.

  Lemma b_step_agrees o w s : brel w s → b_safe o s → agrees brel (b_step o w) (b_spec o s).
  Proof using.
    intros H (Hl & Hn & Hx).
    assert (∀ l, l ∈ lists_of o → ∃ ps, s_lists s !! l = Some ps) as HL. { intros l Hin. apply lookup_lt_is_Some_2. by apply Hl. } clear Hl.
    destruct o as [|l x|l x|l x m|l x m|l n|l|l|l|l n|l n|l n m|l o|l o|n x|l|l|l|l|l|l|n|n|n]; cbn [b_step b_spec lists_of nodes_of] in *;
      try (destruct (HL l ltac:(set_solver)) as [ps Hps]; rewrite Hps; cbn [mbind option_bind]).
    - exists (MkBWorld (b_nodes w) (b_lists w ++ [MkBList None 0])). split.
      + unfold b_New, mbind_, mret_. rewrite (br_heads _ _ H), fmap_length. done.
      + split; cbn.
        * apply H. * rewrite (br_heads _ _ H), fmap_app. done.
        * intros k ps Hk. apply lookup_app_Some in Hk as [Hk|[_ Hk]]; [by apply H|]. apply list_lookup_singleton_Some in Hk as [_ <-].
          split_and!; [done|constructor|]. intros a Ha. by apply elem_of_nil in Ha.
        * intros a k Ho Hcl. destruct (br_owner _ _ H a k Ho Hcl) as (ps & Hps & Hin). exists ps. split; [by apply lookup_app_l_Some|done].
    - apply unit_agrees. by apply PushBack_ok.
    - apply unit_agrees. by apply PushFront_ok.
    - destruct m as [m|]; [|done]. cbn [mbind option_bind]. destruct (s_vals s !! m) as [v|] eqn:Hv; cbn [mbind option_bind].
      2:{ apply bind_panic, bind_panic. by apply (nd_panic w s). }
      destruct (br_val _ _ _ _ H Hv) as (n & Hnn & _). pose proof (InsertAfter_ok w s l ps x m n H Hps Hnn ltac:(left; apply Hn; set_solver)) as W.
      destruct (decide (m ∈ ps)); apply wp_agrees, wp_bind; (eapply wp_mono; [exact W|]); cbv beta; intros r w' [-> ?]; by apply wp_ret.
    - destruct m as [m|]; [|done]. cbn [mbind option_bind]. destruct (s_vals s !! m) as [v|] eqn:Hv; cbn [mbind option_bind].
      2:{ apply bind_panic, bind_panic. by apply (nd_panic w s). }
      destruct (br_val _ _ _ _ H Hv) as (n & Hnn & _). pose proof (InsertBefore_ok w s l ps x m n H Hps Hnn ltac:(left; apply Hn; set_solver)) as W.
      destruct (decide (m ∈ ps)); apply wp_agrees, wp_bind; (eapply wp_mono; [exact W|]); cbv beta; intros r w' [-> ?]; by apply wp_ret.
    - destruct n as [n|]; [|done]. cbn [mbind option_bind]. destruct (s_vals s !! n) as [v|] eqn:Hv; cbn [mbind option_bind].
      2:{ apply bind_panic, bind_panic. by apply (nd_panic w s). }
      pose proof (Remove_ok w s l ps n v H Hps Hv ltac:(left; apply Hn; set_solver)) as W.
      apply wp_agrees, wp_bind. eapply wp_mono; [exact W|]. cbv beta. intros r w' [-> ?]; by apply wp_ret.
    - apply unit_agrees. by apply Clear_ok.
    - unfold b_PopBack. destruct ps as [|n ps _] using rev_ind; cbn [last mbind option_bind].
      { cbn [agrees]. unfold mbind_. by rewrite (BackNode_ok w s l [] H Hps). }
      rewrite last_snoc. cbn [mbind option_bind]. destruct (br_elem w s l _ n H Hps) as (nn & v & _ & _ & Hv & _); [set_solver|]. rewrite Hv. cbn [mbind option_bind].
      rewrite app_length, Nat.add_sub, take_app. apply wp_agrees, wp_bind. wp_step (BackNode_ok w s l _ H Hps). rewrite last_snoc.
      eapply wp_mono; [apply (Remove_ok w s l _ n v H Hps Hv); right; set_solver|]. cbv beta. intros r w' [-> H']. apply wp_ret. split; [done|].
      destruct (br_lists _ _ H l _ Hps) as (_ & Hnd & _). rewrite (without_split n ps []) in H' by done. by rewrite app_nil_r in H'.
    - unfold b_PopFront, b_FrontNode. destruct ps as [|n ps]; cbn [head mbind option_bind].
      { cbn [agrees]. unfold mbind_. by rewrite (ls_ok w l _ (br_list _ _ _ _ H Hps)). }
      destruct (br_elem w s l _ n H Hps) as (nn & v & _ & _ & Hv & _); [set_solver|]. rewrite Hv. cbn [mbind option_bind tail].
      apply wp_agrees, wp_bind, wp_bind. wp_step (ls_ok w l _ (br_list _ _ _ _ H Hps)). apply wp_ret. cbn [bl b_head head].
      eapply wp_mono; [apply (Remove_ok w s l _ n v H Hps Hv); right; set_solver|]. cbv beta. intros r w' [-> H']. apply wp_ret. split; [done|].
      destruct (br_lists _ _ H l _ Hps) as (_ & Hnd & _). pose proof (without_split n [] ps Hnd) as E'. cbn [app] in E'. by rewrite E' in H'.
    - destruct n as [n|]; [|done]. cbn [mbind option_bind]. destruct (s_vals s !! n) as [v|] eqn:Hv; cbn [mbind option_bind].
      2:{ apply bind_panic, bind_panic. by apply (nd_panic w s). }
      apply unit_agrees. apply (MoveToFront_ok w s l ps n v); try done. left. apply Hn. set_solver.
    - destruct n as [n|]; [|done]. cbn [mbind option_bind]. destruct (s_vals s !! n) as [v|] eqn:Hv; cbn [mbind option_bind].
      2:{ apply bind_panic, bind_panic. by apply (nd_panic w s). }
      apply unit_agrees. apply (MoveToBack_ok w s l ps n v); try done. left. apply Hn. set_solver.
    - destruct n as [n|]; [|done]. cbn [mbind option_bind]. destruct (s_vals s !! n) as [v|] eqn:Hv; cbn [mbind option_bind].
      2:{ apply bind_panic, bind_panic. by apply (nd_panic w s). }
      destruct (br_val _ _ _ _ H Hv) as (nn & Hnn & _). pose proof (br_member w s l ps n nn H Hps Hnn ltac:(left; apply Hn; set_solver)) as Hmem.
      unfold b_MoveAfter. unfold ptr_eqb. destruct (decide (n ∉ ps ∨ Some n = m)) as [Hd|Hd].
      + apply unit_agrees. wp_step (nd_ok w n nn Hnn). destruct Hd as [Hd|<-].
        * rewrite (bool_decide_eq_false_2 (b_owner nn = Some l)) by (by rewrite Hmem). by apply wp_ret.
        * rewrite (bool_decide_eq_true_2 (Some n = Some n)) by done. rewrite orb_true_r. by apply wp_ret.
      + assert (n ∈ ps) as Hin by (destruct (decide (n ∈ ps)); naive_solver). assert (Some n ≠ m) as Hnm by naive_solver.
        assert (∀ (K : M (bworld T) unit) rr, (let! x := nd (Some n) in if negb (bool_decide (b_owner x = Some l)) || bool_decide (Some n = m) then mret_ tt else K)%go w = rr → rr = K w) as HE.
        { intros K rr <-. unfold mbind_. rewrite (nd_ok w n nn Hnn). rewrite (bool_decide_eq_true_2 (b_owner nn = Some l)) by (by apply Hmem). rewrite bool_decide_eq_false_2 by done. done. }
        destruct m as [m|].
        2:{ cbn [mbind option_bind agrees]. apply bind_panic. by rewrite (HE _ _ eq_refl). }
        cbn [mbind option_bind]. destruct (s_vals s !! m) as [vm|] eqn:Hvm; cbn [mbind option_bind].
        2:{ cbn [agrees]. apply bind_panic. rewrite (HE _ _ eq_refl). apply bind_panic. by apply (nd_panic w s). }
        apply unit_agrees. destruct (br_val _ _ _ _ H Hvm) as (nm & Hnm' & _). pose proof (br_member w s l ps m nm H Hps Hnm' ltac:(left; apply Hn; set_solver)) as Hmem'.
        wp_step (nd_ok w n nn Hnn). rewrite (bool_decide_eq_true_2 (b_owner nn = Some l)) by (by apply Hmem). rewrite bool_decide_eq_false_2 by done. cbn [negb orb].
        wp_step (nd_ok w m nm Hnm'). destruct (decide (m ∈ ps)) as [Hm|Hm].
        * rewrite bool_decide_eq_true_2 by (by apply Hmem'). cbn [negb]. apply (move_after_in w s l ps n m); try done; [congruence|]. specialize (Hx ps Hps). naive_solver.
        * rewrite bool_decide_eq_false_2 by (by rewrite Hmem'). cbn [negb]. by apply wp_ret.
    - destruct (HL o ltac:(set_solver)) as [qs Hqs]. rewrite Hqs. cbn [mbind option_bind]. apply unit_agrees. apply PushBackList_ok; try done. intros ->. specialize (Hx Hps). congruence.
    - destruct (HL o ltac:(set_solver)) as [qs Hqs]. rewrite Hqs. cbn [mbind option_bind]. apply unit_agrees. apply PushFrontList_ok; try done. intros ->. specialize (Hx Hps). congruence.
    - destruct n as [n|]; [|done]. cbn [mbind option_bind]. destruct (s_vals s !! n) as [v|] eqn:Hv; cbn [mbind option_bind].
      2:{ apply bind_panic. unfold set_val, nd_upd. by rewrite (br_none w s n H Hv). }
      apply unit_agrees. destruct (br_val _ _ _ _ H Hv) as (nn & Hnn & _). unfold set_val, nd_upd. eapply wp_eq. { rewrite Hnn. reflexivity. }
      assert (∀ c, nxt (<[n := MkBNode (b_prev nn) (b_next nn) x (b_owner nn)]> (b_nodes w)) c = nxt (b_nodes w) c ∧ prv (<[n := MkBNode (b_prev nn) (b_next nn) x (b_owner nn)]> (b_nodes w)) c = prv (b_nodes w) c ∧
        own (<[n := MkBNode (b_prev nn) (b_next nn) x (b_owner nn)]> (b_nodes w)) c = own (b_nodes w) c) as Hsame.
      { intros c. unfold nxt, prv, own. destruct (decide (c = n)) as [->|]; [rewrite list_lookup_insert by (by eapply lookup_lt_Some); by rewrite Hnn|by rewrite list_lookup_insert_ne]. }
      split; cbn [b_nodes b_lists s_lists s_vals s_cleared].
      + rewrite list_fmap_insert. by rewrite (br_vals _ _ H).
      + apply H.
      + intros k ps Hk. destruct (br_lists _ _ H k ps Hk) as (H1 & H2 & H3). split_and!; [|done|].
        * apply (cyc_frame (b_nodes w)); [done|]. intros a _. destruct (Hsame a) as (-> & -> & _). done.
        * intros a Ha. destruct (Hsame a) as (_ & _ & ->). by apply H3.
      + intros a k. destruct (Hsame a) as (_ & _ & ->). apply H.
    - unfold b_Front, mbind_. rewrite (ls_ok w l _ (br_list _ _ _ _ H Hps)). cbn [bl b_len b_head]. destruct ps as [|n ps]; [done|]. cbn [head mbind option_bind].
      destruct (br_elem w s l _ n H Hps) as (nn & v & Hnn & _ & Hv & Hvv); [set_solver|]. rewrite Hv. cbn [mbind option_bind].
      replace (Z.of_nat (length (n :: ps)) =? 0)%Z with false by (symmetry; apply Z.eqb_neq; cbn; lia). rewrite (nd_ok w n nn Hnn). unfold mret_. rewrite Hvv. by apply agrees_ok.
    - unfold b_Back, mbind_. rewrite (ls_ok w l _ (br_list _ _ _ _ H Hps)). cbn [bl b_len b_head]. destruct ps as [|h ps]; [done|].
      destruct (br_lists _ _ H l _ Hps) as (Hc & _). pose proof (cyc_prv _ [] h ps Hc) as Hp. rewrite app_nil_r in Hp. destruct (nd_prev w h _ Hp) as (nh & Eh & Hh). cbn [head].
      replace (Z.of_nat (length (h :: ps)) =? 0)%Z with false by (symmetry; apply Z.eqb_neq; cbn; lia). rewrite Eh, Hh.
      destruct (exists_last (l := h :: ps)) as (P0 & n & EP); [done|]. rewrite EP, last_snoc. cbn [mbind option_bind].
      destruct (br_elem w s l _ n H Hps) as (nn & v & Hnn & _ & Hv & Hvv); [rewrite EP; set_solver|]. rewrite Hv. cbn [mbind option_bind]. rewrite (nd_ok w n nn Hnn). unfold mret_. rewrite Hvv. by apply agrees_ok.
    - unfold b_Len, mbind_. rewrite (ls_ok w l _ (br_list _ _ _ _ H Hps)). by apply agrees_ok.
    - unfold b_Empty, mbind_. rewrite (ls_ok w l _ (br_list _ _ _ _ H Hps)). unfold mret_. cbn [bl b_len].
      replace (Z.of_nat (length ps) =? 0)%Z with (bool_decide (ps = [])) by (destruct ps; [done|]; symmetry; rewrite bool_decide_eq_false_2 by done; apply Z.eqb_neq; cbn; lia). by apply agrees_ok.
    - unfold b_FrontNode, mbind_. rewrite (ls_ok w l _ (br_list _ _ _ _ H Hps)). by apply agrees_ok.
    - unfold mbind_. rewrite (BackNode_ok w s l _ H Hps). by apply agrees_ok.
    - destruct n as [n|]; [|done]. cbn [mbind option_bind]. destruct (s_vals s !! n) as [v|] eqn:Hv; cbn [mbind option_bind].
      2:{ apply bind_panic, bind_panic. by apply (nd_panic w s). }
      destruct (br_val _ _ _ _ H Hv) as (nn & Hnn & _). destruct (loose w s n nn H Hnn ltac:(apply Hn; set_solver)) as [Ho|(k & p & q & Ho & Hk)].
      + unfold mbind_, b_Next, mbind_. rewrite (nd_ok w n nn Hnn), Ho. unfold mret_. rewrite omap_none; [by apply agrees_ok|].
        intros j qs Hj. apply succ_in_not. eapply (not_own w s n nn j); try done. congruence.
      + unfold mbind_. rewrite (Next_ok w s k p n q H Hk). destruct (br_lists _ _ H k _ Hk) as (_ & Hnd & _). rewrite (head_omap_one _ _ k (p ++ n :: q)); [|done|].
        * rewrite succ_in_split by done. by apply agrees_ok.
        * intros j qs Hj Hne. apply succ_in_not. eapply (not_own w s n nn j); try done. congruence.
    - destruct n as [n|]; [|done]. cbn [mbind option_bind]. destruct (s_vals s !! n) as [v|] eqn:Hv; cbn [mbind option_bind].
      2:{ apply bind_panic, bind_panic. by apply (nd_panic w s). }
      destruct (br_val _ _ _ _ H Hv) as (nn & Hnn & _). destruct (loose w s n nn H Hnn ltac:(apply Hn; set_solver)) as [Ho|(k & p & q & Ho & Hk)].
      + unfold mbind_, b_Prev, mbind_. rewrite (nd_ok w n nn Hnn), Ho. unfold mret_. rewrite omap_none; [by apply agrees_ok|].
        intros j qs Hj. apply pred_in_not. eapply (not_own w s n nn j); try done. congruence.
      + unfold mbind_. rewrite (Prev_ok w s k p n q H Hk). destruct (br_lists _ _ H k _ Hk) as (_ & Hnd & _). rewrite (head_omap_one _ _ k (p ++ n :: q)); [|done|].
        * rewrite pred_in_split by done. by apply agrees_ok.
        * intros j qs Hj Hne. apply pred_in_not. eapply (not_own w s n nn j); try done. congruence.
    - destruct n as [n|]; [|done]. cbn [mbind option_bind]. destruct (s_vals s !! n) as [v|] eqn:Hv; cbn [mbind option_bind].
      2:{ apply bind_panic. by apply (nd_panic w s). }
      destruct (br_val _ _ _ _ H Hv) as (nn & Hnn & Hvv). unfold mbind_. rewrite (nd_ok w n nn Hnn), Hvv. by apply agrees_ok.
  Qed.

  Theorem b_history_from ops : ∀ w s, brel w s → b_safe_run ops s → agrees brel (run b_step ops w) (srun b_spec ops s).
  Proof using.
    induction ops as [|o ops IH]; intros w s H Hs; cbn [run srun].
    - by exists w.
    - destruct Hs as [Ho Hs]. pose proof (b_step_agrees o w s H Ho) as Ha. destruct (b_spec o s) as [[r s']|]; cbn [agrees] in *.
      + destruct Ha as (w' & -> & H'). specialize (IH w' s' H' Hs). destruct (srun b_spec ops s') as [[rs s'']|]; cbn [agrees] in *.
        * destruct IH as (w'' & -> & H''). by exists w''. * by rewrite IH.
      + by rewrite Ha.
  Qed.

  (** walking *)
  Lemma walk_next_ok w s k p q : brel w s → s_lists s !! k = Some (p ++ q) → ∀ fuel, length q ≤ fuel → bi_walk bi_Next fuel (head q) w = Ok (vals_of s q, w).
  Proof using.
    intros H. revert p. induction q as [|a q IH]; intros p Hk fuel Hf; [by destruct fuel|]. destruct fuel as [|fuel]; [cbn in Hf; lia|].
    destruct (br_elem w s k _ a H Hk) as (nn & v & Hnn & _ & Hv & Hvv); [set_solver|].
    cbn [bi_walk head]. change (bi_valid (Some a)) with true. unfold mbind_, bi_Value, bi_Next, mbind_. cbn iota. rewrite (nd_ok w a nn Hnn). unfold mret_. rewrite (Next_ok w s k p a q H Hk).
    rewrite (IH (p ++ [a])); [|by rewrite <-app_assoc|cbn in Hf; lia]. rewrite vals_of_cons, Hv, Hvv. done.
  Qed.
  Lemma walk_prev_ok w s k p q : brel w s → s_lists s !! k = Some (p ++ q) → ∀ fuel, length p ≤ fuel → bi_walk bi_Prev fuel (last p) w = Ok (reverse (vals_of s p), w).
  Proof using.
    intros H. revert q. induction p as [|a p IH] using rev_ind; intros q Hk fuel Hf; [by destruct fuel|]. destruct fuel as [|fuel]; [rewrite app_length in Hf; cbn in Hf; lia|].
    rewrite <-app_assoc in Hk. cbn [app] in Hk.
    destruct (br_elem w s k _ a H Hk) as (nn & v & Hnn & _ & Hv & Hvv); [set_solver|]. rewrite last_snoc.
    cbn [bi_walk]. change (bi_valid (Some a)) with true. unfold mbind_, bi_Value, bi_Prev, mbind_. cbn iota. rewrite (nd_ok w a nn Hnn). unfold mret_. rewrite (Prev_ok w s k p a q H Hk).
    rewrite (IH (a :: q)); [|done|rewrite app_length in Hf; cbn in Hf; lia]. rewrite vals_of_app, vals_of_cons, Hv, Hvv, reverse_app. done.
  Qed.
  Lemma traverse_ok f w s k p q : brel w s → s_lists s !! k = Some (p ++ q) → ∀ fuel, length q ≤ fuel → traverse f fuel (head q) w = Ok (upto f (vals_of s q), w).
  Proof using.
    intros H. revert p. induction q as [|a q IH]; intros p Hk fuel Hf; [by destruct fuel|]. destruct fuel as [|fuel]; [cbn in Hf; lia|].
    destruct (br_elem w s k _ a H Hk) as (nn & v & Hnn & _ & Hv & Hvv); [set_solver|]. rewrite vals_of_cons, Hv.
    cbn [traverse head upto]. unfold mbind_. rewrite (nd_ok w a nn Hnn), Hvv. destruct (f v); [|done]. rewrite (Next_ok w s k p a q H Hk).
    rewrite (IH (p ++ [a])); [|by rewrite <-app_assoc|cbn in Hf; lia]. done.
  Qed.
End hist.
