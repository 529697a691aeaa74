(** Bidirectional list operations refine operations on node sequences. *)
From Verif Require Import Base Wp BidlistModel BidlistSpec BidlistCyc.
Open Scope nat_scope.

Section seqs.
  Implicit Types (ps p q : list nat).
  Lemma without_app n p q : without n (p ++ q) = without n p ++ without n q.
  Proof using. apply filter_app. Qed.
  Lemma without_not n p : n ∉ p → without n p = p.
  Proof using.
    unfold without. induction p as [|a p IH]; [done|]. intros H. apply not_elem_of_cons in H as [H1 H2]. rewrite filter_cons_True by done. by rewrite IH.
  Qed.
  Lemma without_split n p q : NoDup (p ++ n :: q) → without n (p ++ n :: q) = p ++ q.
  Proof using.
    intros H. apply NoDup_app in H as (_ & H1 & H2). apply NoDup_cons in H2 as [H2 _]. rewrite without_app.
    rewrite without_not by (intros Hn; apply (H1 n Hn); set_solver). f_equal.
    unfold without. rewrite filter_cons_False by auto. by apply without_not.
  Qed.
  Lemma ins_after_not m n p : m ∉ p → ins_after m n p = p.
  Proof using. unfold ins_after. induction p as [|a p IH]; [done|]. intros H. apply not_elem_of_cons in H as [H1 H2]. rewrite bind_cons, decide_False by done. rewrite IH by done. done. Qed.
  Lemma ins_after_split m n p q : NoDup (p ++ m :: q) → ins_after m n (p ++ m :: q) = p ++ m :: n :: q.
  Proof using.
    intros H. apply NoDup_app in H as (_ & H1 & H2). apply NoDup_cons in H2 as [H2 _]. unfold ins_after.
    rewrite bind_app, bind_cons, decide_True by done. fold (ins_after m n p). fold (ins_after m n q).
    rewrite !ins_after_not; [done|done|]. intros Hn. apply (H1 m Hn). set_solver.
  Qed.
  Lemma ins_before_not m n p : m ∉ p → ins_before m n p = p.
  Proof using. unfold ins_before. induction p as [|a p IH]; [done|]. intros H. apply not_elem_of_cons in H as [H1 H2]. rewrite bind_cons, decide_False by done. rewrite IH by done. done. Qed.
  Lemma ins_before_split m n p q : NoDup (p ++ m :: q) → ins_before m n (p ++ m :: q) = p ++ n :: m :: q.
  Proof using.
    intros H. apply NoDup_app in H as (_ & H1 & H2). apply NoDup_cons in H2 as [H2 _]. unfold ins_before.
    rewrite bind_app, bind_cons, decide_True by done. fold (ins_before m n p). fold (ins_before m n q).
    rewrite !ins_before_not; [done|done|]. intros Hn. apply (H1 m Hn). set_solver.
  Qed.
  Lemma succ_in_not a p : a ∉ p → succ_in a p = None.
  Proof using. induction p as [|b p IH]; [done|]. intros H. apply not_elem_of_cons in H as [H1 H2]. cbn. rewrite decide_False by done. by apply IH. Qed.
  Lemma succ_in_split a p q : NoDup (p ++ a :: q) → succ_in a (p ++ a :: q) = head q.
  Proof using.
    induction p as [|b p IH]; cbn [app succ_in]; intros H; [by rewrite decide_True|].
    apply NoDup_cons in H as [H1 H2]. rewrite decide_False by set_solver. by apply IH.
  Qed.
  Lemma pred_in_not a p : a ∉ p → pred_in a p = None.
  Proof using. intros H. apply succ_in_not. by rewrite elem_of_reverse. Qed.
  Lemma head_rev {A} (l : list A) : head (reverse l) = last l.
  Proof using. destruct l as [|x l _] using rev_ind; [done|]. by rewrite reverse_snoc, last_snoc. Qed.
  Lemma pred_in_split a p q : NoDup (p ++ a :: q) → pred_in a (p ++ a :: q) = last p.
  Proof using.
    intros H. unfold pred_in. rewrite reverse_app, reverse_cons, <-app_assoc. cbn [app].
    rewrite succ_in_split; [apply head_rev|]. replace (reverse q ++ a :: reverse p) with (reverse (p ++ a :: q)).
    - eapply NoDup_Permutation_proper; [apply reverse_Permutation|done].
    - by rewrite reverse_app, reverse_cons, <-app_assoc.
  Qed.
  Lemma NoDup_mid a p q : NoDup (p ++ a :: q) → a ∉ p ∧ a ∉ q ∧ NoDup (p ++ q).
  Proof using.
    intros H. rewrite <-Permutation_middle in H. apply NoDup_cons in H as [H1 H2]. set_solver.
  Qed.
  Lemma NoDup_ins n p q : NoDup (p ++ q) → n ∉ p ++ q → NoDup (p ++ n :: q).
  Proof using. intros H1 H2. rewrite <-Permutation_middle. by constructor. Qed.
  Lemma head_app_ne {A} (p q : list A) : p ≠ [] → head (p ++ q) = head p.
  Proof using. by destruct p. Qed.
  Lemma last_app_ne {A} (p q : list A) : q ≠ [] → last (p ++ q) = last q.
  Proof using. destruct q as [|x q _] using rev_ind; [done|]. intros _. by rewrite app_assoc, !last_snoc. Qed.
  (** lookup across lists that do not share a *)
  Lemma head_omap_one (f : list nat → option nat) (L : list (list nat)) k ps : L !! k = Some ps →
    (∀ j qs, L !! j = Some qs → j ≠ k → f qs = None) → head (omap f L) = f ps.
  Proof using.
    revert k. induction L as [|qs L IH]; intros k Hk Ho; [done|]. destruct k as [|k].
    - cbn in Hk. simplify_eq. cbn. destruct (f ps) as [b|] eqn:E; [done|].
      assert (omap f L = []) as ->; [|done]. clear -Ho. assert (∀ j qs, L !! j = Some qs → f qs = None) as H. { intros j qs Hj. apply (Ho (S j)); done. }
      clear Ho. induction L as [|qs L IH]; [done|]. cbn. rewrite (H 0 qs eq_refl). apply IH. intros j qs' Hj. by apply (H (S j)).
    - cbn. rewrite (Ho 0 qs) by done. apply (IH k); [done|]. intros j qs' Hj Hne. by apply (Ho (S j)); [|lia].
  Qed.
  Lemma omap_none (f : list nat → option nat) (L : list (list nat)) : (∀ j qs, L !! j = Some qs → f qs = None) → omap f L = [].
  Proof using. intros H. induction L as [|qs L IH]; [done|]. cbn. rewrite (H 0 qs eq_refl). apply IH. intros j qs' Hj. by apply (H (S j)). Qed.
End seqs.

Section rel.
  Context {T : Type}.
  Implicit Types (ns : list (bnode T)) (w : bworld T) (s : bs T) (ps : list nat).
  Definition bl ps : blist := MkBList (head ps) (Z.of_nat (length ps)).
  Definition lok ns (k : nat) ps : Prop := cyc ns ps ∧ NoDup ps ∧ ∀ a, a ∈ ps → own ns a = Some (Some k).
  Record brel w s : Prop := {
    br_vals : b_val <$> b_nodes w = s_vals s;
    br_heads : b_lists w = bl <$> s_lists s;
    br_lists : ∀ k ps, s_lists s !! k = Some ps → lok (b_nodes w) k ps;
    br_owner : ∀ a k, own (b_nodes w) a = Some (Some k) → a ∉ s_cleared s → ∃ ps, s_lists s !! k = Some ps ∧ a ∈ ps;
  }.
  Lemma brel_0 : brel bworld0 bs0.
  Proof using. by split. Qed.
  Lemma br_len w s : brel w s → length (b_nodes w) = length (s_vals s).
  Proof using. intros H. rewrite <-(br_vals _ _ H). by rewrite fmap_length. Qed.
  Lemma br_list w s k ps : brel w s → s_lists s !! k = Some ps → b_lists w !! k = Some (bl ps).
  Proof using. intros H Hk. rewrite (br_heads _ _ H), list_lookup_fmap, Hk. done. Qed.
  Lemma br_val w s a x : brel w s → s_vals s !! a = Some x → ∃ n, b_nodes w !! a = Some n ∧ b_val n = x.
  Proof using. intros H Ha. rewrite <-(br_vals _ _ H), list_lookup_fmap in Ha. apply fmap_Some in Ha as (n & Hn & ->). eauto. Qed.
  Lemma own_alloc ns a o : own ns a = Some o → a < length ns.
  Proof using. unfold own. intros H. apply fmap_Some in H as (x & H & _). by eapply lookup_lt_Some. Qed.
  (** a node belongs to exactly the list that owns it, unless Clear dropped it *)
  Lemma br_member w s k ps a n : brel w s → s_lists s !! k = Some ps → b_nodes w !! a = Some n → a ∉ s_cleared s ∨ a ∈ ps →
    b_owner n = Some k ↔ a ∈ ps.
  Proof using.
    intros H Hk Ha Hc. split.
    - intros Ho. destruct Hc as [Hc|Hc]; [|done]. destruct (br_owner _ _ H a k) as (ps' & Hps' & Hin); [unfold own; rewrite Ha; cbn; by rewrite Ho|done|]. congruence.
    - intros Hin. destruct (br_lists _ _ H k ps Hk) as (_ & _ & Ho). specialize (Ho a Hin). unfold own in Ho. rewrite Ha in Ho. by injection Ho.
  Qed.
  Lemma br_elem w s k ps a : brel w s → s_lists s !! k = Some ps → a ∈ ps → ∃ n x, b_nodes w !! a = Some n ∧ b_owner n = Some k ∧ s_vals s !! a = Some x ∧ b_val n = x.
  Proof using.
    intros H Hk Ha. destruct (br_lists _ _ H k ps Hk) as (_ & _ & Ho). specialize (Ho a Ha). unfold own in Ho. apply fmap_Some in Ho as (n & Hn & Ho).
    exists n, (b_val n). split_and!; try done. rewrite <-(br_vals _ _ H), list_lookup_fmap, Hn. done.
  Qed.
  Lemma br_other w s j k ps qs a : brel w s → s_lists s !! j = Some ps → s_lists s !! k = Some qs → j ≠ k → a ∈ ps → a ∉ qs.
  Proof using.
    intros H Hj Hk Hne Ha Hb. destruct (br_elem _ _ _ _ _ H Hj Ha) as (n & x & Hn & Ho & _). destruct (br_elem _ _ _ _ _ H Hk Hb) as (n' & x' & Hn' & Ho' & _). congruence.
  Qed.

  (** changing one list *)
  Lemma brel_change w s k ps ps' ns' cl : brel w s → s_lists s !! k = Some ps → lok ns' k ps' →
    (∀ c j, j ≠ k → own (b_nodes w) c = Some (Some j) → nxt ns' c = nxt (b_nodes w) c ∧ prv ns' c = prv (b_nodes w) c ∧ own ns' c = own (b_nodes w) c) →
    (∀ c j, j ≠ k → own ns' c = Some (Some j) → own (b_nodes w) c = Some (Some j)) →
    (∀ c, own ns' c = Some (Some k) → c ∉ cl → c ∈ ps') → (∀ c, c ∈ s_cleared s → c ∈ cl) →
    brel (MkBWorld ns' (<[k := bl ps']> (b_lists w))) (MkBs (<[k := ps']> (s_lists s)) (b_val <$> ns') cl).
  Proof using.
    intros H Hk Hlok Hfr Hown Hk' Hcl. split; cbn [b_nodes b_lists s_lists s_vals s_cleared].
    - done.
    - rewrite (br_heads _ _ H). by rewrite list_fmap_insert.
    - intros j qs Hj. destruct (decide (j = k)) as [->|Hne].
      + rewrite list_lookup_insert in Hj by (by eapply lookup_lt_Some). by simplify_eq.
      + rewrite list_lookup_insert_ne in Hj by done. destruct (br_lists _ _ H j qs Hj) as (H1 & H2 & H3).
        split_and!; [|done|].
        * apply (cyc_frame (b_nodes w)); [done|]. intros a Ha. destruct (Hfr a j Hne (H3 a Ha)) as (? & ? & _). done.
        * intros a Ha. destruct (Hfr a j Hne (H3 a Ha)) as (_ & _ & ->). by apply H3.
    - intros a j Ho Hc. destruct (decide (j = k)) as [->|Hne].
      + exists ps'. rewrite list_lookup_insert by (by eapply lookup_lt_Some). split; [done|]. by apply Hk'.
      + destruct (br_owner _ _ H a j) as (qs & Hqs & Hin); [by apply Hown|by auto|]. exists qs. by rewrite list_lookup_insert_ne.
  Qed.

  (** cyclic neighbours *)
  Lemma cyc_nxt ns p a q : cyc ns (p ++ a :: q) → nxt ns a = Some (head (q ++ p ++ [a])).
  Proof using.
    intros H. change (a :: q) with ([a] ++ q) in H. rewrite app_assoc in H. apply cyc_rot in H. rewrite app_assoc in H.
    destruct (cyc_last _ _ _ H) as (h & Hh & [Hl _] & _). rewrite <-app_assoc in Hh. by rewrite Hh.
  Qed.
  Lemma cyc_prv ns p a q : cyc ns (p ++ a :: q) → prv ns a = Some (last (a :: q ++ p)).
  Proof using.
    intros H. apply cyc_rot in H. cbn [app] in H. destruct (q ++ p) as [|z r _] using rev_ind.
    - cbn. destruct (cyc_last ns [] a H) as (h & Hh & [_ Hl] & _). cbn in Hh. by simplify_eq.
    - change (a :: r ++ [z]) with ((a :: r) ++ [z]) in *. destruct (cyc_last _ _ _ H) as (h & Hh & [_ Hl] & _). cbn in Hh. simplify_eq. by rewrite last_snoc.
  Qed.

  (** linking a node that is not in the list after m *)
  Lemma insert_after_ok w k ps p m q n : b_lists w !! k = Some (bl ps) → ps = p ++ m :: q → cyc (b_nodes w) ps → NoDup ps → n ∉ ps → n < length (b_nodes w) →
    wp (insert_after k (Some n) (Some m)) (λ r w', r = Some n ∧ ∃ ns', 
        w' = MkBWorld ns' (<[k := MkBList (head ps) (Z.of_nat (length ps) + 1)]> (b_lists w)) ∧ same (b_nodes w) ns' ∧ cyc ns' (p ++ m :: n :: q) ∧
        (∀ c, c ∉ n :: ps → nxt ns' c = nxt (b_nodes w) c ∧ prv ns' c = prv (b_nodes w) c)) w.
  Proof using.
    intros Hk -> Hc Hnd Hn Hal. unfold insert_after.
    assert (cyc (b_nodes w) ((q ++ p) ++ [m])) as Hc'. { rewrite <-app_assoc. apply (cyc_rot _ (p ++ [m])). by rewrite <-app_assoc. }
    assert (Permutation ((q ++ p) ++ [m]) (p ++ m :: q)) as Hperm. { rewrite (Permutation_app_comm q p), <-(Permutation_middle p q m). by rewrite <-(Permutation_cons_append (p ++ q)). }
    apply (link_last w (q ++ p) m n); [done|by rewrite Hperm|by rewrite Hperm|done|]. intros ns' Hs Hcy Hfr.
    apply wp_bind. unfold len_add, ls_upd. eapply wp_eq. { cbn [wnodes b_lists]. rewrite Hk. reflexivity. } apply wp_ret. split; [done|].
    exists ns'. split_and!; try done.
    - replace (p ++ m :: n :: q) with ((p ++ [m; n]) ++ q) by (by rewrite <-app_assoc). apply cyc_rot. by rewrite app_assoc.
    - intros c Hcn. apply Hfr. change [m; n] with ([m] ++ [n]). rewrite app_assoc. rewrite <-Permutation_cons_append, Hperm. done.
  Qed.

  Lemma new_ns_facts ns x (k : nat) : let ns1 := ns ++ [MkBNode None None x (Some k)] in
    (∀ c, c < length ns → nxt ns1 c = nxt ns c ∧ prv ns1 c = prv ns c ∧ own ns1 c = own ns c) ∧
    own ns1 (length ns) = Some (Some k) ∧ (∀ c o, own ns1 c = Some o → c ≠ length ns → own ns c = Some o) ∧ b_val <$> ns1 = (b_val <$> ns) ++ [x].
  Proof using.
    intros ns1. unfold ns1. split_and!.
    - intros c Hc. unfold nxt, prv, own. by rewrite lookup_app_l.
    - unfold own. by rewrite list_lookup_middle.
    - intros c o Ho Hne. unfold own in *. destruct (decide (c < length ns)); [by rewrite lookup_app_l in Ho|].
      rewrite lookup_ge_None_2 in Ho; [done|]. rewrite app_length. cbn. lia.
    - by rewrite fmap_app.
  Qed.

  (** inserting a fresh node after m: the state reached, up to the head pointer *)
  Lemma insert_fresh w s k ps p m q x : brel w s → s_lists s !! k = Some ps → ps = p ++ m :: q →
    wp (insert_after k (Some (length (b_nodes w))) (Some m)) (λ r w', r = Some (fresh s) ∧
        ∃ ns', w' = MkBWorld ns' (<[k := MkBList (head ps) (Z.of_nat (length ps) + 1)]> (b_lists w)) ∧ cyc ns' (p ++ m :: fresh s :: q) ∧
        ∀ ps', Permutation ps' (p ++ m :: fresh s :: q) → cyc ns' ps' →
          brel (MkBWorld ns' (<[k := bl ps']> (b_lists w))) (add_node s k x ps')) (MkBWorld (b_nodes w ++ [MkBNode None None x (Some k)]) (b_lists w)).
  Proof using.
    intros H Hk Hps. set (n := length (b_nodes w)). set (ns1 := b_nodes w ++ _). assert (n = fresh s) as En by (unfold n, fresh; by apply br_len).
    destruct (br_lists _ _ H k ps Hk) as (Hc & Hnd & Ho). destruct (new_ns_facts (b_nodes w) x k) as (F1 & F2 & F3 & F4). fold ns1 n in F1, F2, F3, F4.
    assert (n ∉ ps) as Hn. { intros Hin. specialize (Ho n Hin). apply own_alloc in Ho. unfold n in Ho. lia. }
    eapply wp_mono; [apply (insert_after_ok (MkBWorld ns1 (b_lists w)) k ps p m q n)|]; cbn [b_nodes b_lists].
    { by apply (br_list w s). } { done. } { apply (cyc_frame (b_nodes w)); [done|]. intros a Ha. apply Ho, own_alloc in Ha. destruct (F1 a Ha) as (? & ? & _). done. }
    { done. } { done. } { unfold ns1. rewrite app_length. unfold n. cbn. lia. }
    cbv beta. rewrite En. intros r w' (-> & ns' & -> & (Sl & Sv & So) & Hcy & Hfr). split; [done|]. exists ns'. split_and!; try done.
    intros ps' Hperm Hcy'. assert (Permutation ps' (fresh s :: ps)) as Hperm'. { rewrite Hperm, Hps. change (m :: fresh s :: q) with ([m] ++ fresh s :: q). rewrite app_assoc, <-Permutation_middle, <-app_assoc. done. }
    assert (b_val <$> ns' = s_vals s ++ [x]) as Hv. { rewrite Sv, F4. by rewrite (br_vals _ _ H). }
    unfold add_node. rewrite <-Hv. apply (brel_change w s k ps); try done.
    - split_and!; [done| |].
      + rewrite Hperm'. constructor; [by rewrite <-En|done].
      + intros a. rewrite Hperm'. intros Ha. rewrite So. apply elem_of_cons in Ha as [->|Ha]; [by rewrite <-En|].
        specialize (Ho a Ha). destruct (F1 a) as (_ & _ & ->); [by eapply own_alloc|done].
    - intros c j Hne Hoc. pose proof (own_alloc _ _ _ Hoc) as Hal. destruct (F1 c Hal) as (E1 & E2 & E3). rewrite So, E3. rewrite <-E1, <-E2.
      destruct (Hfr c) as [? ?]; [|done]. apply not_elem_of_cons. split; [rewrite <-En; unfold n; lia|]. intros Hin. rewrite (Ho c Hin) in Hoc. congruence.
    - intros c j Hne Hoc. rewrite So in Hoc. apply F3; [done|]. intros ->. rewrite F2 in Hoc. congruence.
    - intros c Hoc Hcl. rewrite So in Hoc. rewrite Hperm'. destruct (decide (c = n)) as [->|Hne]; [rewrite En; set_solver|].
      apply F3 in Hoc; [|done]. destruct (br_owner _ _ H c k Hoc Hcl) as (ps0 & Hps0 & Hin). simplify_eq. set_solver.
  Qed.
  Lemma bl_S ps ps' : head ps' = head ps → length ps' = S (length ps) → MkBList (head ps) (Z.of_nat (length ps) + 1) = bl ps'.
  Proof using. intros H1 H2. unfold bl. rewrite H1, H2. f_equal. lia. Qed.
  Lemma elem_split (a : nat) ps : a ∈ ps → ∃ p q, ps = p ++ a :: q.
  Proof using. apply elem_of_list_split. Qed.

  (** pushBack *)
  Lemma push_back_ok w s k ps x : brel w s → s_lists s !! k = Some ps →
    wp (push_back k x) (λ r w', r = Some (fresh s) ∧ brel w' (add_node s k x (ps ++ [fresh s])) ∧
      ∃ ns', w' = MkBWorld ns' (<[k := bl (ps ++ [fresh s])]> (b_lists w)) ∧ 
             brel (MkBWorld ns' (<[k := bl (fresh s :: ps)]> (b_lists w))) (add_node s k x (fresh s :: ps))) w.
  Proof using.
    intros H Hk. unfold push_back. wp_go. pose proof (br_list _ _ _ _ H Hk) as Hb.
    apply wp_bind. eapply wp_eq. { apply ls_ok. exact Hb. } cbn [bl b_len b_head].
    destruct (Z.eqb_spec (Z.of_nat (length ps)) 0) as [E|E].
    - destruct ps; [|cbn in E; lia]. set (n := length (b_nodes w)). assert (n = fresh s) as En by (unfold n, fresh; by apply br_len).
      set (ns1 := b_nodes w ++ _). destruct (new_ns_facts (b_nodes w) x k) as (F1 & F2 & F3 & F4). fold ns1 n in F1, F2, F3, F4.
      assert (n < length ns1) as Hal by (unfold ns1; rewrite app_length; unfold n; cbn; lia).
      apply wp_bind. eapply wp_mono; [by apply set_prev_ok|]. cbv beta. cbn [b_nodes b_lists]. intros _ w1 (ns2 & -> & S1 & P1 & N1).
      apply wp_bind. eapply wp_mono; [apply set_next_ok; cbn; destruct S1 as [-> _]; done|]. cbv beta. cbn [wnodes b_nodes b_lists]. intros _ w2 (ns3 & -> & S2 & N2 & P2).
      pose proof (same_trans _ _ _ S1 S2) as (Sl & Sv & So). cbn [wnodes b_nodes b_lists].
      assert (k < length (b_lists w)) as Hkl by (by eapply lookup_lt_Some).
      apply wp_bind. eapply wp_eq. { unfold set_head, ls_upd. cbn [wnodes b_lists]. rewrite Hb. reflexivity. }
      apply wp_bind. eapply wp_eq. { unfold len_add, ls_upd. cbn [wnodes b_lists b_nodes]. rewrite list_lookup_insert by done. reflexivity. }
      apply wp_ret. rewrite En. split; [done|]. cbn [b_head b_len app]. rewrite list_insert_insert.
      assert (brel (MkBWorld ns3 (<[k:=bl [fresh s]]> (b_lists w))) (add_node s k x [fresh s])) as HB.
      { assert (b_val <$> ns3 = s_vals s ++ [x]) as Hv. { rewrite Sv, F4. by rewrite (br_vals _ _ H). }
        unfold add_node. rewrite <-Hv. apply (brel_change w s k []); try done.
        - split_and!; [|apply NoDup_singleton|].
          + rewrite <-En. cbn. split; [|done]. split; [by rewrite N2, decide_True|by rewrite P2, P1, decide_True].
          + intros a Ha. apply elem_of_list_singleton in Ha as ->. by rewrite So, <-En.
        - intros c j Hne Hoc. pose proof (own_alloc _ _ _ Hoc) as Hal'. destruct (F1 c Hal') as (E1 & E2 & E3). rewrite So, E3, N2, N1, P2, P1.
          assert (c ≠ n) by (unfold n; lia). rewrite !decide_False by done. done.
        - intros c j Hne Hoc. rewrite So in Hoc. apply F3; [done|]. intros ->. rewrite F2 in Hoc. congruence.
        - intros c Hoc Hcl. rewrite So in Hoc. destruct (decide (c = n)) as [->|Hne]; [rewrite En; set_solver|].
          apply F3 in Hoc; [|done]. destruct (br_owner _ _ H c k Hoc Hcl) as (ps0 & Hps0 & Hin). simplify_eq. set_solver. }
      split; [exact HB|]. exists ns3. split; [done|exact HB].
    - destruct ps as [|h ps']; [cbn in E; lia|]. set (ps := h :: ps') in *. change (head ps) with (Some h).
      destruct (br_lists _ _ H k ps Hk) as (Hc & Hnd & Ho).
      pose proof (cyc_prv _ [] h ps' Hc) as Hp. rewrite app_nil_r in Hp. fold ps in Hp.
      destruct (nd_prev w h _ Hp) as (y & Ey & Hy).
      assert (∃ y', b_nodes w !! h = Some y' ∧ y' = y) as (y' & Hy' & ->). { unfold nd in Ey. destruct (b_nodes w !! h); [|done]. simplify_eq. eauto. }
      apply wp_bind. eapply wp_eq. { apply nd_ok. cbn [b_nodes]. apply lookup_app_l_Some. exact Hy'. }
      destruct (exists_last (l := ps)) as (p & m & Epm); [done|]. rewrite Hy. rewrite Epm, last_snoc.
      eapply wp_mono; [apply (insert_fresh w s k ps p m [] x H Hk Epm)|]. cbv beta. intros r w' (-> & ns' & -> & Hcy & HB). split; [done|].
      replace (p ++ [m; fresh s]) with (ps ++ [fresh s]) in * by (rewrite Epm, <-app_assoc; done).
      rewrite <-Epm. rewrite (bl_S ps (ps ++ [fresh s])) by (rewrite ?app_length; cbn; done || lia). split.
      + by apply HB.
      + exists ns'. split; [done|]. apply HB; [by rewrite <-Permutation_cons_append|]. by apply (cyc_rot _ ps [fresh s]).
  Qed.
  Lemma PushBack_ok w s k ps x : brel w s → s_lists s !! k = Some ps → wp (b_PushBack k x) (λ _ w', brel w' (add_node s k x (ps ++ [fresh s]))) w.
  Proof using. intros H Hk. unfold b_PushBack. apply wp_bind. eapply wp_mono; [by apply push_back_ok|]. cbv beta. by intros r w' (_ & ? & _). Qed.
  Lemma PushFront_ok w s k ps x : brel w s → s_lists s !! k = Some ps → wp (b_PushFront k x) (λ _ w', brel w' (add_node s k x (fresh s :: ps))) w.
  Proof using.
    intros H Hk. unfold b_PushFront. apply wp_bind. eapply wp_mono; [by apply push_back_ok|]. cbv beta. intros r w' (-> & _ & ns' & -> & HB).
    pose proof (br_list _ _ _ _ H Hk) as Hb. assert (k < length (b_lists w)) by (by eapply lookup_lt_Some).
    unfold set_head, ls_upd. eapply wp_eq. { cbn [b_lists]. rewrite list_lookup_insert by done. reflexivity. }
    cbn [b_nodes bl b_len]. rewrite list_insert_insert. rewrite app_length, Nat.add_comm. exact HB.
  Qed.
  Lemma InsertAfter_ok w s k ps x m n : brel w s → s_lists s !! k = Some ps → b_nodes w !! m = Some n → m ∉ s_cleared s ∨ m ∈ ps →
    wp (b_InsertAfter k x (Some m)) (λ r w', if decide (m ∈ ps) then r = Some (fresh s) ∧ brel w' (add_node s k x (ins_after m (fresh s) ps)) else r = None ∧ brel w' s) w.
  Proof using.
    intros H Hk Hm Hcl. unfold b_InsertAfter. wp_step (nd_ok w m n Hm). pose proof (br_member w s k ps m n H Hk Hm Hcl) as Hmem.
    unfold ptr_eqb. destruct (decide (m ∈ ps)) as [Hin|Hin]; [rewrite bool_decide_eq_true_2 by (by apply Hmem)|rewrite bool_decide_eq_false_2 by (by rewrite Hmem)]; cbn [negb].
    - destruct (elem_split m ps Hin) as (p & q & Eps). wp_go.
      destruct (br_lists _ _ H k ps Hk) as (Hc & Hnd & _).
      eapply wp_mono; [apply (insert_fresh w s k ps p m q x H Hk Eps)|]. cbv beta. intros r w' (-> & ns' & -> & Hcy & HB). split; [done|].
      assert (ins_after m (fresh s) ps = p ++ m :: fresh s :: q) as ->. { rewrite Eps, ins_after_split; [done|]. by rewrite <-Eps. } rewrite (bl_S ps (p ++ m :: fresh s :: q)); [by apply HB|rewrite Eps; by destruct p|rewrite Eps, !app_length; cbn; lia].
    - by apply wp_ret.
  Qed.
  Lemma InsertBefore_ok w s k ps x m n : brel w s → s_lists s !! k = Some ps → b_nodes w !! m = Some n → m ∉ s_cleared s ∨ m ∈ ps →
    wp (b_InsertBefore k x (Some m)) (λ r w', if decide (m ∈ ps) then r = Some (fresh s) ∧ brel w' (add_node s k x (ins_before m (fresh s) ps)) else r = None ∧ brel w' s) w.
  Proof using.
    intros H Hk Hm Hcl. unfold b_InsertBefore. wp_step (nd_ok w m n Hm). pose proof (br_member w s k ps m n H Hk Hm Hcl) as Hmem.
    unfold ptr_eqb. destruct (decide (m ∈ ps)) as [Hin|Hin]; [rewrite bool_decide_eq_true_2 by (by apply Hmem)|rewrite bool_decide_eq_false_2 by (by rewrite Hmem)]; cbn [negb].
    - destruct (elem_split m ps Hin) as (p & q & Eps). wp_go.
      pose proof (br_list _ _ _ _ H Hk) as Hb. assert (k < length (b_lists w)) by (by eapply lookup_lt_Some).
      destruct (br_lists _ _ H k ps Hk) as (Hc & Hnd & _). rewrite Eps in Hc. pose proof (cyc_prv _ _ _ _ Hc) as Hp. rewrite Eps in Hnd. apply NoDup_mid in Hnd as (Hmp & Hmq & _).
      assert (b_prev n = last (m :: q ++ p)) as ->. { unfold prv in Hp. rewrite Hm in Hp. by cbn in Hp; simplify_eq. }
      assert (ins_before m (fresh s) ps = p ++ fresh s :: m :: q) as ->. { rewrite Eps, ins_before_split; [done|]. rewrite <-Eps; by destruct (br_lists _ _ H k ps Hk) as (_ & ? & _). }
      destruct p as [|z p _] using rev_ind.
      + (* before the head: after the last node *)
        rewrite app_nil_r. cbn [app] in Eps. destruct (exists_last (l := m :: q)) as (r & z & Erz); [done|]. rewrite Erz, last_snoc.
        apply wp_bind. eapply wp_mono; [apply (insert_fresh w s k ps r z [] x H Hk)|]; [by rewrite Eps, <-Erz|]. cbv beta. intros ? w' (-> & ns' & -> & Hcy & HB).
        apply wp_bind. eapply wp_eq. { apply ls_ok. cbn [b_lists]. rewrite list_lookup_insert by done. reflexivity. }
        cbn [b_head]. rewrite bool_decide_eq_true_2 by (by rewrite Eps). apply wp_bind. unfold set_head, ls_upd.
        eapply wp_eq. { cbn [b_lists]. rewrite list_lookup_insert by done. reflexivity. } apply wp_ret. split; [done|].
        cbn [b_nodes b_lists b_len app]. rewrite list_insert_insert. replace (r ++ [z; fresh s]) with ((m :: q) ++ [fresh s]) in * by (rewrite Erz, <-app_assoc; done).
        assert (MkBList (Some (fresh s)) (Z.of_nat (length ps) + 1) = bl (fresh s :: m :: q)) as ->. { unfold bl. rewrite Eps. cbn [length head]. f_equal. lia. }
        rewrite <-Erz. apply HB; [by rewrite <-Permutation_cons_append|]. apply (cyc_rot _ (m :: q) [fresh s]). exact Hcy.
      + rewrite app_assoc. change (m :: (q ++ p) ++ [z]) with ((m :: q ++ p) ++ [z]). rewrite last_snoc.
        apply wp_bind. eapply wp_mono; [apply (insert_fresh w s k ps p z (m :: q) x H Hk)|]; [by rewrite Eps, <-app_assoc|]. cbv beta. intros ? w' (-> & ns' & -> & Hcy & HB).
        apply wp_bind. eapply wp_eq. { apply ls_ok. cbn [b_lists]. rewrite list_lookup_insert by done. reflexivity. }
        cbn [b_head]. rewrite bool_decide_eq_false_2. 2:{ rewrite Eps. rewrite <-app_assoc. destruct p; cbn; intros [= ->]; set_solver. }
        apply wp_bind, wp_ret, wp_ret. split; [done|]. rewrite <-app_assoc. cbn [app].
        rewrite (bl_S ps (p ++ z :: fresh s :: m :: q)); [by apply HB| |].
        * rewrite Eps, <-app_assoc. by destruct p. * rewrite Eps, !app_length. cbn. lia.
    - by apply wp_ret.
  Qed.
End rel.
