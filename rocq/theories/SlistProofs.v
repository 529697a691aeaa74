(** Singly linked list operations refine operations on node sequences. *)
From Verif Require Import Base Wp History BidlistSpec BidlistProofs SlistModel SlistSpec.
Open Scope nat_scope.

Section slist.
  Context {T : Type} (zero : T).
  Implicit Types (ns : list (snode T)) (w : sworld T) (s : ss T) (ps p q : list nat).
  Definition nx ns (a : nat) : option (option nat) := sn_next <$> ns !! a.
  (** nodes p linked one after the other, the last one pointing to e *)
  Fixpoint seg ns p (e : option nat) : Prop :=
    match p with
    | [] => True
    | a :: t => nx ns a = Some (match t with [] => e | b :: _ => Some b end) ∧ seg ns t e
    end.
  Lemma seg_app ns p q : seg ns (p ++ q) None ↔ seg ns p (head q) ∧ seg ns q None.
  Proof using.
    induction p as [|a p IH]; cbn; [tauto|]. destruct p as [|b p]; cbn in *; [|tauto]. destruct q; cbn in *; tauto.
  Qed.
  Lemma seg_mid ns p a q : seg ns (p ++ a :: q) None ↔ seg ns p (Some a) ∧ nx ns a = Some (head q) ∧ seg ns q None.
  Proof using. rewrite seg_app. cbn. by destruct q. Qed.
  Lemma seg_frame ns ns' p e : seg ns p e → (∀ a, a ∈ p → nx ns' a = nx ns a) → seg ns' p e.
  Proof using. induction p as [|a p IH]; [done|]. cbn. intros [H1 H2] Hf. rewrite Hf by set_solver. split; [done|]. apply IH; [done|]. intros b Hb. apply Hf. set_solver. Qed.
  (** redirecting the end of a segment *)
  Lemma seg_end ns ns' p a e e' : seg ns (p ++ [a]) e → (∀ b, b ∈ p → nx ns' b = nx ns b) → nx ns' a = Some e' → seg ns' (p ++ [a]) e'.
  Proof using.
    induction p as [|b p IH]; cbn; [done|]. intros [H1 H2] Hf Ha. split; [|apply IH; [done| |done]; intros c Hc; apply Hf; set_solver].
    rewrite Hf by set_solver. rewrite H1. by destruct p.
  Qed.
  Definition sbl ps : slist := MkSList (head ps) (last ps) (Z.of_nat (length ps)).
  Record srel w s : Prop := {
    sr_vals : sn_val <$> sw_nodes w = ss_vals s;
    sr_heads : sw_lists w = sbl <$> ss_lists s;
    sr_lists : ∀ k ps, ss_lists s !! k = Some ps → seg (sw_nodes w) ps None ∧ NoDup ps;
    sr_disj : ∀ j k ps qs a, ss_lists s !! j = Some ps → ss_lists s !! k = Some qs → j ≠ k → a ∈ ps → a ∉ qs;
  }.
  Lemma srel_0 : srel sworld0 ss0.
  Proof using. by split. Qed.
  Lemma sr_len w s : srel w s → length (sw_nodes w) = s_fresh s.
  Proof using. intros H. unfold s_fresh. rewrite <-(sr_vals _ _ H). by rewrite fmap_length. Qed.
  Lemma sr_list w s k ps : srel w s → ss_lists s !! k = Some ps → sw_lists w !! k = Some (sbl ps).
  Proof using. intros H Hk. rewrite (sr_heads _ _ H), list_lookup_fmap, Hk. done. Qed.
  Lemma seg_alloc ns p e a : seg ns p e → a ∈ p → a < length ns.
  Proof using.
    induction p as [|b p IH]; [by intros _ ?%elem_of_nil|]. cbn. intros [H1 H2] Ha. apply elem_of_cons in Ha as [->|Ha]; [|by apply IH].
    unfold nx in H1. apply fmap_Some in H1 as (x & H1 & _). by eapply lookup_lt_Some.
  Qed.
  Lemma sr_lt w s k ps a : srel w s → ss_lists s !! k = Some ps → a ∈ ps → a < length (sw_nodes w).
  Proof using. intros H Hk Ha. destruct (sr_lists _ _ H k ps Hk) as [Hs _]. by eapply seg_alloc. Qed.
  Lemma sr_change w s k ps ps' ns' : srel w s → ss_lists s !! k = Some ps → seg ns' ps' None → NoDup ps' →
    (∀ a, a ∈ ps' → a ∈ ps ∨ length (sw_nodes w) ≤ a) → (∀ c, c ∉ ps → c < length (sw_nodes w) → nx ns' c = nx (sw_nodes w) c) →
    srel (MkSWorld ns' (<[k := sbl ps']> (sw_lists w))) (MkSs (<[k := ps']> (ss_lists s)) (sn_val <$> ns')).
  Proof using.
    intros H Hk Hs Hnd Hin Hfr. assert (k < length (ss_lists s)) as Hkl by (by eapply lookup_lt_Some).
    split; cbn [sw_nodes sw_lists ss_lists ss_vals].
    - done.
    - rewrite (sr_heads _ _ H). by rewrite list_fmap_insert.
    - intros j qs Hj. destruct (decide (j = k)) as [->|Hne].
      + rewrite list_lookup_insert in Hj by done. by simplify_eq.
      + rewrite list_lookup_insert_ne in Hj by done. destruct (sr_lists _ _ H j qs Hj) as [H1 H2]. split; [|done].
        apply (seg_frame (sw_nodes w)); [done|]. intros a Ha. apply Hfr; [|by eapply sr_lt]. by eapply (sr_disj _ _ H j k).
    - intros i j p q a Hi Hj Hne Ha. destruct (decide (i = k)) as [->|Hi'].
      + rewrite list_lookup_insert in Hi by done. rewrite list_lookup_insert_ne in Hj by done. simplify_eq. intros Hb.
        destruct (Hin a Ha) as [Ha'|Ha']; [by eapply (sr_disj _ _ H k j)|]. pose proof (sr_lt _ _ _ _ _ H Hj Hb). lia.
      + rewrite list_lookup_insert_ne in Hi by done. destruct (decide (j = k)) as [->|Hj'].
        * rewrite list_lookup_insert in Hj by done. simplify_eq. intros Hb.
          destruct (Hin a Hb) as [Ha'|Ha']; [by eapply (sr_disj _ _ H i k)|]. pose proof (sr_lt _ _ _ _ _ H Hi Ha). lia.
        * rewrite list_lookup_insert_ne in Hj by done. by eapply (sr_disj _ _ H i j).
  Qed.

  (** memory *)
  Lemma sn_ok w a x : sw_nodes w !! a = Some x → sn (Some a) w = Ok (x, w).
  Proof using. intros H. unfold sn. by rewrite H. Qed.
  Lemma sl_ok w l x : sw_lists w !! l = Some x → sl l w = Ok (x, w).
  Proof using. intros H. unfold sl. by rewrite H. Qed.
  Lemma sn_nx w a v : nx (sw_nodes w) a = Some v → ∃ x, sn (Some a) w = Ok (x, w) ∧ sn_next x = v.
  Proof using. unfold nx. intros H. apply fmap_Some in H as (x & H & ->). exists x. split; [by apply sn_ok|done]. Qed.
  Lemma sset_next_ok w a v : a < length (sw_nodes w) → ∃ ns', sset_next (Some a) v w = Ok (tt, MkSWorld ns' (sw_lists w)) ∧ length ns' = length (sw_nodes w) ∧
    sn_val <$> ns' = sn_val <$> sw_nodes w ∧ ∀ c, nx ns' c = if decide (c = a) then Some v else nx (sw_nodes w) c.
  Proof using.
    intros Ha. destruct (lookup_lt_is_Some_2 _ _ Ha) as [x Hx]. eexists. split. { unfold sset_next, sn_upd. by rewrite Hx. }
    split; [by rewrite insert_length|]. split. { rewrite list_fmap_insert. cbn. apply list_insert_id. by rewrite list_lookup_fmap, Hx. }
    intros c. unfold nx. destruct (decide (c = a)) as [->|]; [by rewrite list_lookup_insert|by rewrite list_lookup_insert_ne].
  Qed.
  Lemma sl_upd_ok w l f x : sw_lists w !! l = Some x → sl_upd l f w = Ok (tt, MkSWorld (sw_nodes w) (<[l := f x]> (sw_lists w))).
  Proof using. intros H. unfold sl_upd. by rewrite H. Qed.
  Lemma snew_facts ns (x : T) : let ns1 := ns ++ [MkSNode None x] in
    (∀ c, c < length ns → nx ns1 c = nx ns c) ∧ nx ns1 (length ns) = Some None ∧ sn_val <$> ns1 = (sn_val <$> ns) ++ [x] ∧ length ns1 = S (length ns).
  Proof using.
    intros ns1. unfold ns1. split_and!.
    - intros c Hc. unfold nx. by rewrite lookup_app_l.
    - unfold nx. by rewrite list_lookup_middle.
    - by rewrite fmap_app.
    - rewrite app_length. cbn. lia.
  Qed.

  (** the node of value x about to be added *)
  Lemma PushFront_ok w s k ps x : srel w s → ss_lists s !! k = Some ps → wp (s_PushFront k x) (λ _ w', srel w' (s_add s k x (s_fresh s :: ps))) w.
  Proof using.
    intros H Hk. unfold s_PushFront. wp_go. pose proof (sr_list _ _ _ _ H Hk) as Hb. assert (k < length (sw_lists w)) as Hkl by (by eapply lookup_lt_Some).
    destruct (snew_facts (sw_nodes w) x) as (F1 & F2 & F3 & F4). rewrite (sr_len _ _ H) in F1, F2, F4. set (ns1 := sw_nodes w ++ _) in *. rewrite (sr_len _ _ H).
    destruct (sr_lists _ _ H k ps Hk) as [Hs Hnd]. assert (∀ a, a ∈ ps → a < s_fresh s) as Hlt. { intros a Ha. rewrite <-(sr_len _ _ H). by eapply sr_lt. }
    apply wp_bind. eapply wp_eq. { apply sl_ok. exact Hb. } cbn [sbl sl_len].
    destruct (Z.eqb_spec (Z.of_nat (length ps)) 0) as [E|E].
    - destruct ps; [|cbn in E; lia]. apply wp_bind. apply wp_bind. eapply wp_eq. { apply sl_upd_ok. exact Hb. } cbn [sw_nodes sw_lists].
      eapply wp_eq. { apply sl_upd_ok. cbn [sw_lists]. by apply list_lookup_insert. } cbn [sw_nodes sw_lists].
      eapply wp_eq. { apply sl_upd_ok. cbn [sw_lists]. apply list_lookup_insert. by rewrite insert_length. } cbn [sw_nodes sw_lists sl_head sl_tail sl_len sbl].
      rewrite !list_insert_insert. unfold s_add. rewrite <-(sr_vals _ _ H), <-F3. apply (sr_change w s k [] [s_fresh s]); try done.
      + apply NoDup_singleton. + intros a Ha. right. rewrite (sr_len _ _ H). set_solver. + intros c _ Hc. apply F1. by rewrite <-(sr_len _ _ H).
    - apply wp_bind. apply wp_bind. eapply wp_eq. { apply sl_ok. exact Hb. } cbn [sbl sl_head].
      destruct (sset_next_ok (MkSWorld ns1 (sw_lists w)) (s_fresh s) (head ps)) as (ns2 & E2 & L2 & V2 & N2); [cbn [sw_nodes]; lia|]. cbn [sw_nodes sw_lists] in *.
      wp_step E2. eapply wp_eq. { apply sl_upd_ok. exact Hb. } cbn [sw_nodes sw_lists].
      eapply wp_eq. { apply sl_upd_ok. cbn [sw_lists]. by apply list_lookup_insert. } cbn [sw_nodes sw_lists sl_head sl_tail sl_len sbl].
      rewrite list_insert_insert.
      assert (MkSList (Some (s_fresh s)) (last ps) (Z.of_nat (length ps) + 1) = sbl (s_fresh s :: ps)) as ->. { unfold sbl. f_equal; [destruct ps; [done|by cbn]|cbn; lia]. }
      unfold s_add. rewrite <-(sr_vals _ _ H), <-F3, <-V2. apply (sr_change w s k ps); try done.
      + cbn. rewrite N2, decide_True by done. split; [by destruct ps|]. apply (seg_frame (sw_nodes w)); [done|]. intros a Ha. specialize (Hlt a Ha). rewrite N2, decide_False by lia. by apply F1.
      + constructor; [|done]. intros Ha. specialize (Hlt _ Ha). lia.
      + intros a Ha. rewrite (sr_len _ _ H). apply elem_of_cons in Ha as [->|Ha]; [by right|by left].
      + intros c Hc Hcl. rewrite (sr_len _ _ H) in Hcl. rewrite N2, decide_False by lia. by apply F1.
  Qed.
  Lemma PushBack_ok w s k ps x : srel w s → ss_lists s !! k = Some ps → wp (s_PushBack k x) (λ _ w', srel w' (s_add s k x (ps ++ [s_fresh s]))) w.
  Proof using.
    intros H Hk. unfold s_PushBack. wp_go. pose proof (sr_list _ _ _ _ H Hk) as Hb. assert (k < length (sw_lists w)) as Hkl by (by eapply lookup_lt_Some).
    destruct (snew_facts (sw_nodes w) x) as (F1 & F2 & F3 & F4). rewrite (sr_len _ _ H) in F1, F2, F4. set (ns1 := sw_nodes w ++ _) in *. rewrite (sr_len _ _ H).
    destruct (sr_lists _ _ H k ps Hk) as [Hs Hnd]. assert (∀ a, a ∈ ps → a < s_fresh s) as Hlt. { intros a Ha. rewrite <-(sr_len _ _ H). by eapply sr_lt. }
    apply wp_bind. eapply wp_eq. { apply sl_ok. exact Hb. } cbn [sbl sl_len].
    destruct (Z.eqb_spec (Z.of_nat (length ps)) 0) as [E|E].
    - destruct ps; [|cbn in E; lia]. apply wp_bind. apply wp_bind. eapply wp_eq. { apply sl_upd_ok. exact Hb. } cbn [sw_nodes sw_lists].
      eapply wp_eq. { apply sl_upd_ok. cbn [sw_lists]. by apply list_lookup_insert. } cbn [sw_nodes sw_lists].
      eapply wp_eq. { apply sl_upd_ok. cbn [sw_lists]. apply list_lookup_insert. by rewrite insert_length. } cbn [sw_nodes sw_lists sl_head sl_tail sl_len sbl].
      rewrite !list_insert_insert. unfold s_add. rewrite <-(sr_vals _ _ H), <-F3. apply (sr_change w s k [] [s_fresh s]); try done.
      + apply NoDup_singleton. + intros a Ha. right. rewrite (sr_len _ _ H). set_solver. + intros c _ Hc. apply F1. by rewrite <-(sr_len _ _ H).
    - destruct (exists_last (l := ps)) as (p & t & Ep); [intros ->; done|].
      apply wp_bind. apply wp_bind. eapply wp_eq. { apply sl_ok. exact Hb. } cbn [sbl sl_tail]. rewrite Ep, last_snoc.
      assert (t < s_fresh s) as Ht by (apply Hlt; rewrite Ep; set_solver).
      destruct (sset_next_ok (MkSWorld ns1 (sw_lists w)) t (Some (s_fresh s))) as (ns2 & E2 & L2 & V2 & N2); [cbn [sw_nodes]; lia|]. cbn [sw_nodes sw_lists] in *.
      wp_step E2. eapply wp_eq. { apply sl_upd_ok. exact Hb. } cbn [sw_nodes sw_lists].
      eapply wp_eq. { apply sl_upd_ok. cbn [sw_lists]. by apply list_lookup_insert. } cbn [sw_nodes sw_lists sl_head sl_tail sl_len sbl].
      rewrite list_insert_insert. rewrite <-Ep.
      assert (MkSList (head ps) (Some (s_fresh s)) (Z.of_nat (length ps) + 1) = sbl (ps ++ [s_fresh s])) as ->. { unfold sbl. rewrite last_snoc, app_length. cbn. f_equal; [by destruct ps|lia]. }
      unfold s_add. rewrite <-(sr_vals _ _ H), <-F3, <-V2. apply (sr_change w s k ps); try done.
      + apply seg_app. cbn. rewrite N2, decide_False by lia. split; [|done]. rewrite Ep in Hs, Hnd |- *. eapply (seg_end (sw_nodes w)); [exact Hs| |by rewrite N2, decide_True].
        intros b Hbp. apply NoDup_app in Hnd as (_ & Hd & _). rewrite N2, decide_False by set_solver. apply F1. apply Hlt. rewrite Ep. set_solver.
      + rewrite <-Permutation_cons_append. constructor; [|done]. intros Ha. specialize (Hlt _ Ha). lia.
      + intros a Ha. rewrite (sr_len _ _ H). apply elem_of_app in Ha as [Ha|Ha]; [by left|right; set_solver].
      + intros c Hc Hcl. rewrite (sr_len _ _ H) in Hcl. rewrite N2, decide_False by (intros ->; apply Hc; rewrite Ep; set_solver). by apply F1.
  Qed.
  Lemma InsertAfter_ok w s k ps m x : srel w s → ss_lists s !! k = Some ps → m ∈ ps →
    wp (s_InsertAfter k x (Some m)) (λ r w', r = Some (s_fresh s) ∧ srel w' (s_add s k x (ins_after m (s_fresh s) ps))) w.
  Proof using.
    intros H Hk Hm. unfold s_InsertAfter. wp_go. pose proof (sr_list _ _ _ _ H Hk) as Hb. assert (k < length (sw_lists w)) as Hkl by (by eapply lookup_lt_Some).
    destruct (snew_facts (sw_nodes w) x) as (F1 & F2 & F3 & F4). rewrite (sr_len _ _ H) in F1, F2, F4. set (ns1 := sw_nodes w ++ _) in *. rewrite (sr_len _ _ H).
    destruct (sr_lists _ _ H k ps Hk) as [Hs Hnd]. assert (∀ a, a ∈ ps → a < s_fresh s) as Hlt. { intros a Ha. rewrite <-(sr_len _ _ H). by eapply sr_lt. }
    destruct (elem_split m ps Hm) as (p & q & E). assert (ins_after m (s_fresh s) ps = p ++ m :: s_fresh s :: q) as ->. { rewrite E, ins_after_split; [done|]. by rewrite <-E. }
    pose proof Hs as Hs'. rewrite E in Hs'. apply seg_mid in Hs' as (Hsp & Hsm & Hsq). pose proof (Hlt m Hm) as Hltm. rewrite E in Hnd. destruct (NoDup_mid _ _ _ Hnd) as (Hmp & Hmq & Hnd').
    destruct (sn_nx (MkSWorld ns1 (sw_lists w)) m (head q)) as (y & Ey & Hy); [cbn; by rewrite F1|]. wp_step Ey. rewrite Hy.
    destruct (sset_next_ok (MkSWorld ns1 (sw_lists w)) (s_fresh s) (head q)) as (ns2 & E2 & L2 & V2 & N2); [cbn [sw_nodes]; lia|]. cbn [sw_nodes sw_lists] in *. wp_step E2.
    destruct (sset_next_ok (MkSWorld ns2 (sw_lists w)) m (Some (s_fresh s))) as (ns3 & E3 & L3 & V3 & N3); [cbn [sw_nodes]; lia|]. cbn [sw_nodes sw_lists] in *. wp_step E3.
    destruct (sn_nx (MkSWorld ns3 (sw_lists w)) (s_fresh s) (head q)) as (z & Ez & Hz); [cbn; rewrite N3, decide_False, N2, decide_True by (done || lia); done|]. wp_step Ez. rewrite Hz.
    apply wp_bind. eapply (wp_mono _ (λ _ w', w' = MkSWorld ns3 (<[k := MkSList (head ps) (last (p ++ m :: s_fresh s :: q)) (Z.of_nat (length ps))]> (sw_lists w)))).
    { unfold speq. destruct q as [|b q].
      - rewrite bool_decide_eq_true_2 by done. eapply wp_eq. { apply sl_upd_ok. exact Hb. } cbn [sw_nodes sw_lists sbl sl_head sl_len]. by rewrite last_app_ne.
      - rewrite bool_decide_eq_false_2 by done. apply wp_ret. rewrite list_insert_id; [done|]. rewrite Hb. unfold sbl. f_equal. f_equal. rewrite E, !last_app_ne by done. by cbn. }
    cbv beta. intros _ w' ->. apply wp_bind. eapply wp_eq. { apply sl_upd_ok. cbn [sw_lists]. by apply list_lookup_insert. } apply wp_ret. cbn [sw_nodes sw_lists sl_head sl_tail sl_len]. rewrite list_insert_insert. split; [done|].
    assert (MkSList (head ps) (last (p ++ m :: s_fresh s :: q)) (Z.of_nat (length ps) + 1) = sbl (p ++ m :: s_fresh s :: q)) as ->. { unfold sbl. rewrite E, !app_length. cbn. f_equal; [by destruct p|lia]. }
    unfold s_add. rewrite <-(sr_vals _ _ H), <-F3, <-V2, <-V3. apply (sr_change w s k ps); try done.
    - apply seg_mid. split; [|split; [by rewrite N3, decide_True|]].
      + apply (seg_frame (sw_nodes w)); [done|]. intros a Ha. assert (a < s_fresh s) by (apply Hlt; rewrite E; set_solver). rewrite N3, decide_False by set_solver. rewrite N2, decide_False by lia. by apply F1.
      + cbn. rewrite N3, decide_False, N2, decide_True by (done || lia). split; [by destruct q|].
        apply (seg_frame (sw_nodes w)); [done|]. intros a Ha. assert (a < s_fresh s) by (apply Hlt; rewrite E; set_solver). rewrite N3, decide_False by set_solver. rewrite N2, decide_False by lia. by apply F1.
    - apply (NoDup_ins (s_fresh s) (p ++ [m]) q) in Hnd as Hnd2 || idtac. replace (p ++ m :: s_fresh s :: q) with ((p ++ [m]) ++ s_fresh s :: q) by (by rewrite <-app_assoc). apply NoDup_ins; rewrite <-app_assoc; [done|]. cbn [app]. rewrite <-E. intros Ha. specialize (Hlt _ Ha). lia.
    - intros a Ha. rewrite (sr_len _ _ H), E. destruct (decide (a = s_fresh s)); [right; lia|left]. set_solver.
    - intros c Hc Hcl. rewrite (sr_len _ _ H) in Hcl. rewrite N3, decide_False by (intros ->; done). rewrite N2, decide_False by lia. by apply F1.
  Qed.
  Lemma Remove_ok w s k ps p n q v : srel w s → ss_lists s !! k = Some ps → ps = p ++ n :: q → ss_vals s !! n = Some v →
    wp (s_Remove zero k (last p) (Some n)) (λ r w', r = v ∧ srel w' (s_upd s k (p ++ q))) w.
  Proof using.
    intros H Hk E Hv. unfold s_Remove. unfold speq at 1. rewrite bool_decide_eq_false_2 by done. pose proof (sr_list _ _ _ _ H Hk) as Hb. assert (k < length (sw_lists w)) as Hkl by (by eapply lookup_lt_Some).
    destruct (sr_lists _ _ H k ps Hk) as [Hs Hnd]. rewrite E in Hs, Hnd. apply seg_mid in Hs as (Hsp & Hsn & Hsq). destruct (NoDup_mid _ _ _ Hnd) as (Hnp & Hnq & Hnd').
    destruct (sn_nx w n _ Hsn) as (x & Ex & Hx). unfold speq.
    assert (∀ ns', sn_val <$> ns' = sn_val <$> sw_nodes w → seg ns' (p ++ q) None → (∀ c, c ∉ p → nx ns' c = nx (sw_nodes w) c) →
      wp (slen_add k (-1) ;; let! x := sn (Some n) in mret_ (sn_val x))%go (λ r w', r = v ∧ srel w' (s_upd s k (p ++ q)))
         (MkSWorld ns' (<[k := MkSList (head (p ++ q)) (last (p ++ q)) (Z.of_nat (length ps))]> (sw_lists w)))) as Hfin.
    { intros ns' V' Hs' Hfr. apply wp_bind. eapply wp_eq. { apply sl_upd_ok. cbn [sw_lists]. by apply list_lookup_insert. } cbn [sw_nodes sw_lists sl_head sl_tail sl_len]. rewrite list_insert_insert.
      assert (∃ y, ns' !! n = Some y ∧ sn_val y = v) as (y & Hy & Hyv). { assert (((sn_val <$> ns') !! n) = Some v) as Hl by (rewrite V', (sr_vals _ _ H); done). rewrite list_lookup_fmap in Hl. apply fmap_Some in Hl as (y & ? & ->). eauto. }
      apply wp_bind. eapply wp_eq. { apply sn_ok. exact Hy. } apply wp_ret. split; [done|].
      assert (MkSList (head (p ++ q)) (last (p ++ q)) (Z.of_nat (length ps) + -1) = sbl (p ++ q)) as ->. { unfold sbl. f_equal. rewrite E, !app_length. cbn. lia. }
      unfold s_upd. rewrite <-(sr_vals _ _ H), <-V'. apply (sr_change w s k ps); try done.
      - intros a Ha. left. rewrite E. set_solver. - intros c Hc _. apply Hfr. rewrite E in Hc. set_solver. }
    apply wp_bind. destruct p as [|z p _] using rev_ind.
    - cbn [last]. rewrite bool_decide_eq_true_2 by done. wp_step Ex. rewrite Hx. apply wp_bind. eapply wp_eq. { apply sl_upd_ok. exact Hb. } cbn [sbl sl_tail sl_len].
      apply wp_bind. eapply wp_eq. { apply sl_ok. cbn [sw_lists]. by apply list_lookup_insert. } cbn [sl_head].
      assert (∀ w', w' = MkSWorld (sw_nodes w) (<[k := MkSList (head q) (last q) (Z.of_nat (length ps))]> (sw_lists w)) → 
         wp (slen_add k (-1) ;; let! x := sn (Some n) in mret_ (sn_val x))%go (λ r w', r = v ∧ srel w' (s_upd s k ([] ++ q))) w') as Hf. { intros w' ->. by apply Hfin. }
      destruct q as [|b q].
      + rewrite bool_decide_eq_true_2 by done. eapply wp_eq. { apply sl_upd_ok. cbn [sw_lists]. by apply list_lookup_insert. } apply Hf. cbn [sw_nodes sw_lists sl_head sl_len]. by rewrite list_insert_insert.
      + rewrite bool_decide_eq_false_2 by done. apply wp_ret. apply Hf. f_equal. f_equal. f_equal. rewrite E. by cbn.
    - rewrite last_snoc. rewrite (bool_decide_eq_false_2 (Some z = None)) by done. wp_step Ex. rewrite Hx.
      assert (z < length (sw_nodes w)) as Hz by (eapply sr_lt; [done|done|rewrite E; set_solver]).
      destruct (sset_next_ok w z (head q) Hz) as (ns2 & E2 & L2 & V2 & N2). wp_step E2.
      destruct (sn_nx (MkSWorld ns2 (sw_lists w)) z (head q)) as (y & Ey & Hy); [cbn; by rewrite N2, decide_True|]. wp_step Ey. rewrite Hy.
      assert (seg ns2 ((p ++ [z]) ++ q) None) as Hs2.
      { apply seg_app. split.
        - eapply (seg_end (sw_nodes w)); [exact Hsp| |by rewrite N2, decide_True]. intros b Hbp. rewrite N2, decide_False; [done|]. intros ->. apply NoDup_app in Hnd' as (Hnd' & _ & _). apply NoDup_app in Hnd' as (_ & Hd & _). apply (Hd z Hbp). set_solver.
        - apply (seg_frame (sw_nodes w)); [done|]. intros b Hbq. rewrite N2, decide_False; [done|]. intros ->. apply NoDup_app in Hnd' as (_ & Hd & _). apply (Hd z); [set_solver|done]. }
      assert (∀ w', w' = MkSWorld ns2 (<[k := MkSList (head ((p ++ [z]) ++ q)) (last ((p ++ [z]) ++ q)) (Z.of_nat (length ps))]> (sw_lists w)) → 
         wp (slen_add k (-1) ;; let! x := sn (Some n) in mret_ (sn_val x))%go (λ r w', r = v ∧ srel w' (s_upd s k ((p ++ [z]) ++ q))) w') as Hf.
      { intros w' ->. apply Hfin; [done|done|]. intros c Hc. rewrite N2, decide_False by set_solver. done. }
      destruct q as [|b q].
      + rewrite bool_decide_eq_true_2 by done. eapply wp_eq. { apply sl_upd_ok. exact Hb. } apply Hf. cbn [sw_nodes sw_lists sl_head sl_len sbl]. f_equal. f_equal. rewrite app_nil_r, last_snoc. f_equal. rewrite E. by destruct p.
      + rewrite bool_decide_eq_false_2 by done. apply wp_ret. apply Hf. f_equal. rewrite list_insert_id; [done|]. rewrite Hb. unfold sbl. f_equal. f_equal; rewrite E; [by destruct p|]. rewrite !last_app_ne by done. by cbn.
  Qed.
  Lemma s_upd_id s k ps : ss_lists s !! k = Some ps → s_upd s k ps = s.
  Proof using. intros H. unfold s_upd. rewrite list_insert_id by done. by destruct s. Qed.
  Lemma MoveToFront_ok w s k ps p n q : srel w s → ss_lists s !! k = Some ps → ps = p ++ n :: q →
    wp (s_MoveToFront k (last p) (Some n)) (λ _ w', srel w' (s_upd s k (n :: p ++ q))) w.
  Proof using.
    intros H Hk E. unfold s_MoveToFront, speq. pose proof (sr_list _ _ _ _ H Hk) as Hb. assert (k < length (sw_lists w)) as Hkl by (by eapply lookup_lt_Some).
    destruct p as [|z p _] using rev_ind. { cbn [last]. rewrite bool_decide_eq_true_2 by done. apply wp_ret. rewrite s_upd_id; [done|]. by rewrite Hk, E. }
    rewrite last_snoc. rewrite (bool_decide_eq_false_2 (Some z = None)) by done.
    destruct (sr_lists _ _ H k ps Hk) as [Hs Hnd]. rewrite E in Hs, Hnd. destruct (NoDup_mid _ _ _ Hnd) as (Hnp & Hnq & Hnd'). pose proof Hs as Hs0. apply seg_mid in Hs as (Hsp & Hsn & Hsq).
    assert (nx (sw_nodes w) z = Some (Some n)) as Hz. { rewrite <-app_assoc in Hs0. by apply seg_mid in Hs0 as (_ & ? & _). }
    destruct (sn_nx w z _ Hz) as (y & Ey & Hy). wp_step Ey. rewrite Hy. rewrite (bool_decide_eq_true_2 (Some n = Some n)) by done. rewrite (bool_decide_eq_false_2 (Some n = None)) by done. cbn [negb orb].
    wp_step (sl_ok w k _ Hb). cbn [sbl sl_len]. assert ((Z.of_nat (length ps) <=? 1)%Z = false) as ->. { apply Z.leb_gt. rewrite E, !app_length. cbn. lia. }
    destruct (sn_nx w n _ Hsn) as (x & Ex & Hx). wp_step Ex. rewrite Hx.
    assert (z < length (sw_nodes w)) as Hzl by (eapply sr_lt; [done|done|rewrite E; set_solver]). assert (n < length (sw_nodes w)) as Hnl by (eapply sr_lt; [done|done|rewrite E; set_solver]).
    destruct (sset_next_ok w z (head q) Hzl) as (ns2 & E2 & L2 & V2 & N2). wp_step E2.
    destruct (sn_nx (MkSWorld ns2 (sw_lists w)) z (head q)) as (y' & Ey' & Hy'); [cbn; by rewrite N2, decide_True|]. wp_step Ey'. rewrite Hy'.
    apply wp_bind. eapply (wp_mono _ (λ _ w', w' = MkSWorld ns2 (<[k := MkSList (head ps) (last ((p ++ [z]) ++ q)) (Z.of_nat (length ps))]> (sw_lists w)))).
    { destruct q as [|b q].
      - rewrite bool_decide_eq_true_2 by done. eapply wp_eq. { apply sl_upd_ok. exact Hb. } cbn [sw_nodes sw_lists sl_head sl_len sbl]. by rewrite app_nil_r, last_snoc.
      - rewrite bool_decide_eq_false_2 by done. apply wp_ret. rewrite list_insert_id; [done|]. rewrite Hb. unfold sbl. f_equal. f_equal. rewrite E. rewrite !last_app_ne by done. by cbn. }
    cbv beta. intros _ w' ->. apply wp_bind. eapply wp_eq. { apply sl_ok. cbn [sw_lists]. by apply list_lookup_insert. } cbn [sl_head].
    destruct (sset_next_ok (MkSWorld ns2 (<[k := MkSList (head ps) (last ((p ++ [z]) ++ q)) (Z.of_nat (length ps))]> (sw_lists w))) n (head ps)) as (ns3 & E3 & L3 & V3 & N3); [cbn; lia|]. cbn [sw_nodes sw_lists] in *. wp_step E3.
    eapply wp_eq. { apply sl_upd_ok. cbn [sw_lists]. by apply list_lookup_insert. } cbn [sw_nodes sw_lists sl_tail sl_len]. rewrite list_insert_insert.
    assert (MkSList (Some n) (last ((p ++ [z]) ++ q)) (Z.of_nat (length ps)) = sbl (n :: (p ++ [z]) ++ q)) as ->. { unfold sbl. f_equal; [|rewrite E, !app_length; cbn; rewrite !app_length; cbn; lia]. rewrite <-app_assoc. cbn [app]. by destruct p. }
    unfold s_upd. rewrite <-(sr_vals _ _ H), <-V2, <-V3. assert (z ≠ n) by set_solver. apply (sr_change w s k ps); try done.
    - split; [rewrite N3, decide_True by done; rewrite E; by destruct p|].
      apply (seg_frame ns2 ns3). 2:{ intros a Ha. rewrite N3, decide_False; [done|]. set_solver. }
      apply seg_app. split.
      + eapply (seg_end (sw_nodes w)); [exact Hsp| |by rewrite N2, decide_True]. intros b Hbp. rewrite N2, decide_False; [done|]. intros ->. apply NoDup_app in Hnd' as (Hnd' & _ & _). apply NoDup_app in Hnd' as (_ & Hd & _). apply (Hd z Hbp). set_solver.
      + apply (seg_frame (sw_nodes w)); [done|]. intros b Hbq. rewrite N2, decide_False; [done|]. intros ->. apply NoDup_app in Hnd' as (_ & Hd & _). apply (Hd z); [set_solver|done].
    - constructor; [|done]. set_solver.
    - intros a Ha. left. rewrite E. set_solver.
    - intros c Hc _. rewrite E in Hc. rewrite N3, decide_False, N2, decide_False by set_solver. done.
  Qed.
  Lemma MoveToBack_ok w s k ps p n q : srel w s → ss_lists s !! k = Some ps → ps = p ++ n :: q →
    wp (s_MoveToBack k (last p) (Some n)) (λ _ w', srel w' (s_upd s k ((p ++ q) ++ [n]))) w.
  Proof using.
    intros H Hk E. unfold s_MoveToBack, speq. rewrite (bool_decide_eq_false_2 (Some n = None)) by done.
    pose proof (sr_list _ _ _ _ H Hk) as Hb. assert (k < length (sw_lists w)) as Hkl by (by eapply lookup_lt_Some).
    destruct (sr_lists _ _ H k ps Hk) as [Hs Hnd]. rewrite E in Hs, Hnd. destruct (NoDup_mid _ _ _ Hnd) as (Hnp & Hnq & Hnd'). pose proof Hs as Hs0. apply seg_mid in Hs as (Hsp & Hsn & Hsq).
    destruct (sn_nx w n _ Hsn) as (x & Ex & Hx). wp_step Ex. rewrite Hx.
    destruct q as [|t q _] using rev_ind. { rewrite bool_decide_eq_true_2 by done. apply wp_ret. rewrite app_nil_r, s_upd_id; [done|]. by rewrite Hk, E. }
    set (q' := q ++ [t]) in *. assert (∃ b q0, q' = b :: q0) as (b & q0 & Eq) by (unfold q'; destruct q; cbn; eauto). rewrite (bool_decide_eq_false_2 (head q' = None)) by (by rewrite Eq).
    wp_step (sl_ok w k _ Hb). cbn [sbl sl_len]. assert ((Z.of_nat (length ps) <=? 1)%Z = false) as ->. { apply Z.leb_gt. rewrite E, app_length. unfold q'. cbn. rewrite app_length. cbn. lia. }
    assert (∀ a, a ∈ ps → a < length (sw_nodes w)) as Hlt. { intros a Ha. by eapply sr_lt. }
    apply wp_bind. eapply (wp_mono _ (λ _ w', ∃ ns', w' = MkSWorld ns' (<[k := MkSList (head (p ++ q')) (Some t) (Z.of_nat (length ps))]> (sw_lists w)) ∧ length ns' = length (sw_nodes w) ∧
        sn_val <$> ns' = sn_val <$> sw_nodes w ∧ seg ns' (p ++ q') None ∧ (∀ c, c ∉ p → nx ns' c = nx (sw_nodes w) c))).
    { assert (last ps = Some t) as Hlast. { rewrite E, last_app_ne by done. unfold q'. by rewrite app_comm_cons, last_snoc. }
      destruct p as [|z p _] using rev_ind.
      - cbn [last]. rewrite bool_decide_eq_true_2 by done. wp_step Ex. rewrite Hx. eapply wp_eq. { apply sl_upd_ok. exact Hb. } cbn [sbl sl_tail sl_len]. exists (sw_nodes w). rewrite Hlast. done.
      - rewrite last_snoc. rewrite (bool_decide_eq_false_2 (Some z = None)) by done. wp_step Ex. rewrite Hx.
        destruct (sset_next_ok w z (head q')) as (ns2 & E2 & L2 & V2 & N2); [apply Hlt; rewrite E; set_solver|]. eapply wp_eq; [exact E2|]. exists ns2. split_and!; try done.
        + rewrite list_insert_id; [done|]. rewrite Hb. unfold sbl. f_equal. f_equal; [rewrite E; by destruct p|done].
        + apply seg_app. split.
          * eapply (seg_end (sw_nodes w)); [exact Hsp| |by rewrite N2, decide_True]. intros c Hbp. rewrite N2, decide_False; [done|]. intros ->. apply NoDup_app in Hnd' as (Hnd' & _ & _). apply NoDup_app in Hnd' as (_ & Hd & _). apply (Hd z Hbp). set_solver.
          * apply (seg_frame (sw_nodes w)); [done|]. intros c Hbq. rewrite N2, decide_False; [done|]. intros ->. apply NoDup_app in Hnd' as (_ & Hd & _). apply (Hd z); [set_solver|done].
        + intros c Hc. rewrite N2, decide_False by set_solver. done. }
    cbv beta. intros _ w' (ns1 & -> & L1 & V1 & S1 & N1). apply wp_bind. eapply wp_eq. { apply sl_ok. cbn [sw_lists]. by apply list_lookup_insert. } cbn [sl_tail].
    set (L := <[k := _]> (sw_lists w)).
    destruct (sset_next_ok (MkSWorld ns1 L) t (Some n)) as (ns2 & E2 & L2 & V2 & N2); [cbn; rewrite L1; apply Hlt; rewrite E; unfold q'; set_solver|]. cbn [sw_nodes sw_lists] in *. wp_step E2.
    apply wp_bind. eapply wp_eq. { apply sl_upd_ok. cbn [sw_lists]. by apply list_lookup_insert. } cbn [sw_nodes sw_lists sl_head sl_len]. unfold L. rewrite list_insert_insert.
    destruct (sset_next_ok (MkSWorld ns2 (<[k := MkSList (head (p ++ q')) (Some n) (Z.of_nat (length ps))]> (sw_lists w))) n None) as (ns3 & E3 & L3 & V3 & N3); [cbn; rewrite L2, L1; apply Hlt; rewrite E; set_solver|]. cbn [sw_nodes sw_lists] in *.
    eapply wp_eq; [exact E3|].
    assert (MkSList (head (p ++ q')) (Some n) (Z.of_nat (length ps)) = sbl ((p ++ q') ++ [n])) as ->. { unfold sbl. rewrite last_snoc. f_equal; [rewrite Eq; by destruct p|rewrite E, !app_length; cbn; lia]. }
    unfold s_upd. rewrite <-(sr_vals _ _ H), <-V1, <-V2, <-V3. apply (sr_change w s k ps); try done.
    - apply seg_app. cbn. rewrite N3, decide_True by done. split; [|done]. unfold q' in *. rewrite app_assoc in S1, Hnd' |- *.
      eapply (seg_end ns1); [exact S1| |].
      + intros c Hc. rewrite N3, decide_False by set_solver. rewrite N2, decide_False; [done|]. intros ->. apply NoDup_app in Hnd' as (_ & Hd & _). apply (Hd t Hc). set_solver.
      + rewrite N3, decide_False by set_solver. by rewrite N2, decide_True.
    - rewrite <-Permutation_cons_append. constructor; [set_solver|done].
    - intros a Ha. left. rewrite E. set_solver.
    - intros c Hc _. rewrite E in Hc. unfold q' in Hc. rewrite N3, decide_False, N2, decide_False by set_solver. apply N1. set_solver.
  Qed.

  (** reads and histories *)
  Lemma sNext_ok w s k p a q : srel w s → ss_lists s !! k = Some (p ++ a :: q) → s_Next (Some a) w = Ok (head q, w).
  Proof using.
    intros H Hk. destruct (sr_lists _ _ H k _ Hk) as [Hs _]. apply seg_mid in Hs as (_ & Hx & _). destruct (sn_nx w a _ Hx) as (x & Ex & <-). unfold s_Next, mbind_. by rewrite Ex.
  Qed.
  Lemma sr_val w s a x : srel w s → ss_vals s !! a = Some x → ∃ n, sw_nodes w !! a = Some n ∧ sn_val n = x.
  Proof using. intros H Ha. rewrite <-(sr_vals _ _ H), list_lookup_fmap in Ha. apply fmap_Some in Ha as (n & Hn & ->). eauto. Qed.
  Lemma sr_none w s a : srel w s → ss_vals s !! a = None → sw_nodes w !! a = None.
  Proof using. intros H. rewrite <-(sr_vals _ _ H), list_lookup_fmap. by destruct (sw_nodes w !! a). Qed.
  Lemma sr_elem w s k ps a : srel w s → ss_lists s !! k = Some ps → a ∈ ps → ∃ x, ss_vals s !! a = Some x.
  Proof using. intros H Hk Ha. apply lookup_lt_is_Some_2. change (length (ss_vals s)) with (s_fresh s). rewrite <-(sr_len _ _ H). by eapply sr_lt. Qed.
  Lemma swp_agrees {A} (m : M (sworld T) A) w x s' : wp m (λ r w', r = x ∧ srel w' s') w → agrees srel (m w) (Some (x, s')).
  Proof using. rewrite wp_Ok. intros (a & w' & E & -> & H). exists w'. done. Qed.
  Lemma sunit_agrees (m : M (sworld T) unit) w s' : wp m (λ _ w', srel w' s') w → agrees srel ((m ;; mret_ (SUnit (T:=T)))%go w) (Some (SUnit, s')).
  Proof using. intros H. apply swp_agrees. apply wp_bind. eapply wp_mono; [exact H|]. cbv beta. intros _ w' ?. by apply wp_ret. Qed.
  Lemma sagrees_ok w s (x : s_out T) : srel w s → agrees srel (Ok (x, w)) (Some (x, s)).
  Proof using. intros H. by exists w. Qed.
  Lemma s_step_agrees o w s : srel w s → s_safe o s → agrees srel (s_step zero o w) (s_spec zero o s).
  Proof using.
    intros H Hs. destruct o as [|l x|l x|l x m|l pre n|l pre n|l pre n|l|l|l|n|n|n x]; cbn [s_step s_spec s_safe s_right] in *.
    - exists (MkSWorld (sw_nodes w) (sw_lists w ++ [MkSList None None 0])). split.
      + unfold s_New, mbind_, mret_. rewrite (sr_heads _ _ H), fmap_length. done.
      + split; cbn.
        * apply H. * rewrite (sr_heads _ _ H), fmap_app. done.
        * intros k ps Hk. apply lookup_app_Some in Hk as [Hk|[_ Hk]]; [by apply (sr_lists _ _ H k)|]. apply list_lookup_singleton_Some in Hk as [_ <-]. split; [done|constructor].
        * intros j k ps qs a Hj Hk Hne Ha. apply lookup_app_Some in Hj as [Hj|[_ Hj]]; [|apply list_lookup_singleton_Some in Hj as [_ <-]; by apply elem_of_nil in Ha].
          apply lookup_app_Some in Hk as [Hk|[_ Hk]]; [by eapply (sr_disj _ _ H j k)|]. apply list_lookup_singleton_Some in Hk as [_ <-]. apply not_elem_of_nil.
    - destruct Hs as [ps Hps]. rewrite Hps. cbn [mbind option_bind]. apply sunit_agrees. by apply PushFront_ok.
    - destruct Hs as [ps Hps]. rewrite Hps. cbn [mbind option_bind]. apply sunit_agrees. by apply PushBack_ok.
    - destruct Hs as (ps & Hps & Hm). rewrite Hps. cbn [mbind option_bind]. destruct m as [m|]; cbn [mbind option_bind].
      + apply swp_agrees. apply wp_bind. eapply wp_mono; [apply InsertAfter_ok; [done|done|by apply Hm]|]. cbv beta. intros r w' [-> ?]. by apply wp_ret.
      + done.
    - destruct n as [n|].
      + destruct Hs as (ps & Hps & Hin & ->). rewrite Hps. cbn [mbind option_bind]. destruct (sr_elem _ _ _ _ _ H Hps Hin) as [v Hv]. rewrite Hv. cbn [mbind option_bind].
        destruct (sr_lists _ _ H l ps Hps) as [_ Hnd]. destruct (elem_split n ps Hin) as (p & q & E). rewrite E in Hnd. rewrite E, pred_in_split, without_split by done.
        apply swp_agrees. apply wp_bind. eapply wp_mono; [by apply (Remove_ok w s l ps p n q v)|]. cbv beta. intros r w' [-> ?]. by apply wp_ret.
      + unfold s_Remove, speq, mbind_. rewrite bool_decide_eq_true_2 by done. by apply sagrees_ok.
    - destruct n as [n|].
      + destruct Hs as (ps & Hps & Hin & ->). rewrite Hps. cbn [mbind option_bind].
        destruct (sr_lists _ _ H l ps Hps) as [_ Hnd]. destruct (elem_split n ps Hin) as (p & q & E). rewrite E in Hnd. rewrite E, pred_in_split, without_split by done.
        apply sunit_agrees. by apply (MoveToFront_ok w s l ps p n q).
      + assert (pre = None) as -> by exact Hs. unfold s_MoveToFront, speq. rewrite bool_decide_eq_true_2 by done. by apply sagrees_ok.
    - destruct n as [n|].
      + destruct Hs as (ps & Hps & Hin & ->). rewrite Hps. cbn [mbind option_bind].
        destruct (sr_lists _ _ H l ps Hps) as [_ Hnd]. destruct (elem_split n ps Hin) as (p & q & E). rewrite E in Hnd. rewrite E, pred_in_split, without_split by done.
        apply sunit_agrees. by apply (MoveToBack_ok w s l ps p n q).
      + unfold s_MoveToBack, speq. rewrite bool_decide_eq_true_2 by done. by apply sagrees_ok.
    - destruct Hs as [ps Hps]. rewrite Hps. cbn [mbind option_bind]. unfold s_Len, mbind_. rewrite (sl_ok w l _ (sr_list _ _ _ _ H Hps)). by apply sagrees_ok.
    - destruct Hs as [ps Hps]. rewrite Hps. cbn [mbind option_bind]. unfold s_FrontNode, mbind_. rewrite (sl_ok w l _ (sr_list _ _ _ _ H Hps)). by apply sagrees_ok.
    - destruct Hs as [ps Hps]. rewrite Hps. cbn [mbind option_bind]. unfold s_BackNode, mbind_. rewrite (sl_ok w l _ (sr_list _ _ _ _ H Hps)). by apply sagrees_ok.
    - destruct n as [n|]; [|done]. cbn [mbind option_bind]. destruct (Hs n eq_refl) as (l & ps & Hps & Hin). destruct (elem_split n ps Hin) as (p & q & ->).
      destruct (sr_lists _ _ H l _ Hps) as [_ Hnd]. unfold mbind_. rewrite (sNext_ok w s l p n q H Hps). rewrite (head_omap_one _ _ l (p ++ n :: q)); [|done|].
      + rewrite succ_in_split by done. by apply sagrees_ok.
      + intros j qs Hj Hne. apply succ_in_not. by apply (sr_disj _ _ H l j _ _ _ Hps Hj).
    - destruct n as [n|]; [|done]. cbn [mbind option_bind]. unfold mbind_. destruct (ss_vals s !! n) as [v|] eqn:Hv; cbn [mbind option_bind].
      + destruct (sr_val _ _ _ _ H Hv) as (nn & Hnn & Hvv). rewrite (sn_ok w n nn Hnn), Hvv. by apply sagrees_ok.
      + unfold sn. by rewrite (sr_none w s n H Hv).
    - destruct n as [n|]; [|done]. cbn [mbind option_bind]. destruct (ss_vals s !! n) as [v|] eqn:Hv; cbn [mbind option_bind].
      + destruct (sr_val _ _ _ _ H Hv) as (nn & Hnn & _). apply sunit_agrees. unfold sset_val, sn_upd. eapply wp_eq. { rewrite Hnn. reflexivity. }
        assert (∀ c, nx (<[n := MkSNode (sn_next nn) x]> (sw_nodes w)) c = nx (sw_nodes w) c) as Hsame.
        { intros c. unfold nx. destruct (decide (c = n)) as [->|]; [rewrite list_lookup_insert by (by eapply lookup_lt_Some); by rewrite Hnn|by rewrite list_lookup_insert_ne]. }
        split; cbn.
        * rewrite list_fmap_insert. by rewrite (sr_vals _ _ H). * apply H.
        * intros k ps Hk. destruct (sr_lists _ _ H k ps Hk) as [H1 H2]. split; [|done]. by apply (seg_frame (sw_nodes w)). * apply H.
      + cbn [agrees]. unfold mbind_, sset_val, sn_upd. by rewrite (sr_none w s n H Hv).
  Qed.
  Theorem s_history_from ops : ∀ w s, srel w s → s_safe_run zero ops s → agrees srel (run (s_step zero) ops w) (srun (s_spec zero) ops s).
  Proof using.
    induction ops as [|o ops IH]; intros w s H Hs; cbn [run srun].
    - by exists w.
    - destruct Hs as [Ho Hs]. pose proof (s_step_agrees o w s H Ho) as Ha. destruct (s_spec zero o s) as [[r s']|]; cbn [agrees] in *.
      + destruct Ha as (w' & -> & H'). specialize (IH w' s' H' Hs). destruct (srun (s_spec zero) ops s') as [[rs s'']|]; cbn [agrees] in *.
        * destruct IH as (w'' & -> & H''). by exists w''. * by rewrite IH.
      + by rewrite Ha.
  Qed.
  Lemma straverse_ok f w s k p q : srel w s → ss_lists s !! k = Some (p ++ q) → ∀ fuel, length q ≤ fuel → straverse f fuel (head q) w = Ok (upto f (s_vals_of s q), w).
  Proof using.
    intros H. revert p. induction q as [|a q IH]; intros p Hk fuel Hf; [by destruct fuel|]. destruct fuel as [|fuel]; [cbn in Hf; lia|].
    destruct (sr_elem w s k _ a H Hk) as (v & Hv); [set_solver|]. destruct (sr_val _ _ _ _ H Hv) as (nn & Hnn & Hvv).
    assert (s_vals_of s (a :: q) = v :: s_vals_of s q) as -> by (unfold s_vals_of; cbn; by rewrite Hv).
    cbn [straverse head upto]. unfold mbind_. rewrite (sn_ok w a nn Hnn), Hvv. destruct (f v); [|done]. rewrite (sNext_ok w s k p a q H Hk).
    rewrite (IH (p ++ [a])); [|by rewrite <-app_assoc|cbn in Hf; lia]. done.
  Qed.
End slist.
