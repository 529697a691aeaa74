(** Bidirectional list operations refine operations on node sequences, continued. *)
From Verif Require Import Base Wp BidlistModel BidlistSpec BidlistCyc BidlistProofs.
Open Scope nat_scope.

Section rel.
  Context {T : Type}.
  Implicit Types (ns : list (bnode T)) (w : bworld T) (s : bs T) (ps : list nat).

  Lemma set_owner_ok w a v : a < length (b_nodes w) → wp (set_owner (Some a) v) (λ _ w', ∃ ns', w' = wnodes w ns' ∧ length ns' = length (b_nodes w) ∧
    b_val <$> ns' = b_val <$> b_nodes w ∧ (∀ c, own ns' c = if decide (c = a) then Some v else own (b_nodes w) c) ∧
    (∀ c, prv ns' c = prv (b_nodes w) c) ∧ (∀ c, nxt ns' c = nxt (b_nodes w) c)) w.
  Proof using.
    intros Ha. destruct (lookup_lt_is_Some_2 _ _ Ha) as [x Hx]. eapply wp_eq. { unfold set_owner, nd_upd. by rewrite Hx. }
    eexists. split; [done|]. split; [by rewrite insert_length|]. split.
    { rewrite list_fmap_insert. cbn. apply list_insert_id. by rewrite list_lookup_fmap, Hx. }
    unfold own, nxt, prv. split_and!; intros c; destruct (decide (c = a)) as [->|]; rewrite ?list_lookup_insert, ?list_lookup_insert_ne by done; try done; by rewrite Hx.
  Qed.

  (** neighbours as the API shows them *)
  Lemma Next_ok w s k p a q : brel w s → s_lists s !! k = Some (p ++ a :: q) → b_Next (Some a) w = Ok (head q, w).
  Proof using.
    intros H Hk. destruct (br_elem w s k _ a H Hk) as (n & x & Hn & Ho & _); [set_solver|]. destruct (br_lists _ _ H k _ Hk) as (Hc & Hnd & _).
    pose proof (cyc_nxt _ _ _ _ Hc) as Hx. unfold nxt in Hx. rewrite Hn in Hx. injection Hx as Hx.
    unfold b_Next, mbind_. rewrite (nd_ok w a n Hn), Ho, (ls_ok w k _ (br_list _ _ _ _ H Hk)). cbn [bl b_head]. unfold ptr_eqb. rewrite Hx.
    apply NoDup_mid in Hnd as (Hp & Hq & Hnd). destruct q as [|b q]; cbn [app head].
    - rewrite bool_decide_eq_true_2; [done|]. by destruct p.
    - rewrite bool_decide_eq_false_2; [done|]. destruct p as [|c p]; cbn; intros [= ->]; [set_solver|]. apply NoDup_cons in Hnd as [Hnd _]. set_solver.
  Qed.
  Lemma Prev_ok w s k p a q : brel w s → s_lists s !! k = Some (p ++ a :: q) → b_Prev (Some a) w = Ok (last p, w).
  Proof using.
    intros H Hk. destruct (br_elem w s k _ a H Hk) as (n & x & Hn & Ho & _); [set_solver|]. destruct (br_lists _ _ H k _ Hk) as (Hc & Hnd & _).
    pose proof (cyc_prv _ _ _ _ Hc) as Hx. unfold prv in Hx. rewrite Hn in Hx. injection Hx as Hx.
    unfold b_Prev, mbind_. rewrite (nd_ok w a n Hn), Ho, (ls_ok w k _ (br_list _ _ _ _ H Hk)). cbn [bl b_head]. unfold ptr_eqb. rewrite Hx.
    apply NoDup_mid in Hnd as (Hp & Hq & Hnd). destruct p as [|b p].
    - rewrite bool_decide_eq_true_2; [done|]. done.
    - rewrite bool_decide_eq_false_2. { unfold mret_. f_equal. f_equal. change (a :: q ++ b :: p) with ((a :: q) ++ b :: p). by rewrite last_app_ne. }
      cbn. intros [= ->]. set_solver.
  Qed.

  (** same nodes, other order *)
  Lemma brel_perm w s k ps ps' ns' : brel w s → s_lists s !! k = Some ps → same (b_nodes w) ns' → cyc ns' ps' → Permutation ps' ps →
    (∀ c, c ∉ ps → nxt ns' c = nxt (b_nodes w) c ∧ prv ns' c = prv (b_nodes w) c) →
    brel (MkBWorld ns' (<[k := bl ps']> (b_lists w))) (upd_list s k ps').
  Proof using.
    intros H Hk (Sl & Sv & So) Hc Hp Hfr. destruct (br_lists _ _ H k ps Hk) as (_ & Hnd & Ho). unfold upd_list.
    replace (s_vals s) with (b_val <$> ns') by (rewrite Sv; apply (br_vals _ _ H)). apply (brel_change w s k ps); try done.
    - split_and!; [done|by rewrite Hp|]. intros a. rewrite Hp, So. apply Ho.
    - intros c j Hne Hoc. rewrite So. destruct (Hfr c) as [-> ->]; [|done]. intros Hin. rewrite (Ho c Hin) in Hoc. congruence.
    - intros c j Hne. by rewrite So.
    - intros c Hoc Hcl. rewrite So in Hoc. rewrite Hp. destruct (br_owner _ _ H c k Hoc Hcl) as (qs & Hqs & Hin). by simplify_eq.
  Qed.

  (** remove *)
  Lemma remove_ok w s k ps p n q : brel w s → s_lists s !! k = Some ps → ps = p ++ n :: q →
    wp (remove k (Some n)) (λ _ w', brel w' (upd_list s k (p ++ q))) w.
  Proof using.
    intros H Hk Eps. pose proof (br_list _ _ _ _ H Hk) as Hb. assert (k < length (b_lists w)) as Hkl by (by eapply lookup_lt_Some).
    destruct (br_lists _ _ H k ps Hk) as (Hc & Hnd & Ho). rewrite Eps in Hc, Hnd. destruct (NoDup_mid _ _ _ Hnd) as (Hnp & Hnq & Hnd').
    assert (n < length (b_nodes w)) as Hal. { eapply own_alloc. apply Ho. rewrite Eps. set_solver. }
    pose proof (cyc_nxt _ _ _ _ Hc) as Hnx. 
    unfold remove. wp_step (ls_ok w k _ Hb). cbn [bl b_head].
    set (hd := if decide (p = []) then head (q ++ p ++ [n]) else head ps).
    apply wp_bind. eapply (wp_mono _ (λ _ w', w' = MkBWorld (b_nodes w) (<[k := MkBList hd (Z.of_nat (length ps))]> (b_lists w)))).
    { unfold ptr_eqb. destruct p as [|z p].
      - rewrite bool_decide_eq_true_2 by (by rewrite Eps). rewrite Eps. cbn [app head].
        destruct (nd_next w n _ Hnx) as (a & Ea & Ha). wp_step Ea. rewrite Ha. unfold set_head, ls_upd. eapply wp_eq. { by rewrite Hb. } cbn [bl b_len]. unfold hd. rewrite decide_True by done. rewrite Eps. done.
      - rewrite bool_decide_eq_false_2. 2:{ rewrite Eps. cbn. intros [= ->]. set_solver. }
        apply wp_ret. unfold hd. rewrite decide_False by done. rewrite list_insert_id; [by destruct w|]. done. }
    cbv beta. intros _ w' ->.
    assert (cyc (b_nodes w) ((q ++ p) ++ [n])) as Hc'. { rewrite <-app_assoc. apply (cyc_rot _ (p ++ [n])). by rewrite <-app_assoc. }
    assert (Permutation ((q ++ p) ++ [n]) (p ++ n :: q)) as Hperm. { rewrite (Permutation_app_comm q p), <-(Permutation_middle p q n). by rewrite <-(Permutation_cons_append (p ++ q)). }
    apply (unlink_last (MkBWorld (b_nodes w) _) (q ++ p) n); cbn [b_nodes b_lists wnodes]; [done|by rewrite Hperm|].
    intros ns1 S1 Hcy Hfr. pose proof S1 as (Sl & Sv & So). unfold wnodes. cbn [b_lists].
    apply wp_bind. eapply wp_mono; [apply set_next_ok; cbn; by rewrite Sl|]. cbv beta. intros _ w2 (ns2 & -> & S2 & N2 & P2). cbn [wnodes b_nodes b_lists] in *.
    apply wp_bind. eapply wp_mono; [apply set_prev_ok; cbn; destruct S2 as [-> _]; by rewrite Sl|]. cbv beta. intros _ w3 (ns3 & -> & S3 & P3 & N3). cbn [wnodes b_nodes b_lists] in *.
    pose proof (same_trans _ _ _ S1 (same_trans _ _ _ S2 S3)) as (Sl3 & Sv3 & So3).
    apply wp_bind. eapply wp_mono; [apply set_owner_ok; cbn; by rewrite Sl3|]. cbv beta. intros _ w4 (ns4 & -> & Sl4 & Sv4 & O4 & P4 & N4). cbn [wnodes b_nodes b_lists] in *.
    apply wp_bind. unfold len_add, ls_upd. eapply wp_eq. { cbn [wnodes b_lists]. rewrite list_lookup_insert by done. reflexivity. } cbn [b_nodes b_lists b_head b_len wnodes]. rewrite list_insert_insert.
    apply wp_bind. eapply wp_eq. { apply ls_ok. cbn [b_lists]. rewrite list_lookup_insert by done. reflexivity. } cbn [b_len].
    assert (brel (MkBWorld ns4 (<[k := bl (p ++ q)]> (b_lists w))) (upd_list s k (p ++ q))) as HB.
    { unfold upd_list. replace (s_vals s) with (b_val <$> ns4) by (rewrite Sv4, Sv3; apply (br_vals _ _ H)). apply (brel_change w s k ps); try done.
      - split_and!; [|done|].
        + apply cyc_rot. apply (cyc_frame ns1); [done|]. intros a Ha. rewrite N4, N3, N2, P4, P3, P2. rewrite !decide_False; [done| |]; set_solver.
        + intros a Ha. rewrite O4, decide_False by set_solver. rewrite So3. apply Ho. rewrite Eps. set_solver.
      - intros c j Hne Hoc. assert (c ∉ ps) as Hcp. { intros Hin. rewrite (Ho c Hin) in Hoc. congruence. } rewrite Eps in Hcp.
        rewrite N4, N3, N2, P4, P3, P2, O4. rewrite !decide_False by set_solver. rewrite So3. destruct (Hfr c) as [-> ->]; [set_solver|done].
      - intros c j Hne. rewrite O4. destruct (decide (c = n)); [done|]. by rewrite So3.
      - intros c. rewrite O4. destruct (decide (c = n)); [done|]. rewrite So3. intros Hoc Hcl.
        destruct (br_owner _ _ H c k Hoc Hcl) as (qs & Hqs & Hin). simplify_eq. set_solver. }
    destruct (Z.eqb_spec (Z.of_nat (length ps) + -1) 0) as [E|E].
    - assert (p ++ q = []) as Epq. { apply length_zero_iff_nil. rewrite Eps, app_length in E. cbn in E. rewrite app_length. lia. }
      unfold set_head, ls_upd. eapply wp_eq. { cbn [b_lists]. rewrite list_lookup_insert by done. reflexivity. } cbn [b_nodes b_lists b_len]. rewrite list_insert_insert.
      rewrite Epq in *. rewrite E. exact HB.
    - apply wp_ret. replace (MkBList hd (Z.of_nat (length ps) + -1)) with (bl (p ++ q)); [exact HB|]. unfold bl. f_equal.
      + unfold hd. destruct p as [|z p]; [|rewrite decide_False by done; by rewrite Eps]. rewrite decide_True by done. cbn. destruct q; [|done]. rewrite Eps in E. cbn in E. lia.
      + rewrite Eps, !app_length. cbn. lia.
  Qed.
  Lemma Remove_ok w s k ps n x : brel w s → s_lists s !! k = Some ps → s_vals s !! n = Some x → n ∉ s_cleared s ∨ n ∈ ps →
    wp (b_Remove k (Some n)) (λ r w', r = x ∧ brel w' (upd_list s k (without n ps))) w.
  Proof using.
    intros H Hk Hx Hcl. unfold b_Remove. destruct (br_val w s n x H Hx) as (nn & Hnn & Hv). wp_step (nd_ok w n nn Hnn).
    pose proof (br_member w s k ps n nn H Hk Hnn Hcl) as Hm. destruct (br_lists _ _ H k ps Hk) as (_ & Hnd & _). apply wp_bind.
    apply (wp_mono _ (λ _ w', brel w' (upd_list s k (without n ps)))).
    - unfold ptr_eqb. destruct (decide (n ∈ ps)) as [Hin|Hin]; [rewrite bool_decide_eq_true_2 by (by apply Hm)|rewrite bool_decide_eq_false_2 by (by rewrite Hm)].
      + destruct (elem_split n ps Hin) as (p & q & E). assert (without n ps = p ++ q) as ->. { rewrite E, without_split; [done|]. by rewrite <-E. } by apply (remove_ok w s k ps p n q).
      + apply wp_ret. rewrite without_not by done. unfold upd_list. rewrite list_insert_id by done. by destruct s.
    - intros _ w' H'. destruct (br_val _ _ n x H' Hx) as (n' & Hn' & Hv'). wp_step (nd_ok _ _ _ Hn'). by apply wp_ret.
  Qed.
  Lemma Clear_ok w s k ps : brel w s → s_lists s !! k = Some ps →
    wp (b_Clear k) (λ _ w', brel w' (MkBs (<[k := []]> (s_lists s)) (s_vals s) (ps ++ s_cleared s))) w.
  Proof using.
    intros H Hk. unfold b_Clear, ls_upd. eapply wp_eq. { rewrite (br_list _ _ _ _ H Hk). reflexivity. }
    rewrite <-(br_vals _ _ H). apply (brel_change w s k ps []); try done.
    - split_and!; [done|constructor|]. intros a Ha. by apply elem_of_nil in Ha.
    - intros c Hoc Hcl. destruct (br_owner _ _ H c k Hoc) as (qs & Hqs & Hin); [set_solver|]. simplify_eq. set_solver.
    - set_solver.
  Qed.

  (** moving n right after m; the list is given rotated so that n comes first *)
  Lemma move_ok w k b n r x m y : b_lists w !! k = Some b → r = x ++ m :: y → cyc (b_nodes w) (n :: r) → NoDup (n :: r) →
    wp (move_to_after k (Some n) (Some m)) (λ _ w', ∃ ns',
        w' = MkBWorld ns' (<[k := MkBList (if decide (y = []) then b_head b else if decide (b_head b = Some n) then head r else b_head b) (b_len b)]> (b_lists w)) ∧
        same (b_nodes w) ns' ∧ cyc ns' (x ++ m :: n :: y) ∧ (∀ c, c ∉ n :: r → nxt ns' c = nxt (b_nodes w) c ∧ prv ns' c = prv (b_nodes w) c)) w.
  Proof using.
    intros Hb -> Hc Hnd. unfold move_to_after. pose proof (cyc_nxt _ (n :: x) m y Hc) as Hm. destruct (nd_next w m _ Hm) as (a & Ea & Ha). wp_step Ea. rewrite Ha.
    pose proof (cyc_nxt _ [] n (x ++ m :: y) Hc) as Hn.
    apply NoDup_cons in Hnd as [Hnr Hnd]. destruct (NoDup_mid _ _ _ Hnd) as (Hmx & Hmy & Hnd'). assert (n ≠ m) by set_solver.
    unfold ptr_eqb. rewrite (bool_decide_eq_false_2 (Some n = Some m)) by congruence. rewrite orb_false_r.
    destruct y as [|b0 y].
    - rewrite bool_decide_eq_true_2 by done. apply wp_ret. exists (b_nodes w). split_and!; try done.
      + rewrite decide_True by done. rewrite list_insert_id; [by destruct w|]. by destruct b.
      + apply (cyc_rot _ [n] (x ++ [m])) in Hc. by rewrite <-app_assoc in Hc.
    - rewrite bool_decide_eq_false_2. 2:{ cbn. intros [= ->]. set_solver. } wp_step (ls_ok w k _ Hb). cbv zeta. rewrite decide_False by done.
      apply wp_bind. eapply (wp_mono _ (λ _ w', w' = MkBWorld (b_nodes w) (<[k := MkBList (if decide (b_head b = Some n) then head (x ++ m :: b0 :: y) else b_head b) (b_len b)]> (b_lists w)))).
      { destruct (decide (b_head b = Some n)) as [E|E].
        - rewrite E, bool_decide_eq_true_2 by done. destruct (nd_next w n _ Hn) as (a' & Ea' & Ha'). wp_step Ea'. rewrite Ha'. unfold set_head, ls_upd. eapply wp_eq. { by rewrite Hb. } f_equal. f_equal. f_equal. by destruct x.
        - rewrite bool_decide_eq_false_2 by congruence. apply wp_ret. rewrite list_insert_id; [by destruct w|]. by destruct b. }
      cbv beta. intros _ w' ->. set (L := <[k := _]> (b_lists w)).
      assert (cyc (b_nodes w) ((x ++ m :: b0 :: y) ++ [n])) as Hc'. { by apply (cyc_rot _ [n]). }
      assert (NoDup ((x ++ m :: b0 :: y) ++ [n])) as Hnd2. { rewrite <-Permutation_cons_append. by constructor. }
      apply (unlink_last (MkBWorld (b_nodes w) L) (x ++ m :: b0 :: y) n); [done|done|]. cbn [b_nodes].
      intros ns1 S1 Hcy Hfr. unfold wnodes. cbn [b_lists].
      assert (Permutation (((b0 :: y) ++ x) ++ [m]) (x ++ m :: b0 :: y)) as Hperm. { rewrite (Permutation_app_comm (b0 :: y) x), <-(Permutation_middle x (b0 :: y) m). by rewrite <-(Permutation_cons_append (x ++ b0 :: y)). }
      apply (link_last (MkBWorld ns1 L) ((b0 :: y) ++ x) m n); cbn [b_nodes].
      { rewrite <-app_assoc. apply (cyc_rot _ (x ++ [m])). rewrite <-app_assoc. exact Hcy. } { by rewrite Hperm. } { by rewrite Hperm. }
      { destruct S1 as [-> _]. unfold nxt in Hn. apply fmap_Some in Hn as (nn & Hnn & _). by eapply lookup_lt_Some. }
      intros ns2 S2 Hcy2 Hfr2. unfold wnodes. cbn [b_lists]. apply wp_ret. exists ns2. split_and!; [done|by eapply same_trans| |].
      + replace (x ++ m :: n :: b0 :: y) with ((x ++ [m; n]) ++ b0 :: y) by (by rewrite <-app_assoc). apply cyc_rot. rewrite app_assoc. done.
      + intros c Hcn. destruct (Hfr2 c) as [-> ->]. { change [m; n] with ([m] ++ [n]). rewrite app_assoc, <-Permutation_cons_append, Hperm. done. }
        apply Hfr. set_solver.
  Qed.

  Lemma upd_list_id s k ps : s_lists s !! k = Some ps → upd_list s k ps = s.
  Proof using. intros H. unfold upd_list. rewrite list_insert_id by done. by destruct s. Qed.
  Lemma perm_rot (n : nat) p q : Permutation (n :: q ++ p) (p ++ n :: q).
  Proof using. rewrite (Permutation_app_comm q p). apply Permutation_middle. Qed.

  Lemma MoveToFront_ok w s k ps n x : brel w s → s_lists s !! k = Some ps → s_vals s !! n = Some x → n ∉ s_cleared s ∨ n ∈ ps →
    wp (b_MoveToFront k (Some n)) (λ _ w', brel w' (if decide (n ∈ ps) then upd_list s k (n :: without n ps) else s)) w.
  Proof using.
    intros H Hk Hx Hcl. unfold b_MoveToFront. destruct (br_val w s n x H Hx) as (nn & Hnn & Hv). wp_step (nd_ok w n nn Hnn).
    pose proof (br_member w s k ps n nn H Hk Hnn Hcl) as Hmem. destruct (br_lists _ _ H k ps Hk) as (Hc & Hnd & _).
    pose proof (br_list _ _ _ _ H Hk) as Hb. assert (k < length (b_lists w)) as Hkl by (by eapply lookup_lt_Some).
    unfold ptr_eqb. destruct (decide (n ∈ ps)) as [Hin|Hin]; [rewrite (bool_decide_eq_true_2 (b_owner nn = _)) by (by apply Hmem)|rewrite (bool_decide_eq_false_2 (b_owner nn = _)) by (by rewrite Hmem)]; cbn [negb].
    2:{ by apply wp_ret. }
    wp_step (ls_ok w k _ Hb). cbn [bl b_head]. destruct (elem_split n ps Hin) as (p & q & E).
    assert (without n ps = p ++ q) as ->. { rewrite E, without_split; [done|]. by rewrite <-E. }
    destruct p as [|h p].
    - rewrite bool_decide_eq_true_2 by (by rewrite E). cbn [negb]. apply wp_ret. cbn [app] in *. rewrite <-E. by rewrite upd_list_id.
    - rewrite bool_decide_eq_false_2. 2:{ rewrite E in *. cbn. intros [= ->]. apply NoDup_cons in Hnd as [? _]. set_solver. } cbn [negb].
      rewrite E. cbn [app head]. rewrite E in Hc. pose proof (cyc_prv _ [] h (p ++ n :: q) Hc) as Hp. rewrite app_nil_r in Hp.
      destruct (nd_prev w h _ Hp) as (a & Ea & Ha). wp_step Ea. rewrite Ha.
      change (h :: p ++ n :: q) with ((h :: p) ++ n :: q). rewrite last_app_ne by done. apply wp_bind.
      destruct q as [|m q0 _] using rev_ind.
      + (* n is the last node *)
        cbn [last]. eapply (wp_mono _ (λ _ w', w' = w)).
        { unfold move_to_after. wp_step (nd_ok w n nn Hnn). unfold ptr_eqb. rewrite (bool_decide_eq_true_2 (Some n = Some n)) by done. rewrite orb_true_r. by apply wp_ret. }
        cbv beta. intros _ w' ->. unfold set_head, ls_upd. eapply wp_eq. { rewrite Hb. reflexivity. } cbn [bl b_len].
        assert (MkBList (Some n) (Z.of_nat (length ps)) = bl (n :: (h :: p) ++ [])) as ->. { unfold bl. rewrite E, app_nil_r. cbn [head]. f_equal. rewrite app_length. cbn. lia. }
        apply (brel_perm w s k ps); try done.
        * rewrite app_nil_r. by apply (cyc_rot _ (h :: p) [n]).
        * rewrite E, app_nil_r. apply Permutation_cons_append.
      + rewrite app_comm_cons, last_snoc. rewrite E in Hnd.
        eapply wp_mono; [apply (move_ok w k (bl ps) n (q0 ++ m :: h :: p) q0 m (h :: p)); [done|done| |]|].
        { apply (cyc_rot _ (h :: p)) in Hc. cbn [app] in Hc. rewrite <-app_assoc in Hc. exact Hc. }
        { change (n :: q0 ++ m :: h :: p) with ((n :: q0) ++ m :: h :: p). replace ((n :: q0) ++ m :: h :: p) with (n :: (q0 ++ [m]) ++ h :: p) by (by rewrite <-app_assoc). rewrite (perm_rot n (h :: p)). exact Hnd. }
        cbv beta. intros _ w' (ns' & -> & S' & Hcy & Hfr). unfold set_head, ls_upd. eapply wp_eq. { cbn [b_lists]. rewrite list_lookup_insert by done. reflexivity. }
        cbn [b_nodes b_lists b_len bl]. rewrite list_insert_insert.
        assert (MkBList (Some n) (Z.of_nat (length ps)) = bl (n :: (h :: p) ++ q0 ++ [m])) as ->. { unfold bl. rewrite E. cbn [head]. f_equal. rewrite !app_length. cbn. rewrite !app_length. cbn. lia. }
        apply (brel_perm w s k ps); try done.
        * apply (cyc_rot ns' (q0 ++ [m]) (n :: h :: p)). by rewrite <-app_assoc.
        * rewrite E. apply (Permutation_middle (h :: p) (q0 ++ [m])).
        * intros c Hcn. apply Hfr. rewrite E in Hcn. set_solver.
  Qed.
  Lemma MoveToBack_ok w s k ps n x : brel w s → s_lists s !! k = Some ps → s_vals s !! n = Some x → n ∉ s_cleared s ∨ n ∈ ps →
    wp (b_MoveToBack k (Some n)) (λ _ w', brel w' (if decide (n ∈ ps) then upd_list s k (without n ps ++ [n]) else s)) w.
  Proof using.
    intros H Hk Hx Hcl. unfold b_MoveToBack. destruct (br_val w s n x H Hx) as (nn & Hnn & Hv). wp_step (nd_ok w n nn Hnn).
    pose proof (br_member w s k ps n nn H Hk Hnn Hcl) as Hmem. destruct (br_lists _ _ H k ps Hk) as (Hc & Hnd & _).
    pose proof (br_list _ _ _ _ H Hk) as Hb. assert (k < length (b_lists w)) as Hkl by (by eapply lookup_lt_Some).
    unfold ptr_eqb. destruct (decide (n ∈ ps)) as [Hin|Hin]; [rewrite (bool_decide_eq_true_2 (b_owner nn = _)) by (by apply Hmem)|rewrite (bool_decide_eq_false_2 (b_owner nn = _)) by (by rewrite Hmem)]; cbn [negb].
    2:{ by apply wp_ret. }
    wp_step (ls_ok w k _ Hb). cbn [bl b_head]. destruct (elem_split n ps Hin) as (p & q & E).
    assert (without n ps = p ++ q) as ->. { rewrite E, without_split; [done|]. by rewrite <-E. }
    assert (∃ h t, ps = h :: t) as (h & t & Eh). { rewrite E. destruct p; cbn; eauto. }
    rewrite Eh at 1. cbn [head]. pose proof Hc as Hc0. rewrite Eh in Hc0. pose proof (cyc_prv _ [] h t Hc0) as Hp. rewrite app_nil_r, <-Eh in Hp.
    destruct (nd_prev w h _ Hp) as (a & Ea & Ha). wp_step Ea. rewrite Ha. rewrite E in Hnd. destruct (NoDup_mid _ _ _ Hnd) as (Hnp & Hnq & Hnd').
    assert (last ps = last (n :: q)) as Hlast. { rewrite E. by rewrite last_app_ne. }
    destruct q as [|m q0 _] using rev_ind.
    - rewrite bool_decide_eq_true_2 by (by rewrite Hlast). cbn [negb]. apply wp_ret. rewrite app_nil_r. rewrite <-E. by rewrite upd_list_id.
    - rewrite app_comm_cons, last_snoc in Hlast. rewrite bool_decide_eq_false_2. 2:{ rewrite Hlast. intros [= ->]. set_solver. } cbn [negb].
      destruct p as [|h' p].
      + (* n is the first node: the head moves on *)
        cbn [app] in *. rewrite E. cbn [head]. rewrite bool_decide_eq_true_2 by done. rewrite E in Hc. pose proof (cyc_nxt _ [] n (q0 ++ [m]) Hc) as Hn. cbn [app] in Hn.
        destruct (nd_next w n _ Hn) as (a' & Ea' & Ha'). apply wp_bind. wp_step Ea'. rewrite Ha'. unfold set_head, ls_upd. eapply wp_eq. { rewrite Hb. reflexivity. }
        apply wp_bind. eapply wp_eq. { apply ls_ok. cbn [b_lists]. rewrite list_lookup_insert by done. reflexivity. } cbn [b_head bl b_len b_nodes].
        assert (∃ h2 t2, q0 ++ [m] = h2 :: t2) as (h2 & t2 & Eh2). { destruct q0; cbn; eauto. } rewrite Eh2. cbn [app head].
        assert (prv (b_nodes w) h2 = Some (Some n)) as Hp2. { rewrite Eh2 in Hc. pose proof (cyc_prv _ [n] h2 t2 Hc) as Hq. change (h2 :: t2 ++ [n]) with ((h2 :: t2) ++ [n]) in Hq. by rewrite last_snoc in Hq. }
        destruct (nd_prev (MkBWorld (b_nodes w) (<[k := MkBList (Some h2) (Z.of_nat (length (n :: h2 :: t2)))]> (b_lists w))) h2 _ Hp2) as (a2 & Ea2 & Ha2).
        rewrite Eh2 in E. rewrite E. wp_step Ea2. rewrite Ha2.
        unfold move_to_after. eapply wp_bind, wp_eq. { apply nd_ok. exact Hnn. } unfold ptr_eqb. rewrite (bool_decide_eq_true_2 (Some n = Some n)) by done. rewrite orb_true_r. apply wp_ret.
        assert (MkBList (Some h2) (Z.of_nat (length (n :: h2 :: t2))) = bl ((h2 :: t2) ++ [n])) as ->. { unfold bl. cbn [head app]. f_equal. cbn. rewrite app_length. cbn. lia. }
        apply (brel_perm w s k ps); try done.
        * apply (cyc_rot _ [n] (h2 :: t2)). rewrite <-Eh2. exact Hc.
        * rewrite E. symmetry. apply (Permutation_cons_append (h2 :: t2)).
      + rewrite bool_decide_eq_false_2. 2:{ rewrite E. cbn. intros [= ->]. set_solver. } apply wp_bind, wp_ret. wp_step (ls_ok w k _ Hb). cbn [bl b_head].
        rewrite Eh at 1. cbn [head]. wp_step Ea. rewrite Ha, Hlast.
        rewrite E in Hc. eapply wp_mono; [apply (move_ok w k (bl ps) n (q0 ++ m :: h' :: p) q0 m (h' :: p)); [done|done| |]|].
        { apply (cyc_rot _ (h' :: p)) in Hc. cbn [app] in Hc. rewrite <-app_assoc in Hc. exact Hc. }
        { replace (n :: q0 ++ m :: h' :: p) with (n :: (q0 ++ [m]) ++ h' :: p) by (by rewrite <-app_assoc). rewrite (perm_rot n (h' :: p)). exact Hnd. }
        cbv beta. intros _ w' (ns' & -> & S' & Hcy & Hfr). rewrite decide_False by done. rewrite decide_False. 2:{ cbn. rewrite E. cbn. intros [= ->]. set_solver. }
        cbn [bl b_head b_len].
        assert (MkBList (head ps) (Z.of_nat (length ps)) = bl (((h' :: p) ++ q0 ++ [m]) ++ [n])) as ->. { unfold bl. rewrite E. cbn [head app]. f_equal. cbn. rewrite !app_length. cbn. rewrite !app_length. cbn. lia. }
        apply (brel_perm w s k ps); try done.
        * rewrite <-app_assoc. apply (cyc_rot _ ((q0 ++ [m]) ++ [n])). rewrite <-!app_assoc. exact Hcy.
        * rewrite E. rewrite <-Permutation_cons_append. apply (Permutation_middle (h' :: p) (q0 ++ [m])).
        * intros c Hcn. apply Hfr. rewrite E in Hcn. set_solver.
  Qed.
  Lemma move_after_in w s k ps n m : brel w s → s_lists s !! k = Some ps → n ∈ ps → m ∈ ps → n ≠ m → ¬ (head ps = Some n ∧ last ps = Some m) →
    wp (move_to_after k (Some n) (Some m)) (λ _ w', brel w' (upd_list s k (ins_after m n (without n ps)))) w.
  Proof using.
    intros H Hk Hn Hm Hne Hsafe. destruct (br_lists _ _ H k ps Hk) as (Hc & Hnd & _). pose proof (br_list _ _ _ _ H Hk) as Hb.
    destruct (elem_split n ps Hn) as (p & q & E). pose proof Hnd as Hnd0. rewrite E in Hnd. destruct (NoDup_mid _ _ _ Hnd) as (Hnp & Hnq & Hnd').
    assert (without n ps = p ++ q) as ->. { rewrite E, without_split; [done|]. by rewrite <-E. }
    assert (cyc (b_nodes w) (n :: q ++ p)) as Hc'. { rewrite E in Hc. by apply cyc_rot in Hc. }
    assert (NoDup (n :: q ++ p)) as Hnd2. { by rewrite (perm_rot n p q). }
    assert (m ∈ p ∨ m ∈ q) as [Hmp|Hmq]. { rewrite E in Hm. set_solver. }
    - destruct (elem_split m p Hmp) as (p1 & p2 & Ep). rewrite Ep, <-app_assoc in Hnd' |- *. cbn [app] in *. rewrite ins_after_split by done.
      eapply wp_mono; [apply (move_ok w k (bl ps) n (q ++ p) (q ++ p1) m p2); [done| |done|done]; by rewrite Ep, <-app_assoc|].
      cbv beta. intros _ w' (ns' & -> & S' & Hcy & Hfr).
      assert (head ps ≠ Some n) as Hh. { rewrite E, Ep. destruct p1; cbn; intros [= ->]; rewrite Ep in Hnp; set_solver. }
      rewrite (decide_False (P := b_head (bl ps) = Some n)) by done. replace (if decide (p2 = []) then b_head (bl ps) else b_head (bl ps)) with (head ps) by (by destruct (decide _)).
      cbn [bl b_len]. assert (MkBList (head ps) (Z.of_nat (length ps)) = bl (p1 ++ m :: n :: p2 ++ q)) as ->. { unfold bl. rewrite E, Ep, <-app_assoc. f_equal; [by destruct p1|]. rewrite !app_length. cbn. rewrite !app_length. cbn. lia. }
      apply (brel_perm w s k ps); try done.
      + replace (p1 ++ m :: n :: p2 ++ q) with ((p1 ++ m :: n :: p2) ++ q) by (by rewrite <-app_assoc). apply cyc_rot. by rewrite app_assoc.
      + rewrite E, Ep, <-app_assoc. cbn [app]. apply Permutation_app_head. apply perm_skip. rewrite <-Permutation_middle. done.
      + intros c Hcn. apply Hfr. rewrite E in Hcn. set_solver.
    - destruct (elem_split m q Hmq) as (q1 & q2 & Eq). rewrite Eq. replace (p ++ q1 ++ m :: q2) with ((p ++ q1) ++ m :: q2) by (by rewrite <-app_assoc).
      rewrite ins_after_split by (rewrite <-app_assoc, <-Eq; done).
      eapply wp_mono; [apply (move_ok w k (bl ps) n (q ++ p) q1 m (q2 ++ p)); [done| |done|done]; by rewrite Eq, <-app_assoc|].
      cbv beta. intros _ w' (ns' & -> & S' & Hcy & Hfr). cbn [bl b_head b_len].
      assert (MkBList (if decide (q2 ++ p = []) then head ps else if decide (head ps = Some n) then head (q ++ p) else head ps) (Z.of_nat (length ps)) = bl ((p ++ q1) ++ m :: n :: q2)) as ->.
      { unfold bl. f_equal; [|rewrite E, Eq, !app_length; cbn; rewrite !app_length; cbn; lia]. destruct p as [|h p].
        - cbn [app] in *. rewrite app_nil_r in *. rewrite E. cbn [head]. rewrite decide_False.
          + rewrite decide_True by done. rewrite Eq. by destruct q1.
          + intros ->. apply Hsafe. rewrite E, Eq. split; [done|]. by rewrite app_comm_cons, last_snoc.
        - rewrite decide_False by (by destruct q2). rewrite decide_False; [by rewrite E|]. rewrite E. cbn. intros [= ->]. set_solver. }
      apply (brel_perm w s k ps); try done.
      + rewrite <-app_assoc. apply cyc_rot. rewrite <-app_assoc. exact Hcy.
      + rewrite E, Eq, <-app_assoc. apply Permutation_app_head. rewrite (app_comm_cons q1). rewrite <-(Permutation_middle q1). cbn. rewrite <-!Permutation_middle. apply perm_swap.
      + intros c Hcn. apply Hfr. rewrite E in Hcn. set_solver.
  Qed.
End rel.
