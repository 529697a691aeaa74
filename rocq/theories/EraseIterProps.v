(** C95: erasing while iterating. *)
From Verif Require Import Base Wp History RbModel RbTree RbNav RbSpec RbProps RbApi MapModel MapSpec MapProofs EraseIterModel EraseIterSpec.
Open Scope Z_scope.
Local Open Scope go_scope.

Section props.
  Context {K V : Type} (cmp : K → K → Z) (CO : CmpOK cmp) (pick : K → V → bool).
  Implicit Types (s : rb K V) (t : tree K V).
  Lemma back_ok n L : ∀ s t R, tinv cmp s t → io t = L ++ R → (length L <= n)%nat →
    ∃ s' t', erase_backward pick n (fst <$> last L) s = Ok (tt, s') ∧ tinv cmp s' t' ∧ (io t').*2 = rest pick L.*2 ++ R.*2.
  Proof using CO.
    revert n. induction L as [|[a [k v]] L IH] using rev_ind; intros n s t R H E Hn.
    - exists s, t. split_and!; [by destruct n|done|]. by rewrite E.
    - rewrite app_length in Hn. cbn in Hn. destruct n as [|n]; [lia|]. rewrite last_snoc. rewrite <-app_assoc in E. cbn [app] in E. pose proof (tinv_rep _ _ _ H) as Hp.
      cbn [erase_backward fmap option_fmap option_map fst mi_IsValid]. unfold mbind_, mi_Key, mi_Value, mi_Clone. rewrite (key_ok _ _ _ _ _ _ _ Hp E), (value_ok _ _ _ _ _ _ _ Hp E). cbv beta iota.
      rewrite mi_prev_eq, (prev_ok _ _ _ _ _ _ _ Hp E). cbv beta iota.
      assert (Hf : rest pick (L ++ [(a, (k, v))]).*2 = rest pick L.*2 ++ if pick k v then [] else [(k, v)]).
      { unfold rest. rewrite fmap_app, filter_app. cbn [fmap list_fmap snd]. f_equal. destruct (pick k v) eqn:Ep; [rewrite filter_cons_False; [done|cbn; congruence]|by rewrite filter_cons_True]. }
      rewrite Hf. destruct (pick k v) eqn:Ep.
      + unfold map_EraseIter. destruct (delete_tinv cmp CO s t L R a k v H E) as (s1 & t1 & -> & H1 & _ & Hd). cbv beta iota.
        destruct Hd as [Hd|(y & kv & R' & -> & Hd)]; destruct (IH n s1 t1 _ H1 Hd ltac:(lia)) as (s' & t' & -> & H' & El); exists s', t'; (split_and!; [done|done|]); by rewrite El, app_nil_r.
      + destruct (IH n s t _ H E ltac:(lia)) as (s' & t' & Er & H' & El). unfold mret_. rewrite Er. exists s', t'. split_and!; [done|done|]. rewrite El. by rewrite <-app_assoc.
  Qed.
  Lemma search_ok n R : ∀ s t L, tinv cmp s t → io t = L ++ R → ascending cmp (io t).*2 → (length R <= n)%nat →
    ∃ s' t', erase_search cmp pick n (hd R) s = Ok (tt, s') ∧ tinv cmp s' t' ∧ (io t').*2 = L.*2 ++ rest pick R.*2.
  Proof using CO.
    revert R. induction n as [|n IH]; intros R s t L H E Ha Hn; destruct R as [|[a [k v]] R]; cbn in Hn; try lia.
    - exists s, t. split_and!; [done|done|]. by rewrite E, fmap_app.
    - exists s, t. split_and!; [done|done|]. by rewrite E, fmap_app.
    - pose proof (tinv_rep _ _ _ H) as Hp. change (hd ((a, (k, v)) :: R)) with (Some a). change (((a, (k, v)) :: R).*2) with ((k, v) :: R.*2). cbn [erase_search mi_IsValid]. unfold mbind_, mi_Key, mi_Value. rewrite (key_ok _ _ _ _ _ _ _ Hp E), (value_ok _ _ _ _ _ _ _ Hp E). cbv beta iota.
      assert (Hf : rest pick ((a, (k, v)) :: R).*2 = (if pick k v then [] else [(k, v)]) ++ rest pick R.*2).
      { unfold rest. cbn [fmap list_fmap snd]. destruct (pick k v) eqn:Ep; [rewrite filter_cons_False; [done|cbn; congruence]|by rewrite filter_cons_True]. }
      change (((a, (k, v)) :: R).*2) with ((k, v) :: R.*2) in Hf. rewrite Hf. destruct (pick k v) eqn:Ep.
      + unfold map_EraseIter, map_UpperBound. destruct (hd_delete cmp CO s t L ((a, (k, v)) :: R) H E) as (s1 & t1 & Ed & H1 & _ & Hd). change (hd ((a, (k, v)) :: R)) with (Some a) in Ed. rewrite Ed. cbv beta iota.
        cbn [fmap list_fmap tail snd] in Hd. destruct (hd_search_upper cmp CO s1 t1 k H1) as (L1 & R1 & -> & E1 & Es). cbv beta iota.
        rewrite E, fmap_app in Ha. cbn [fmap list_fmap snd] in Ha. destruct (asc_mid cmp _ _ _ Ha) as (HL & HR & Ha').
        assert (HR1 : R1.*2 = R.*2).
        { rewrite Es, Hd. rewrite suffix_skip. 2:{ apply Forall_forall. intros x Hx. apply Z.ltb_ge. specialize (HL x Hx). cbn in HL. pose proof (cmp_flip _ CO k x.1). lia. }
          destruct R as [|[b [k' v']] R]; [done|]. cbn. destruct (Z.ltb_spec (cmp k k') 0) as [|Hge]; [done|]. specialize (HR (k', v')). cbn in HR. exfalso. cut (cmp k k' < 0); [lia|]. apply HR. by left. }
        assert (HL1 : L1.*2 = L.*2). { rewrite E1, fmap_app, HR1 in Hd. by apply app_inv_tail in Hd. }
        destruct (IH R1 s1 t1 L1 H1 E1) as (s' & t' & Er & H' & El); [by rewrite Hd| |]. { rewrite <-(fmap_length snd), HR1, fmap_length. lia. }
        exists s', t'. split_and!; [done|done|]. by rewrite El, HL1, HR1.
      + rewrite mi_next_eq, (next_ok _ _ _ _ _ _ _ Hp E). cbv beta iota. destruct (IH R s t (L ++ [(a, (k, v))]) H) as (s' & t' & Er & H' & El); [by rewrite <-app_assoc|done|lia|].
        unfold hd in Er. rewrite Er. exists s', t'. split_and!; [done|done|]. rewrite El, fmap_app, <-app_assoc. done.
  Qed.

  Lemma history_holds {W} (ops : list (map_op K V W)) rs l : srun (map_spec cmp) ops [] = Some (rs, l) →
    ∃ s, run (map_step cmp) ops map_new = Ok (rs, s) ∧ mholds cmp s l.
  Proof using CO.
    intros E1. pose proof (run_agrees (map_step (W := W) cmp) (map_spec cmp) (mholds cmp) (λ _, True) (λ o s l _ H, map_agrees cmp CO o s l H) ops map_new []) as H.
    unfold agrees in H. rewrite E1 in H. apply H; [by apply Forall_forall|split; [by apply holds_new|constructor]].
  Qed.
  Lemma mholds_is s l : mholds cmp s l → map_is cmp s l.
  Proof using CO.
    intros Hs W ops. pose proof (run_agrees (map_step (W := W) cmp) (map_spec cmp) (mholds cmp) (λ _, True) (λ o s l _ H, map_agrees cmp CO o s l H) ops s l) as H.
    unfold agrees in H. destruct (srun (map_spec cmp) ops l) as [[rs l']|]; [|apply H; [by apply Forall_forall|done]].
    destruct H as (s' & H & _); [by apply Forall_forall|done|eauto].
  Qed.
  Lemma rest_asc l : ascending cmp l → ascending cmp (rest pick l).
  Proof using CO. by apply filter_asc. Qed.

  (** C95: after any history, the loop that walks backwards, steps to the predecessor first and then
      erases, ends after one round per entry, and the map then behaves as the finite map of the entries
      that were not picked *)
  Theorem erase_backward_partial {W} (ops : list (map_op K V W)) rs l : srun (map_spec cmp) ops [] = Some (rs, l) →
    ∃ s p s', run (map_step cmp) ops map_new = Ok (rs, s) ∧ map_Last s = Ok (p, s) ∧
      erase_backward pick (length l) p s = Ok (tt, s') ∧ map_is cmp s' (rest pick l).
  Proof using CO.
    intros E1. destruct (history_holds ops rs l E1) as (s & Er & (t & H & <-) & Ha).
    destruct (back_ok (length (io t).*2) (io t) s t [] H) as (s' & t' & Eb & H' & El); [by rewrite app_nil_r|by rewrite fmap_length|].
    exists s, (hd (reverse (io t))), s'. split_and!; [done| | |].
    - unfold map_Last. apply hd_last. by eapply tinv_rep.
    - unfold hd. by rewrite head_reverse.
    - apply mholds_is. cbn in El. rewrite app_nil_r in El. split; [by exists t'|by apply rest_asc].
  Qed.
  (** ... and so does the loop that walks forwards and looks the place up again after every erasure *)
  Theorem erase_search_partial {W} (ops : list (map_op K V W)) rs l : srun (map_spec cmp) ops [] = Some (rs, l) →
    ∃ s p s', run (map_step cmp) ops map_new = Ok (rs, s) ∧ map_Begin s = Ok (p, s) ∧
      erase_search cmp pick (length l) p s = Ok (tt, s') ∧ map_is cmp s' (rest pick l).
  Proof using CO.
    intros E1. destruct (history_holds ops rs l E1) as (s & Er & (t & H & <-) & Ha).
    destruct (search_ok (length (io t).*2) (io t) s t [] H) as (s' & t' & Eb & H' & El); [done|done|by rewrite fmap_length|].
    exists s, (hd (io t)), s'. split_and!; [done| |done|].
    - unfold map_Begin. apply hd_first. by eapply tinv_rep.
    - apply mholds_is. split; [by exists t'|by apply rest_asc].
  Qed.
End props.

(** C95 does not hold of the loop that steps to the successor first (the one that is right for the
    iterators of other containers): Delete moves the successor's pair into the erased node, so the
    iterator kept for the next round may be the node that was taken out. *)
Definition fwd (ks : list Z) (pick : Z → Z → bool) : res (unit * rb Z Z) :=
  (run (map_step (W := unit) Z.sub) ((λ k, MInsert k (10 * k)) <$> ks) ;; let! p := map_Begin in erase_forward pick (S (length ks)) p)%go map_new.
Definition then_does {A} (r : res (unit * rb Z Z)) (f : M (rb Z Z) A) : res A :=
  match r with Ok (_, s) => match f s with Ok (a, _) => Ok a | Panic => Panic | Fuel => Fuel end | Panic => Panic | Fuel => Fuel end.
Theorem erase_forward_refuted :
  (* the entry 1 is there, but the size is 0 *)
  (then_does (fwd [1; 2; 3] (λ k _, 2 <=? k)) (map_Get Z.sub 1) = Ok (Some 10) ∧
   then_does (fwd [1; 2; 3] (λ k _, 2 <=? k)) map_Size = Ok 0) ∧
  (* an entry that was not picked is gone *)
  (∃ k, k ∈ [0; 1; 2; 3; 4] ∧ k ≠ 1 ∧ k ≠ 2 ∧ then_does (fwd [0; 1; 2; 3; 4] (λ k _, (k =? 1) || (k =? 2))) (map_Get Z.sub k) = Ok None) ∧
  (* the loop panics *)
  fwd [0; 1; 2; 3] (λ k _, (k =? 0) || (k =? 2) || (k =? 3)) = Panic.
Proof.
  split_and!; [by vm_compute|by vm_compute| |by vm_compute].
  first [exists 0; split_and!; [set_solver|done|done|by vm_compute]|exists 3; split_and!; [set_solver|done|done|by vm_compute]|exists 4; split_and!; [set_solver|done|done|by vm_compute]].
Qed.

(** the hypotheses are met by a history that erases through an iterator as well *)
Example erase_hyp : ∃ rs l, srun (map_spec (V := Z) (W := unit) Z.sub) [MInsert 4 1; MInsert 2 2; MInsert 7 3; MInsert 5 4; MEraseAt 1; MInsert 9 5] [] = Some (rs, l) ∧
  rest (λ k _, 6 <? k) l = [(2, 2); (5, 4)].
Proof. do 2 eexists. split; [by vm_compute|by vm_compute]. Qed.

Print Assumptions erase_backward_partial. Print Assumptions erase_search_partial. Print Assumptions erase_forward_refuted.
