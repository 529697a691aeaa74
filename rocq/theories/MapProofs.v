(** Map and MultiMap refine lists of pairs. *)
From Verif Require Import Base Wp History RbModel RbTree RbRot RbIns RbIns2 RbDel RbNav RbDel2 RbSpec RbFind RbProps RbApi MapModel MapSpec.
Open Scope Z_scope.
Open Scope go_scope.
#[local] Opaque rb_First rb_Last rb_FindNode rb_FindLowerBoundNode rb_FindUpperBoundNode rb_Find rb_Insert rb_Delete rb_Clear rb_Traversal set_value key value next prev rb_Size.

Section proofs.
  Context {K V W : Type} (cmp : K → K → Z) (CO : CmpOK cmp).
  Implicit Types (s : rb K V) (t : tree K V) (l : list (K * V)).
  (** the tree holds the pairs l *)
  Definition holds s l : Prop := ∃ t, tinv cmp s t ∧ (io t).*2 = l.
  Lemma mi_next_eq (p : ptr) s : mi_Next p s = match p with Some _ => next p s | None => Ok (None, s) end. Proof using. by destruct p. Qed.
  Lemma mi_prev_eq (p : ptr) s : mi_Prev p s = match p with Some _ => prev p s | None => Ok (None, s) end. Proof using. by destruct p. Qed.
  Lemma walk_ok s t L R i : tinv cmp s t → io t = L ++ R → times i mi_Next (hd R) s = Ok (hd (drop i R), s).
  Proof using. intros H. eapply times_next; [apply mi_next_eq|by eapply tinv_rep]. Qed.
  Lemma entry_ok s t L R : tinv cmp s t → io t = L ++ R → entry (hd R) s = Ok (head R.*2, s).
  Proof using.
    intros H E1. destruct R as [|[a [k v]] R]; [done|]. pose proof (tinv_rep _ _ _ H) as Hp. unfold entry, mi_Key, mi_Value. cbn [hd head fmap option_fmap option_map fst mi_IsValid].
    unfold mbind_. by rewrite (key_ok _ _ _ _ _ _ _ Hp E1), (value_ok _ _ _ _ _ _ _ Hp E1).
  Qed.
  Lemma head_drop {A} (l : list A) i : head (drop i l) = l !! i.
  Proof using. clear. revert i. induction l as [|x l IH]; intros [|i]; cbn; try done. Qed.
  Lemma walk_entry s t L R i : tinv cmp s t → io t = L ++ R → (let! p := times i mi_Next (hd R) in let! e := entry p in mret_ (REnt (W := W) e)) s = Ok (REnt (R.*2 !! i), s).
  Proof using.
    intros H E1. unfold mbind_ at 1. rewrite (walk_ok _ _ _ _ _ H E1). unfold mbind_. rewrite (entry_ok s t (L ++ take i R) (drop i R) H) by by rewrite <-app_assoc, take_drop.
    by rewrite fmap_drop, head_drop.
  Qed.
  Lemma walk_entry_back s t i : tinv cmp s t → (let! p := times i mi_Prev (hd (reverse (io t))) in let! e := entry p in mret_ (REnt (W := W) e)) s = Ok (REnt (reverse (io t).*2 !! i), s).
  Proof using.
    intros H. unfold mbind_ at 1. rewrite (times_prev s t (io t) [] i mi_Prev mi_prev_eq (tinv_rep _ _ _ H)) by by rewrite app_nil_r. unfold mbind_.
    assert (entry (hd (drop i (reverse (io t)))) s = Ok (head (drop i (reverse (io t))).*2, s)) as ->. 2:{ by rewrite fmap_drop, head_drop, fmap_reverse. }
    pose proof (tinv_rep _ _ _ H) as Hp. destruct (drop i (reverse (io t))) as [|[a [k v]] R] eqn:Ed; [done|].
    assert ((a, (k, v)) ∈ io t) as (L & R' & E1)%elem_of_list_split. { rewrite <-(reverse_involutive (io t)). apply elem_of_reverse. rewrite <-(take_drop i (reverse (io t))), Ed. apply elem_of_app. right. by left. }
    unfold entry, mi_Key, mi_Value. cbn [hd head fmap option_fmap option_map fst mi_IsValid]. unfold mbind_. by rewrite (key_ok _ _ _ _ _ _ _ Hp E1), (value_ok _ _ _ _ _ _ _ Hp E1).
  Qed.
  Lemma split_at {A} (l : list A) i x : l !! i = Some x → l = take i l ++ x :: drop (S i) l.
  Proof using. clear. intros H. by rewrite take_drop_middle. Qed.
  Lemma exists_suffix {A} (P : A → bool) (l : list A) : existsb P l = match head (suffix P l) with Some _ => true | None => false end.
  Proof using. clear. induction l as [|x l IH]; cbn; [done|]. by destruct (P x). Qed.
  Definition is_obs (o : map_op K V W) : Prop := match o with MInsert _ _ | MErase _ | MEraseAt _ | MEraseFound _ => False | _ => True end.
  Lemma obs_agrees o s l : is_obs o → holds s l → agrees holds (map_step cmp o s) (obs cmp l o).
  Proof using CO.
    intros Ho (t & H & <-). pose proof (tinv_rep _ _ _ H) as Hp. assert (holds s (io t).*2) as Hh by by exists t.
    assert (∀ i, times i mi_Next (hd (io t)) s = Ok (hd (drop i (io t)), s)) as Hw by (intros i; by apply (walk_ok s t [])).
    destruct o; try done; cbn [map_step obs agrees].
    - (* Get *) unfold map_Get. unfold mbind_ at 1. unfold mbind_ at 1. destruct (hd_search_eq cmp CO s t k H) as (L & R & -> & E2 & E3 & _). exists s. split; [|done]. unfold lookup_k, is_k. rewrite <-E3. destruct R as [|[a [k' v']] R]; [done|].
      cbn [hd head fmap option_fmap option_map fst]. unfold mbind_. by rewrite (value_ok _ _ _ _ _ _ _ Hp E2).
    - (* SetAt *) unfold map_Begin. unfold mbind_ at 1. rewrite (hd_first _ _ Hp). unfold mbind_ at 1. rewrite Hw. destruct ((io t).*2 !! i) as [kv|] eqn:Ei; cbn.
      + rewrite list_lookup_fmap in Ei. destruct (io t !! i) as [[a kv']|] eqn:Ei'; [|done]. cbn in Ei. injection Ei as ->. pose proof (split_at _ _ _ Ei') as E1. rewrite (drop_S _ _ _ Ei').
        destruct (hd_setval cmp CO s t _ _ _ _ v H E1) as (s' & t' & E2 & H' & E3). exists s'. unfold mi_SetValue, mbind_. rewrite E2. split; [done|]. exists t'. split; [done|]. rewrite E3.
        rewrite E1 at 3. rewrite !fmap_app. cbn. assert (i = length (take i (io t)).*2) as Hi. { rewrite fmap_length, take_length. apply lookup_lt_Some in Ei'. lia. } rewrite Hi at 3. rewrite insert_app_r_alt, Nat.sub_diag by lia. done.
      + rewrite list_lookup_fmap in Ei. destruct (io t !! i) as [[a kv']|] eqn:Ei'; [done|]. apply lookup_ge_None in Ei'. rewrite drop_ge by done. done.
    - (* KeyAt *) unfold map_Begin. unfold mbind_ at 1. rewrite (hd_first _ _ Hp). unfold mbind_ at 1. rewrite Hw. unfold mi_Key. unfold mbind_.
      rewrite (hd_key s t (take i (io t))); [|done|by rewrite take_drop]. rewrite fmap_drop, head_drop. destruct ((io t).*2 !! i) as [kv|]; cbn; [|done]. by exists s.
    - (* ValueAt *) unfold map_Begin. unfold mbind_ at 1. rewrite (hd_first _ _ Hp). unfold mbind_ at 1. rewrite Hw. unfold mi_Value. unfold mbind_.
      rewrite (hd_value s t (take i (io t))); [|done|by rewrite take_drop]. rewrite fmap_drop, head_drop. destruct ((io t).*2 !! i) as [kv|]; cbn; [|done]. by exists s.
    - (* EqualAt *) unfold map_Begin, mi_Clone. unfold mbind_ at 1. rewrite (hd_first _ _ Hp). unfold mbind_. rewrite !Hw. exists s. split; [|done]. unfold mret_, mi_Equal, peq. rewrite (hd_eq s t [] (io t) i j Hp eq_refl), fmap_length.
      do 3 f_equal. apply bool_decide_ext. split; intros; congruence.
    - (* Find *) unfold map_Find. unfold mbind_ at 1. destruct (hd_search_eq cmp CO s t k H) as (L & R & -> & E2 & E3 & _). rewrite (walk_entry _ _ _ _ _ H E2), E3. by exists s.
    - (* Lower *) unfold map_LowerBound. unfold mbind_ at 1. destruct (hd_search_lower cmp CO s t k H) as (L & R & -> & E2 & E3). rewrite (walk_entry _ _ _ _ _ H E2), E3. by exists s.
    - (* Upper *) unfold map_UpperBound. unfold mbind_ at 1. destruct (hd_search_upper cmp CO s t k H) as (L & R & -> & E2 & E3). rewrite (walk_entry _ _ _ _ _ H E2), E3. by exists s.
    - (* Fwd *) unfold map_Begin. unfold mbind_ at 1. rewrite (hd_first _ _ Hp). rewrite (walk_entry _ _ [] _ _ H eq_refl). by exists s.
    - (* First *) unfold map_First. unfold mbind_ at 1. rewrite (hd_first _ _ Hp). rewrite (walk_entry _ _ [] _ _ H eq_refl). by exists s.
    - (* Bwd *) unfold map_Last. unfold mbind_ at 1. rewrite (hd_last _ _ Hp). rewrite (walk_entry_back _ _ _ H). by exists s.
    - (* Clear *) unfold map_Clear, mbind_. destruct (clear_tinv cmp CO s) as (s' & -> & H' & _). exists s'. split; [done|]. by exists E.
    - (* Contains *) unfold map_Contains, mbind_. rewrite (hd_find cmp CO s t k H). exists s. split; [|done]. rewrite exists_suffix. unfold is_k. by destruct (head _).
    - (* Size *) unfold map_Size, mbind_. rewrite (tinv_size _ _ _ H). by exists s.
    - (* Traverse *) unfold map_Traversal, mbind_. rewrite (Traversal_ok _ _ _ _ Hp). by exists s.
  Qed.

  (** MultiMap *)
  Lemma add_after_app k v (L R : list (K * V)) : (∀ x, x ∈ L → cmp x.1 k <= 0) → (∀ x, x ∈ R → cmp k x.1 < 0) → add_after cmp k v (L ++ R) = L ++ (k, v) :: R.
  Proof using CO.
    intros HL HR. induction L as [|[k' v'] L IH]; cbn.
    - destruct R as [|[k' v'] R]; [done|]. cbn. rewrite (proj2 (Z.ltb_lt _ _)); [done|]. apply (HR (k', v')). by left.
    - rewrite (proj2 (Z.ltb_ge _ _)). { f_equal. apply IH. intros x Hx. apply HL. by right. } apply cmp_flip_le; [done|]. apply (HL (k', v')). by left.
  Qed.
  Lemma insert_agrees s l k v : holds s l → ∃ s', rb_Insert cmp k v s = Ok (tt, s') ∧ holds s' (add_after cmp k v l).
  Proof using CO.
    intros (t & H & <-). destruct (insert_tinv cmp CO s t k v H) as (s' & t' & L & R & E1 & H' & E2 & E3 & _ & HL & HR). exists s'. split; [done|]. exists t'. split; [done|].
    rewrite E2, E3, !fmap_app, fmap_cons, add_after_app; [done|intros x (y & -> & Hy)%elem_of_list_fmap; by apply HL|intros x (y & -> & Hy)%elem_of_list_fmap; by apply HR].
  Qed.
  Lemma erase_loop_ok f k s l : holds s l → (length (filter (λ kv, is_k cmp k kv) l) < f)%nat → ∃ s', mm_erase_loop cmp f k s = Ok (tt, s') ∧ holds s' (erase_k cmp k l).
  Proof using CO.
    revert s l. induction f as [|f IH]; intros s l (t & H & <-) Hf; [lia|]. cbn [mm_erase_loop]. unfold mbind_ at 1. destruct (hd_search_eq cmp CO s t k H) as (L & R & E1 & E2 & E3 & E4 & E5). rewrite E1.
    assert (filter (λ kv, is_k cmp k kv) L.*2 = []) as HL0. { clear - E4. induction E4 as [|x L Hx _ IHL]; [done|]. rewrite fmap_cons, filter_cons_False; [done|]. unfold is_k. cbn. destruct (Z.eqb_spec (cmp k x.2.1) 0); [done|]. by intros []. }
    assert (filter (λ kv, ¬ is_k cmp k kv) L.*2 = L.*2) as HL1. { clear - E4. induction E4 as [|x L Hx _ IHL]; [done|]. rewrite fmap_cons, filter_cons_True; [by f_equal|]. unfold is_k. cbn. destruct (Z.eqb_spec (cmp k x.2.1) 0); [done|]. by intros []. }
    destruct R as [|[a [k' v']] R]; cbn [hd head fmap option_fmap option_map fst].
    - exists s. split; [done|]. exists t. split; [done|]. rewrite app_nil_r in E2. unfold erase_k. by rewrite E2, HL1.
    - unfold mbind_. destruct (hd_delete cmp CO s t L ((a, (k', v')) :: R) H E2) as (s1 & t1 & E6 & H1 & _ & E7). cbn [hd head fmap option_fmap option_map fst] in E6. rewrite E6. cbn [head] in E5. cbn in E5.
      destruct (IH s1 (L.*2 ++ R.*2)) as (s' & E8 & H').
      + exists t1. split; [done|]. exact E7.
      + rewrite E2, fmap_app, fmap_cons, filter_app, HL0 in Hf. rewrite filter_cons_True in Hf. 2:{ unfold is_k. cbn. by rewrite E5. } rewrite filter_app, HL0. cbn in Hf |- *. lia.
      + exists s'. split; [done|]. unfold erase_k in *. rewrite E2, fmap_app, fmap_cons. rewrite filter_app in *. rewrite filter_cons_False; [done|]. unfold is_k. cbn. rewrite E5. intros Hn. by apply Hn.
  Qed.
  Lemma mm_agrees (o : map_op K V W) s l : holds s l → agrees holds (mm_step cmp o s) (mm_spec cmp o l).
  Proof using CO.
    intros H. assert (is_obs o → mm_step cmp o s = map_step cmp o s ∧ mm_spec cmp o l = obs cmp l o) as Hobs by by destruct o.
    assert ({is_obs o} + {¬ is_obs o}) as [Ho|Ho] by (destruct o; cbn; tauto). { destruct (Hobs Ho) as [-> ->]. by apply obs_agrees. }
    destruct o; cbn in Ho; try tauto; cbn [mm_step mm_spec agrees].
    - unfold mm_Insert, mbind_. destruct (insert_agrees s l k v H) as (s' & -> & H'). by exists s'.
    - unfold mm_Erase. unfold mbind_ at 1. unfold mbind_ at 1. unfold fuel. destruct (erase_loop_ok (S (rb_next s)) k s l H) as (s' & -> & H'). 2:{ by exists s'. }
      destruct H as (t & H & <-). pose proof (count_ok _ _ (tinv_rep _ _ _ H)). pose proof (filter_length (λ kv, is_k cmp k kv) (io t).*2) as Hfl. rewrite fmap_length in Hfl. lia.
    - by exists s.
    - by exists s.
  Qed.

  (** Map *)
  Lemma asc_inv l x : ascending cmp (x :: l) → ascending cmp l ∧ ∀ y, y ∈ l → cmp x.1 y.1 < 0. Proof using. apply SS_cons. Qed.
  Lemma asc_mid (L : list (K * V)) x R : ascending cmp (L ++ x :: R) → (∀ y, y ∈ L → cmp y.1 x.1 < 0) ∧ (∀ y, y ∈ R → cmp x.1 y.1 < 0) ∧ ascending cmp (L ++ R).
  Proof using.
    unfold ascending. intros (H1 & H2 & H3)%SS_app. apply SS_cons in H2 as [H2 H4]. split_and!; [intros y Hy; apply H3; [done|by left]|done|].
    apply SS_app. split_and!; [done|done|]. intros y z Hy Hz. apply H3; [done|by right].
  Qed.
  Lemma upsert_found k v (L : list (K * V)) k' v' R : ascending cmp (L ++ (k', v') :: R) → cmp k k' = 0 → upsert cmp k v (L ++ (k', v') :: R) = L ++ (k', v) :: R.
  Proof using CO.
    intros Ha Hk. induction L as [|[k1 v1] L IH]; cbn; [by rewrite Hk|]. apply asc_inv in Ha as [Ha Hlt].
    assert (cmp k1 k' < 0) as H1 by (apply (Hlt (k', v')), elem_of_app; right; by left). assert (0 < cmp k k1) as H2.
    { apply cmp_flip_lt; [done|]. pose proof (cmp_eq_r _ CO k k' k1 Hk). lia. }
    rewrite (proj2 (Z.eqb_neq _ _)), (proj2 (Z.ltb_ge _ _)) by lia. f_equal. by apply IH.
  Qed.
  Lemma upsert_new k v l : Forall (λ x, cmp k x.1 ≠ 0) l → upsert cmp k v l = add_after cmp k v l.
  Proof using. clear CO. induction 1 as [|[k' v'] l Hk _ IH]; cbn; [done|]. cbn in Hk. rewrite (proj2 (Z.eqb_neq _ _)) by done. by rewrite IH. Qed.
  Lemma upsert_asc k v l : ascending cmp l → ascending cmp (upsert cmp k v l).
  Proof using CO.
    intros H. assert (∀ x, x ∈ upsert cmp k v l → x.1 = k ∨ ∃ y, y ∈ l ∧ y.1 = x.1) as Hin.
    { clear. induction l as [|[k' v'] l IH]; cbn. { intros x ->%elem_of_list_singleton. by left. } destruct (cmp k k' =? 0); [|destruct (cmp k k' <? 0)].
      - intros x [->|Hx]%elem_of_cons; right; [exists (k', v'); split; [by left|done]|exists x; split; [by right|done]].
      - intros x [->|Hx]%elem_of_cons; [by left|]. right. exists x. done.
      - intros x [->|Hx]%elem_of_cons; [right; exists (k', v'); split; [by left|done]|]. destruct (IH x Hx) as [?|(y & Hy & ?)]; [by left|]. right. exists y. split; [by right|done]. }
    clear Hin. induction l as [|[k' v'] l IH]; cbn. { unfold ascending. apply SS_cons. split; [constructor|]. intros y Hy. by apply elem_of_nil in Hy. }
    apply asc_inv in H as [H1 H2]. destruct (Z.eqb_spec (cmp k k') 0) as [He|Hne]; [|destruct (Z.ltb_spec (cmp k k') 0) as [Hlt|Hge]].
    - apply SS_cons. done.
    - apply SS_cons. split; [by apply SS_cons|]. intros y [->|Hy]%elem_of_cons; [done|]. cbn. specialize (H2 y Hy). cbn in H2. by eapply cmp_lt_trans.
    - apply SS_cons. split; [by apply IH|]. intros y Hy. cbn.
      assert (y.1 = k ∨ ∃ z, z ∈ l ∧ z.1 = y.1) as [->|(z & Hz & <-)]; [|apply cmp_flip_lt; [done|]; lia|by apply (H2 z)].
      clear - Hy. revert Hy. induction l as [|[k2 v2] l IH]; cbn. { intros ->%elem_of_list_singleton. by left. } destruct (cmp k k2 =? 0); [|destruct (cmp k k2 <? 0)].
      + intros [->|Hx]%elem_of_cons; right; [exists (k2, v2); split; [by left|done]|exists y; split; [by right|done]].
      + intros [->|Hx]%elem_of_cons; [by left|]. right. by exists y.
      + intros [->|Hx]%elem_of_cons; [right; exists (k2, v2); split; [by left|done]|]. destruct (IH Hx) as [?|(z & Hz & ?)]; [by left|]. right. exists z. split; [by right|done].
  Qed.
  Lemma filter_asc (P : K * V → Prop) `{∀ x, Decision (P x)} l : ascending cmp l → ascending cmp (filter P l).
  Proof using. unfold ascending. induction 1 as [|x l Hs IH Hf]; [constructor|]. rewrite filter_cons. destruct (decide (P x)); [|done]. constructor; [done|]. rewrite Forall_forall in *. intros y [? Hy]%elem_of_list_filter. auto. Qed.
  Lemma sublist_asc l1 l2 : l1 `sublist_of` l2 → ascending cmp l2 → ascending cmp l1.
  Proof using. unfold ascending. induction 1 as [|x l1 l2 Hs IH|x l1 l2 Hs IH]; intros Ha; [constructor|..]; apply SS_cons in Ha as [Ha Hb]; [|auto]. apply SS_cons. split; [auto|]. intros y Hy. apply Hb. eapply sublist_submseteq in Hs. by eapply elem_of_submseteq. Qed.
  Definition mholds s l : Prop := holds s l ∧ ascending cmp l.
  Lemma erase_mid k (L : list (K * V)) k' v' R : ascending cmp (L ++ (k', v') :: R) → cmp k k' = 0 → erase_k cmp k (L ++ (k', v') :: R) = L ++ R.
  Proof using CO.
    intros (H1 & H2 & _)%asc_mid Hk. unfold erase_k. rewrite filter_app, filter_cons_False. 2:{ unfold is_k. cbn. rewrite Hk. intros Hn. by apply Hn. }
    assert (∀ y : K * V, (cmp y.1 k' < 0 ∨ cmp k' y.1 < 0) → ¬ is_k cmp k y) as Hno. { intros y Hy. unfold is_k. destruct (Z.eqb_spec (cmp k y.1) 0) as [He|]; [|by intros []]. exfalso. apply cmp_flip_eq in He; [|done]. pose proof (cmp_eq_trans _ CO _ _ _ He Hk) as Hz. pose proof (proj1 (cmp_flip_eq _ CO _ _) Hz). lia. }
    f_equal.
    - clear H2. induction L as [|y L IH]; [done|]. rewrite filter_cons_True; [f_equal; apply IH; intros z Hz; apply H1; by right|]. apply Hno. left. apply H1. by left.
    - clear H1. induction R as [|y R IH]; [done|]. rewrite filter_cons_True; [f_equal; apply IH; intros z Hz; apply H2; by right|]. apply Hno. right. apply H2. by left.
  Qed.
  Lemma erase_none k l : Forall (λ x, cmp k x.1 ≠ 0) l → erase_k cmp k l = l.
  Proof using. clear CO. unfold erase_k. induction 1 as [|x l Hx _ IH]; [done|]. rewrite filter_cons_True; [by f_equal|]. unfold is_k. destruct (Z.eqb_spec (cmp k x.1) 0); [done|]. by intros []. Qed.
  Lemma delete_split {A} (l : list A) i : delete i l = take i l ++ tail (drop i l).
  Proof using. clear. revert i. induction l as [|x l IH]; intros [|i]; cbn; try done. by rewrite <-IH. Qed.
  Lemma map_agrees (o : map_op K V W) s l : mholds s l → agrees mholds (map_step cmp o s) (map_spec cmp o l).
  Proof using CO.
    intros [H Ha]. assert (is_obs o → map_spec cmp o l = obs cmp l o) as Hobs by by destruct o.
    assert ({is_obs o} + {¬ is_obs o}) as [Ho|Ho] by (destruct o; cbn; tauto).
    { rewrite (Hobs Ho). pose proof (obs_agrees o s l Ho H) as Hag. unfold agrees in *. destruct (obs cmp l o) as [[r l']|] eqn:Eo; [|done]. destruct Hag as (s' & E1 & H'). exists s'. split; [done|]. split; [done|].
      clear - Eo Ha. destruct o; cbn in Eo; try done; try (injection Eo as <- <-; done || constructor); destruct (l !! i) as [kv|] eqn:Ei; try done; cbn in Eo; injection Eo as <- <-; try done.
      pose proof (split_at _ _ _ Ei) as E1. assert (i = length (take i l)) as Hi. { rewrite take_length. apply lookup_lt_Some in Ei. lia. } rewrite E1 in Ha |- *. rewrite Hi at 1. rewrite insert_app_r_alt, Nat.sub_diag by lia. cbn. unfold ascending in *. apply SS_app in Ha as (A1 & A2 & A3). apply SS_cons in A2 as [A2 A4].
      apply SS_app. split_and!; [done|apply SS_cons; split; [done|exact A4]|]. intros x y Hx [->|Hy]%elem_of_cons; [apply (A3 x kv Hx); by left|apply A3; [done|by right]]. }
    destruct o; cbn in Ho; try tauto; cbn [map_step map_spec agrees]; clear Hobs Ho.
    - unfold map_Insert. unfold mbind_ at 1. unfold mbind_ at 1. pose proof H as (t & Ht & <-). destruct (hd_search_eq cmp CO s t k Ht) as (L & R & E1 & E2 & E3 & E4 & E5). rewrite E1.
      assert (ascending cmp (upsert cmp k v (io t).*2)) as Ha' by by apply upsert_asc.
      destruct R as [|[a [k' v']] R]; cbn [hd head fmap option_fmap option_map fst].
      + destruct (insert_agrees s _ k v H) as (s' & -> & H'). exists s'. split; [done|]. split; [|done]. rewrite app_nil_r in E2. rewrite upsert_new; [done|]. rewrite E2. by apply Forall_fmap.
      + destruct (hd_setval cmp CO s t L a (k', v') R v Ht E2) as (s' & t' & E6 & H' & E7). cbn [hd head fmap option_fmap option_map fst] in E6. rewrite E6. exists s'. split; [done|]. split; [|done]. exists t'. split; [done|]. cbn in E5.
        rewrite E7, E2, !fmap_app, !fmap_cons. rewrite E2, fmap_app, fmap_cons in Ha. cbn [snd fst] in *. by rewrite upsert_found.
    - unfold map_Erase. unfold mbind_ at 1. unfold mbind_ at 1. pose proof H as (t & Ht & <-). destruct (hd_search_eq cmp CO s t k Ht) as (L & R & E1 & E2 & E3 & E4 & E5). rewrite E1.
      assert (ascending cmp (erase_k cmp k (io t).*2)) as Ha' by by apply filter_asc.
      destruct R as [|[a [k' v']] R]; cbn [hd head fmap option_fmap option_map fst].
      + exists s. split; [done|]. split; [|done]. rewrite app_nil_r in E2. rewrite erase_none; [done|]. rewrite E2. by apply Forall_fmap.
      + destruct (hd_delete cmp CO s t L _ Ht E2) as (s' & t' & E6 & H' & _ & E7). cbn [hd head fmap option_fmap option_map fst] in E6. rewrite E6. exists s'. split; [done|]. split; [|done]. exists t'. split; [done|]. cbn in E5.
        rewrite E7, E2, fmap_app, fmap_cons. rewrite E2, fmap_app, fmap_cons in Ha. cbn [snd fst] in *. by rewrite erase_mid.
    - unfold map_Begin. unfold mbind_ at 1. pose proof H as (t & Ht & <-). pose proof (tinv_rep _ _ _ Ht) as Hp. rewrite (hd_first _ _ Hp). unfold mbind_ at 1. rewrite (walk_ok s t [] (io t) i Ht eq_refl).
      destruct (hd_delete cmp CO s t (take i (io t)) (drop i (io t)) Ht ltac:(by rewrite take_drop)) as (s' & t' & E6 & H' & _ & E7). unfold map_EraseIter, mbind_. rewrite E6. exists s'. split; [done|]. split.
      + exists t'. split; [done|]. by rewrite E7, delete_split, fmap_take, fmap_drop.
      + eapply sublist_asc; [apply sublist_delete|done].
    - unfold map_Find. unfold mbind_ at 1. pose proof H as (t & Ht & <-). destruct (hd_search_eq cmp CO s t k Ht) as (L & R & E1 & E2 & E3 & E4 & E5). rewrite E1.
      assert (ascending cmp (erase_k cmp k (io t).*2)) as Ha' by by apply filter_asc. unfold map_EraseIter, mbind_.
      destruct R as [|[a [k' v']] R].
      + destruct (hd_delete cmp CO s t L _ Ht E2) as (s' & t' & E6 & H' & _ & E7). rewrite E6. exists s'. split; [done|]. split; [|done]. exists t'. split; [done|]. rewrite E7. cbn. rewrite app_nil_r in E2 |- *. rewrite erase_none; [by rewrite E2|]. rewrite E2. by apply Forall_fmap.
      + destruct (hd_delete cmp CO s t L _ Ht E2) as (s' & t' & E6 & H' & _ & E7). rewrite E6. exists s'. split; [done|]. split; [|done]. exists t'. split; [done|]. cbn in E5.
        rewrite E7, E2, fmap_app, fmap_cons. rewrite E2, fmap_app, fmap_cons in Ha. cbn [snd fst] in *. by rewrite erase_mid.
  Qed.
  Lemma holds_new : holds rb_new []. Proof using CO. exists E. split; [by apply tinv_new|done]. Qed.
End proofs.
