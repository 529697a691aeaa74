(** Set and MultiSet refine lists of elements. *)
From Coq Require Import String Ascii.
From Verif Require Import Base Wp History RbModel RbTree RbRot RbIns RbIns2 RbDel RbNav RbDel2 RbSpec RbFind RbProps RbApi MapModel MapSpec MapProofs SetModel SetSpec.
Open Scope Z_scope.
Open Scope go_scope.
#[local] Opaque rb_First rb_Last rb_FindNode rb_FindLowerBoundNode rb_FindUpperBoundNode rb_Find rb_Insert rb_Delete rb_Clear rb_Traversal set_value key value next prev rb_Size.

Section proofs.
  Context {T W : Type} (cmp : T → T → Z) (CO : CmpOK cmp).
  Implicit Types (s : rb T bool) (t : tree T bool) (l : list T).
  Definition sholds s l : Prop := ∃ t, tinv cmp s t ∧ (io t).*2.*1 = l.
  Lemma sholds_holds s l : sholds s l ↔ ∃ l2 : list (T * bool), holds cmp s l2 ∧ l2.*1 = l.
  Proof using. clear CO. split; [intros (t & H & <-); eexists; split; [by exists t|done]|intros (? & (t & H & <-) & <-); by exists t]. Qed.
  Lemma suffix_fst (P : T → bool) (l : list (T * bool)) : (suffix (λ kv, P kv.1) l).*1 = suffix P l.*1.
  Proof using. clear. induction l as [|[x b] l IH]; cbn; [done|]. by destruct (P x). Qed.
  Lemma si_next_eq (p : ptr) s : si_Next p s = match p with Some _ => next p s | None => Ok (None, s) end. Proof using. by destruct p. Qed.
  Lemma si_prev_eq (p : ptr) s : si_Prev p s = match p with Some _ => prev p s | None => Ok (None, s) end. Proof using. by destruct p. Qed.
  Lemma swalk_ok s t L R i : tinv cmp s t → io t = L ++ R → times i si_Next (hd R) s = Ok (hd (drop i R), s).
  Proof using. intros H. eapply times_next; [apply si_next_eq|by eapply tinv_rep]. Qed.
  Lemma elem_ok s t L R : tinv cmp s t → io t = L ++ R → elem (hd R) s = Ok (head R.*2.*1, s).
  Proof using.
    intros H E1. destruct R as [|[a [k v]] R]; [done|]. pose proof (tinv_rep _ _ _ H) as Hp. unfold elem, si_Value. cbn [hd head fmap option_fmap option_map fst si_IsValid].
    unfold mbind_. by rewrite (key_ok _ _ _ _ _ _ _ Hp E1).
  Qed.
  Lemma swalk_elem s t L R i : tinv cmp s t → io t = L ++ R → (let! p := times i si_Next (hd R) in let! e := elem p in mret_ (QElem (W := W) e)) s = Ok (QElem (R.*2.*1 !! i), s).
  Proof using.
    intros H E1. unfold mbind_ at 1. rewrite (swalk_ok _ _ _ _ _ H E1). unfold mbind_. rewrite (elem_ok s t (L ++ take i R) (drop i R) H) by by rewrite <-app_assoc, take_drop.
    by rewrite !fmap_drop, head_drop.
  Qed.
  Lemma swalk_elem_back s t i : tinv cmp s t → (let! p := times i si_Prev (hd (reverse (io t))) in let! e := elem p in mret_ (QElem (W := W) e)) s = Ok (QElem (reverse (io t).*2.*1 !! i), s).
  Proof using.
    intros H. unfold mbind_ at 1. rewrite (times_prev s t (io t) [] i si_Prev si_prev_eq (tinv_rep _ _ _ H)) by by rewrite app_nil_r. unfold mbind_.
    assert (elem (hd (drop i (reverse (io t)))) s = Ok (head (drop i (reverse (io t))).*2.*1, s)) as ->. 2:{ by rewrite !fmap_drop, head_drop, !fmap_reverse. }
    pose proof (tinv_rep _ _ _ H) as Hp. destruct (drop i (reverse (io t))) as [|[a [k v]] R] eqn:Ed; [done|].
    assert ((a, (k, v)) ∈ io t) as (L & R' & E1)%elem_of_list_split. { rewrite <-(reverse_involutive (io t)). apply elem_of_reverse. rewrite <-(take_drop i (reverse (io t))), Ed. apply elem_of_app. right. by left. }
    unfold elem, si_Value. cbn [hd head fmap option_fmap option_map fst si_IsValid]. unfold mbind_. by rewrite (key_ok _ _ _ _ _ _ _ Hp E1).
  Qed.
  (** the traversal loop *)
  Lemma strav_ok {U} (vis : T → U → bool * U) s t L R f u : tinv cmp s t → io t = L ++ R → (length R < f)%nat → set_traversal_loop vis f (hd R) u s = Ok (visit1 vis R.*2.*1 u, s).
  Proof using.
    clear CO. intros H. pose proof (tinv_rep _ _ _ H) as Hp. revert L R u. induction f as [|f IH]; intros L R u E1 Hf; [lia|]. destruct R as [|[a [k v]] R]; [done|]. cbn [set_traversal_loop hd head fmap option_fmap option_map fst list_fmap visit1 snd].
    unfold mbind_ at 1. rewrite (key_ok _ _ _ _ _ _ _ Hp E1). destruct (vis k u).1; cbn [negb]; [|done]. unfold mbind_ at 1. rewrite (next_ok _ _ _ _ _ _ _ Hp E1). apply (IH (L ++ [(a, (k, v))])); [by rewrite <-app_assoc|cbn in Hf; lia].
  Qed.
  Lemma strav_all {U} (vis : T → U → bool * U) s t u : tinv cmp s t → set_Traversal vis u s = Ok (visit1 vis (io t).*2.*1 u, s).
  Proof using.
    clear CO. intros H. pose proof (tinv_rep _ _ _ H) as Hp. unfold set_Traversal. unfold mbind_ at 1. rewrite (hd_first _ _ Hp). unfold mbind_, fuel. apply (strav_ok vis s t []); [done|done|]. pose proof (count_ok _ _ Hp). lia.
  Qed.
  Lemma ms_trav {U} (vis : T → U → bool * U) u s : ms_Traversal vis u s = set_Traversal vis u s.
  Proof using. clear cmp CO. reflexivity. Qed.
  (** the text built by String *)
  Definition addtext (show : T → string) (x : T) (str : string) : bool * string := (true, ((if String.eqb str "[" then str else str ++ " ") ++ show x)%string).
  Lemma sapp_nil_r (a : string) : (a ++ "")%string = a. Proof using. clear. induction a as [|c a IH]; [done|]. change (String c (a ++ "") = String c a). f_equal. exact IH. Qed.
  Lemma sapp_assoc (a b c : string) : ((a ++ b) ++ c)%string = (a ++ (b ++ c))%string. Proof using. clear. induction a as [|x a IH]; [done|]. change (String x ((a ++ b) ++ c) = String x (a ++ (b ++ c)))%string. f_equal. exact IH. Qed.
  Lemma addtext_more show l a : a ≠ ""%string → visit1 (addtext show) l ("[" ++ a)%string = ("[" ++ String.concat " " (a :: map show l))%string.
  Proof using.
    clear cmp CO. revert a. induction l as [|x l IH]; intros a Ha; [done|]. cbn [visit1 addtext fst snd map].
    assert (String.eqb ("[" ++ a) "[" = false) as ->. { apply String.eqb_neq. intros E1. destruct a; [done|discriminate]. }
    change ("[" ++ a)%string with (String "["%char a) at 1. change (String "["%char a ++ " ")%string with ("[" ++ (a ++ " "))%string. rewrite sapp_assoc. rewrite IH.
    2:{ destruct a; [done|discriminate]. }
    f_equal. cbn [String.concat]. destruct (map show l); cbn [String.concat]; rewrite ?sapp_assoc; done.
  Qed.
  Lemma addtext_all show l : (visit1 (addtext show) l "[" ++ "]")%string = render show l.
  Proof using.
    clear cmp CO. unfold render. rewrite <-sapp_assoc. f_equal. induction l as [|x l IH]; [done|]. cbn [visit1 addtext fst snd map suffix]. rewrite String.eqb_refl. destruct (String.eqb_spec (show x) "") as [Hx|Hx]; cbn [negb].
    - rewrite Hx. exact IH.
    - by apply addtext_more.
  Qed.
  Definition s_is_obs (o : set_op T W) : Prop := match o with SInsert _ | SErase _ | SEraseAll _ | SCount _ => False | _ => True end.
  Lemma existsb_fst (x : T) (l : list (T * bool)) : existsb (is_k cmp x) l = existsb (same cmp x) l.*1.
  Proof using. clear CO. induction l as [|[k v] l IH]; [done|]. cbn. by rewrite IH. Qed.
  Lemma s_obs_agrees o s l : s_is_obs o → sholds s l → agrees sholds (set_step cmp o s) (s_obs cmp l o).
  Proof using CO.
    intros Ho (t & H & <-). pose proof (tinv_rep _ _ _ H) as Hp. assert (sholds s (io t).*2.*1) as Hh by by exists t.
    assert (∀ i, times i si_Next (hd (io t)) s = Ok (hd (drop i (io t)), s)) as Hw by (intros i; by apply (swalk_ok s t [])).
    destruct o; try done; cbn [set_step s_obs agrees].
    - (* Find *) unfold set_Find. unfold mbind_ at 1. destruct (hd_search_eq cmp CO s t x H) as (L & R & -> & E2 & E3 & _). rewrite (swalk_elem _ _ _ _ _ H E2), E3. unfold same. rewrite (suffix_fst (λ y, cmp x y =? 0)). by exists s.
    - unfold set_LowerBound. unfold mbind_ at 1. destruct (hd_search_lower cmp CO s t x H) as (L & R & -> & E2 & E3). rewrite (swalk_elem _ _ _ _ _ H E2), E3. rewrite (suffix_fst (λ y, cmp x y <=? 0)). by exists s.
    - unfold set_UpperBound. unfold mbind_ at 1. destruct (hd_search_upper cmp CO s t x H) as (L & R & -> & E2 & E3). rewrite (swalk_elem _ _ _ _ _ H E2), E3. rewrite (suffix_fst (λ y, cmp x y <? 0)). by exists s.
    - unfold set_Begin, set_First. unfold mbind_ at 1. rewrite (hd_first _ _ Hp). rewrite (swalk_elem _ _ [] _ _ H eq_refl). by exists s.
    - unfold set_First. unfold mbind_ at 1. rewrite (hd_first _ _ Hp). rewrite (swalk_elem _ _ [] _ _ H eq_refl). by exists s.
    - unfold set_Last. unfold mbind_ at 1. rewrite (hd_last _ _ Hp). rewrite (swalk_elem_back _ _ _ H). by exists s.
    - unfold set_Begin, set_First. unfold mbind_ at 1. rewrite (hd_first _ _ Hp). unfold mbind_ at 1. rewrite Hw. unfold si_Value. unfold mbind_.
      rewrite (hd_key s t (take i (io t))); [|done|by rewrite take_drop]. rewrite fmap_drop, head_drop, !list_lookup_fmap. destruct (io t !! i) as [kv|]; cbn; [|done]. by exists s.
    - unfold set_Begin, set_First, si_Clone. unfold mbind_ at 1. rewrite (hd_first _ _ Hp). unfold mbind_. rewrite !Hw. exists s. split; [|done]. unfold mret_, si_Equal, peq. rewrite (hd_eq s t [] (io t) i j Hp eq_refl), !fmap_length.
      do 3 f_equal. apply bool_decide_ext. split; intros; congruence.
    - unfold set_Clear, mbind_. destruct (clear_tinv cmp CO s) as (s' & -> & H' & _). exists s'. split; [done|]. by exists E.
    - unfold set_Contains, mbind_. rewrite (hd_find cmp CO s t x H). exists s. split; [|done]. rewrite <-existsb_fst, exists_suffix. unfold is_k. by destruct (head _).
    - unfold set_Size, mbind_. rewrite (tinv_size _ _ _ H). exists s. by rewrite (fmap_length fst).
    - unfold mbind_. rewrite (strav_all vis s t w H). by exists s.
    - unfold set_String, mbind_. change (λ (x : T) (str : string), (true, ((if String.eqb str "[" then str else str ++ " ") ++ show x)%string)) with (addtext show). rewrite (strav_all (addtext show) s t "["%string H). exists s. unfold mret_. by rewrite addtext_all.
  Qed.
  Lemma place_fst x b (l : list (T * bool)) : (add_after cmp x b l).*1 = place cmp x l.*1.
  Proof using. clear CO. induction l as [|[k v] l IH]; cbn; [done|]. destruct (cmp x k <? 0); [done|]. cbn. by rewrite IH. Qed.
  Lemma erase_fst x (l : list (T * bool)) : (erase_k cmp x l).*1 = remove_all cmp x l.*1.
  Proof using. clear CO. unfold erase_k, remove_all. induction l as [|[k v] l IH]; [done|]. rewrite fmap_cons. rewrite !filter_cons. unfold is_k, same in *. cbn [fst]. destruct (decide _); [|done]. rewrite fmap_cons. by rewrite IH. Qed.
  Lemma s_insert s l x : sholds s l → ∃ s', rb_Insert cmp x set_Empty_const s = Ok (tt, s') ∧ sholds s' (place cmp x l).
  Proof using CO.
    intros (l2 & H & <-)%sholds_holds. destruct (insert_agrees cmp CO s l2 x set_Empty_const H) as (s' & E1 & H'). exists s'. split; [done|]. apply sholds_holds. eexists. split; [exact H'|]. by rewrite place_fst.
  Qed.
  Lemma remove_one_skip x (L R : list T) : Forall (λ y, cmp x y ≠ 0) L → remove_one cmp x (L ++ R) = L ++ remove_one cmp x R.
  Proof using. clear CO. induction 1 as [|y L Hy _ IH]; [done|]. cbn. unfold same. rewrite (proj2 (Z.eqb_neq _ _) Hy). by rewrite IH. Qed.
  Lemma remove_all_none x l : Forall (λ y, cmp x y ≠ 0) l → remove_all cmp x l = l.
  Proof using. clear CO. unfold remove_all. induction 1 as [|y l Hy _ IH]; [done|]. rewrite filter_cons_True; [by f_equal|]. unfold same. destruct (Z.eqb_spec (cmp x y) 0); [done|]. by intros []. Qed.
  Lemma ms_loop f x s : ms_erase_loop cmp f x s = mm_erase_loop cmp f x s.
  Proof using. clear CO. revert s. induction f as [|f IH]; intros s; [done|]. cbn [ms_erase_loop mm_erase_loop]. unfold mbind_. destruct (rb_FindNode cmp x s) as [[[a|] s1]| |]; try done. Qed.
  Lemma count_loop s t L R x f c : tinv cmp s t → io t = L ++ R → (length R < f)%nat → ms_count_loop cmp f x (hd R) c s = Ok (c + Z.of_nat (count cmp x R.*2.*1), s).
  Proof using CO.
    intros H. pose proof (tinv_rep _ _ _ H) as Hp. revert L R c. induction f as [|f IH]; intros L R c E1 Hf; [lia|]. destruct R as [|[a [k v]] R]; [cbn; by rewrite Z.add_0_r|]. cbn [ms_count_loop hd head fmap option_fmap option_map fst list_fmap snd].
    unfold mbind_ at 1. rewrite (key_ok _ _ _ _ _ _ _ Hp E1). unfold mbind_ at 1. rewrite (next_ok _ _ _ _ _ _ _ Hp E1). fold (hd R). rewrite (IH (L ++ [(a, (k, v))])); [|by rewrite <-app_assoc|cbn in Hf; lia]. do 2 f_equal.
    unfold count, same. rewrite filter_cons. pose proof (cmp_flip_eq cmp CO k x) as Hf1. destruct (Z.eqb_spec (cmp k x) 0) as [Hk|Hk], (Z.eqb_spec (cmp x k) 0) as [Hk'|Hk']; try tauto; rewrite ?decide_True, ?decide_False by done; cbn [length]; lia.
  Qed.
  Lemma ms_agrees (o : set_op T W) s l : sholds s l → agrees sholds (ms_step cmp o s) (ms_spec cmp o l).
  Proof using CO.
    intros H. assert (s_is_obs o → ms_step cmp o s = set_step cmp o s ∧ ms_spec cmp o l = s_obs cmp l o) as Hobs by by destruct o.
    assert ({s_is_obs o} + {¬ s_is_obs o}) as [Ho|Ho] by (destruct o; cbn; tauto). { destruct (Hobs Ho) as [-> ->]. by apply s_obs_agrees. }
    destruct o; cbn in Ho; try tauto; cbn [ms_step ms_spec agrees]; clear Ho Hobs.
    - unfold ms_Insert, mbind_. destruct (s_insert s l x H) as (s' & -> & H'). by exists s'.
    - unfold ms_Erase. unfold mbind_ at 1. unfold mbind_ at 1. destruct H as (t & Ht & <-). destruct (hd_search_eq cmp CO s t x Ht) as (L & R & E1 & E2 & E3 & E4 & E5). rewrite E1.
      assert (Forall (λ y, cmp x y ≠ 0) L.*2.*1) as E4' by by apply Forall_fmap, Forall_fmap.
      destruct R as [|[a [k' v']] R]; cbn [hd head fmap option_fmap option_map fst].
      + exists s. split; [done|]. exists t. split; [done|]. rewrite app_nil_r in E2. rewrite E2. rewrite <-(app_nil_r (L.*2.*1)) at 2. rewrite remove_one_skip by done. cbn. by rewrite app_nil_r.
      + destruct (hd_delete cmp CO s t L _ Ht E2) as (s' & t' & E6 & H' & _ & E7). cbn [hd head fmap option_fmap option_map fst] in E6. rewrite E6. exists s'. split; [done|]. exists t'. split; [done|]. cbn in E5.
        rewrite E7, E2, !fmap_app, !fmap_cons. cbn [tail fst snd]. rewrite remove_one_skip by done. cbn [remove_one]. unfold same. by rewrite (proj2 (Z.eqb_eq _ _) E5).
    - unfold ms_EraseAll. unfold mbind_ at 1. unfold mbind_ at 1. unfold fuel. rewrite ms_loop. pose proof H as (l2 & H2 & <-)%sholds_holds. destruct (erase_loop_ok cmp CO (S (rb_next s)) x s l2 H2) as (s' & -> & H').
      { destruct H2 as (t & Ht & <-). pose proof (count_ok _ _ (tinv_rep _ _ _ Ht)). pose proof (filter_length (λ kv, is_k cmp x kv) (io t).*2) as Hfl. rewrite fmap_length in Hfl. lia. }
      exists s'. split; [done|]. apply sholds_holds. eexists. split; [exact H'|]. apply erase_fst.
    - pose proof H as (t & Ht & <-). pose proof (tinv_rep _ _ _ Ht) as Hp. unfold ms_Count. unfold mbind_ at 1. unfold mbind_ at 1. rewrite (hd_first _ _ Hp). unfold mbind_, fuel. rewrite (count_loop s t [] (io t)); [|done|done|pose proof (count_ok _ _ Hp); lia]. by exists s.
  Qed.
  Definition asholds s l : Prop := sholds s l ∧ s_asc cmp l.
  Lemma s_asc_mid (L : list T) x R : s_asc cmp (L ++ x :: R) → (∀ y, y ∈ L → cmp y x < 0) ∧ (∀ y, y ∈ R → cmp x y < 0) ∧ s_asc cmp (L ++ R).
  Proof using.
    unfold s_asc. intros (H1 & H2 & H3)%SS_app. apply SS_cons in H2 as [H2 H4]. split_and!; [intros y Hy; apply H3; [done|by left]|done|].
    apply SS_app. split_and!; [done|done|]. intros y z Hy Hz. apply H3; [done|by right].
  Qed.
  Lemma place_elem x y l : y ∈ place cmp x l ↔ y = x ∨ y ∈ l.
  Proof using. clear CO. induction l as [|z l IH]; cbn. { by rewrite elem_of_cons. } destruct (cmp x z <? 0); rewrite !elem_of_cons; [done|]. rewrite IH. tauto. Qed.
  Lemma place_asc x l : s_asc cmp l → Forall (λ y, cmp x y ≠ 0) l → s_asc cmp (place cmp x l).
  Proof using CO.
    unfold s_asc. induction l as [|y l IH]; intros Ha Hn; cbn. { constructor; constructor. } apply SS_cons in Ha as [Ha Hb]. apply Forall_cons in Hn as [Hy Hn]. destruct (Z.ltb_spec (cmp x y) 0) as [Hl|Hg]; apply SS_cons.
    - split; [by apply SS_cons|]. intros z [->|Hz]%elem_of_cons; [done|]. eapply cmp_lt_trans; eauto.
    - split; [by apply IH|]. intros z [->|Hz]%place_elem; [|by apply Hb]. apply cmp_flip_lt; [done|]. lia.
  Qed.
  Lemma remove_all_asc x l : s_asc cmp l → s_asc cmp (remove_all cmp x l).
  Proof using. clear CO. unfold s_asc, remove_all. induction 1 as [|y l Hs IH Hf]; [constructor|]. rewrite filter_cons. destruct (decide _); [|done]. constructor; [done|]. rewrite Forall_forall in *. intros z [? Hz]%elem_of_list_filter. auto. Qed.
  Lemma remove_all_mid x (L : list T) y R : s_asc cmp (L ++ y :: R) → cmp x y = 0 → remove_all cmp x (L ++ y :: R) = L ++ R.
  Proof using CO.
    intros (H1 & H2 & _)%s_asc_mid Hk. unfold remove_all. rewrite filter_app, filter_cons_False. 2:{ unfold same. rewrite Hk. intros Hn. by apply Hn. } rewrite <-filter_app.
    assert (Forall (λ z, cmp x z ≠ 0) (L ++ R)) as Hf; [|by apply (remove_all_none x)].
    apply Forall_forall. intros z [Hz|Hz]%elem_of_app Hxz; apply cmp_flip_eq in Hxz; try done; pose proof (cmp_eq_trans _ CO _ _ _ Hxz Hk) as Hzy; [specialize (H1 z Hz); lia|]. apply cmp_flip_eq in Hzy; [|done]. specialize (H2 z Hz). lia.
  Qed.
  Lemma existsb_none x l : Forall (λ y, cmp x y ≠ 0) l → existsb (same cmp x) l = false.
  Proof using. clear CO. induction 1 as [|y l Hy _ IH]; [done|]. cbn. unfold same at 1. rewrite (proj2 (Z.eqb_neq _ _) Hy). done. Qed.
  Lemma set_agrees (o : set_op T W) s l : asholds s l → agrees asholds (set_step cmp o s) (set_spec cmp o l).
  Proof using CO.
    intros [H Ha]. assert (s_is_obs o → set_spec cmp o l = s_obs cmp l o) as Hobs by by destruct o.
    assert ({s_is_obs o} + {¬ s_is_obs o}) as [Ho|Ho] by (destruct o; cbn; tauto).
    { rewrite (Hobs Ho). pose proof (s_obs_agrees o s l Ho H) as Hag. unfold agrees in *. destruct (s_obs cmp l o) as [[r l']|] eqn:Eo; [|done]. destruct Hag as (s' & E1 & H'). exists s'. split; [done|]. split; [done|].
      clear - Eo Ha. destruct o; cbn in Eo; try done; try (injection Eo as <- <-; done || constructor). destruct (l !! i) as [x|]; [|done]. cbn in Eo. by injection Eo as <- <-. }
    destruct o; cbn in Ho; try tauto; cbn [set_step set_spec agrees]; clear Ho Hobs.
    - unfold set_Insert. unfold mbind_ at 1. unfold mbind_ at 1. pose proof H as (t & Ht & <-). destruct (hd_search_eq cmp CO s t x Ht) as (L & R & E1 & E2 & E3 & E4 & E5). rewrite E1.
      assert (Forall (λ y, cmp x y ≠ 0) L.*2.*1) as E4' by by apply Forall_fmap, Forall_fmap.
      destruct R as [|[a [k' v']] R]; cbn [hd head fmap option_fmap option_map fst].
      + rewrite app_nil_r in E2. rewrite existsb_none by by rewrite E2. destruct (s_insert s _ x H) as (s' & -> & H'). exists s'. split; [done|]. split; [done|]. apply place_asc; [done|by rewrite E2].
      + exists s. split; [done|]. cbn in E5. assert (existsb (same cmp x) (io t).*2.*1 = true) as ->; [|done]. apply existsb_exists. exists k'. split; [|unfold same; lia]. apply elem_of_list_In. rewrite E2, !fmap_app, !fmap_cons. apply elem_of_app. right. by left.
    - unfold set_Erase. unfold mbind_ at 1. unfold mbind_ at 1. pose proof H as (t & Ht & <-). destruct (hd_search_eq cmp CO s t x Ht) as (L & R & E1 & E2 & E3 & E4 & E5). rewrite E1.
      assert (Forall (λ y, cmp x y ≠ 0) L.*2.*1) as E4' by by apply Forall_fmap, Forall_fmap. assert (s_asc cmp (remove_all cmp x (io t).*2.*1)) as Ha' by by apply remove_all_asc.
      destruct R as [|[a [k' v']] R]; cbn [hd head fmap option_fmap option_map fst].
      + exists s. split; [done|]. split; [|done]. rewrite app_nil_r in E2. rewrite remove_all_none; [done|]. by rewrite E2.
      + destruct (hd_delete cmp CO s t L _ Ht E2) as (s' & t' & E6 & H' & _ & E7). cbn [hd head fmap option_fmap option_map fst] in E6. rewrite E6. exists s'. split; [done|]. split; [|done]. exists t'. split; [done|]. cbn in E5.
        rewrite E7, E2, !fmap_app, !fmap_cons. rewrite E2, !fmap_app, !fmap_cons in Ha. cbn [snd fst tail] in *. by rewrite remove_all_mid.
    - by exists s.
    - by exists s.
  Qed.
  Lemma sholds_new : sholds rb_new []. Proof using CO. exists E. split; [by apply tinv_new|done]. Qed.

  (** the set algebra *)
  Lemma place_end x l : (∀ y, y ∈ l → cmp y x < 0) → place cmp x l = l ++ [x].
  Proof using CO.
    induction l as [|y l IH]; intros Hl; cbn; [done|]. rewrite (proj2 (Z.ltb_ge _ _)); [by rewrite IH by (intros; apply Hl; by right)|]. assert (cmp y x < 0) as Hyx by (apply Hl; by left). apply cmp_flip_lt in Hyx; [|done]. lia.
  Qed.
  Lemma it_next_hd s t L a kv (R : list (nat * (T * bool))) : tinv cmp s t → io t = L ++ (a, kv) :: R → it_Next (Some a) s = Ok (hd R, s).
  Proof using. clear CO. intros H E1. destruct kv. unfold it_Next. cbn. eapply next_ok; [by eapply tinv_rep|done]. Qed.
  Lemma it_key_hd s t L a kv (R : list (nat * (T * bool))) : tinv cmp s t → io t = L ++ (a, kv) :: R → it_Key (Some a) s = Ok (kv.1, s).
  Proof using. clear CO. intros H E1. destruct kv. unfold it_Key. eapply key_ok; [by eapply tinv_rep|done]. Qed.
  Notation els R := (R.*2.*1 : list T).
  Lemma els_cons a (kv : T * bool) (R : list (nat * (T * bool))) : els ((a, kv) :: R) = kv.1 :: els R. Proof using. done. Qed.
  Lemma s_asc_cons x l : s_asc cmp (x :: l) ↔ s_asc cmp l ∧ ∀ y, y ∈ l → cmp x y < 0. Proof using. clear CO. unfold s_asc. split; [by intros [??]%SS_cons|]. intros [??]. by apply SS_cons. Qed.
  Lemma s_asc_app l1 l2 : s_asc cmp (l1 ++ l2) ↔ s_asc cmp l1 ∧ s_asc cmp l2 ∧ ∀ x y, x ∈ l1 → y ∈ l2 → cmp x y < 0.
  Proof using. clear CO. unfold s_asc. split; intros H; by apply SS_app. Qed.
  #[local] Opaque it_Key it_Next.
  Lemma merge_ok (ie il ig : bool) s ts o to : tinv cmp s ts → tinv cmp o to →
    ∀ f L1 R1 L2 R2 n ln, io ts = L1 ++ R1 → io to = L2 ++ R2 → (length R1 + length R2 < f)%nat → s_asc cmp (els R1) → s_asc cmp (els R2) → sholds n ln → (∀ x y, x ∈ ln → y ∈ els R1 ∨ y ∈ els R2 → cmp x y < 0) →
    ∃ n' out P1 R1' P2 R2', merge_loop cmp ie il ig f (hd R1) (hd R2) (s, o, n) = Ok ((hd R1', hd R2'), (s, o, n')) ∧ sholds n' (ln ++ out) ∧ R1 = P1 ++ R1' ∧ R2 = P2 ++ R2' ∧ (R1' = [] ∨ R2' = []) ∧ s_asc cmp out
      ∧ (∀ x, x ∈ out ↔ (x ∈ els P1 ∧ (has cmp x (els R2) ∧ ie ∨ ¬ has cmp x (els R2) ∧ il)) ∨ (x ∈ els P2 ∧ ¬ has cmp x (els R1) ∧ ig))
      ∧ (∀ x y, x ∈ els P1 ∨ x ∈ els P2 → y ∈ els R1' ∨ y ∈ els R2' → cmp x y < 0).
  Proof using CO.
    intros Hs Ho f. induction f as [|f IH]; intros L1 R1 L2 R2 n ln E1 E2 Hf A1 A2 Hn Hln; [lia|].
    assert (∀ x, ¬ has cmp x []) as Hnil. { intros x (y & Hy & _). by apply elem_of_nil in Hy. }
    destruct R1 as [|[a [x u]] R1].
    { exists n, [], [], [], [], R2. cbn [merge_loop hd head fmap option_fmap option_map]. unfold it_IsValid at 1. cbn. rewrite app_nil_r. split_and!; [done|done|done|done|by left|constructor| |]. - intros x. split; [by intros ?%elem_of_nil|]. intros [[?%elem_of_nil _]|[?%elem_of_nil _]]; done. - intros x y [?%elem_of_nil|?%elem_of_nil]; done. }
    destruct R2 as [|[b [y v]] R2].
    { exists n, [], [], ((a, (x, u)) :: R1), [], []. cbn [merge_loop hd head fmap option_fmap option_map fst]. unfold it_IsValid. cbn. rewrite app_nil_r. split_and!; [done|done|done|done|by right|constructor| |]. - intros z. split; [by intros ?%elem_of_nil|]. intros [[?%elem_of_nil _]|[?%elem_of_nil _]]; done. - intros z y [?%elem_of_nil|?%elem_of_nil]; done. }
    rewrite !els_cons in *. cbn [fst] in *. pose proof A1 as [A1' B1]%s_asc_cons. pose proof A2 as [A2' B2]%s_asc_cons.
    cbn [merge_loop hd head fmap option_fmap option_map fst]. change (it_IsValid (Some a) && it_IsValid (Some b)) with true. cbn match.
    unfold mbind_ at 1. unfold on_s at 1. cbn [fst snd]. rewrite (it_key_hd s ts L1 a (x, u) R1 Hs E1). cbn [fst snd].
    unfold mbind_ at 1. unfold on_o at 1. cbn [fst snd]. rewrite (it_key_hd o to L2 b (y, v) R2 Ho E2). cbn [fst snd].
    assert (io ts = (L1 ++ [(a, (x, u))]) ++ R1) as E1' by by rewrite <-app_assoc. assert (io to = (L2 ++ [(b, (y, v))]) ++ R2) as E2' by by rewrite <-app_assoc.
    destruct (Z.eqb_spec (cmp x y) 0) as [Hxy|Hxy]; [|destruct (Z.ltb_spec (cmp x y) 0) as [Hlt|Hge]].
    - (* equal *)
      assert (∃ n1 o1, (if ie then let! a0 := on_s (it_Key (Some a)) in on_n (rb_Insert cmp a0 set_Empty_const) else mret_ tt) (s, o, n) = Ok (tt, (s, o, n1)) ∧ sholds n1 (ln ++ o1) ∧ o1 = if ie then [x] else []) as (n1 & o1 & En & Hn1 & Ho1).
      { destruct ie. - unfold mbind_, on_s, on_n. cbn [fst snd]. rewrite (it_key_hd s ts L1 a (x, u) R1 Hs E1). cbn [fst snd]. destruct (s_insert n ln x Hn) as (n1 & -> & Hn1). exists n1, [x]. rewrite place_end in Hn1 by (intros z Hz; apply Hln; [done|left; by left]). done.
        - exists n, []. by rewrite app_nil_r. }
      unfold mbind_ at 1. rewrite En. unfold mbind_ at 1. unfold on_s at 1. cbn [fst snd]. rewrite (it_next_hd s ts L1 a (x, u) R1 Hs E1). unfold mbind_ at 1. unfold on_o at 1. cbn [fst snd]. rewrite (it_next_hd o to L2 b (y, v) R2 Ho E2).
      assert (∀ z, z ∈ els R1 ∨ z ∈ els R2 → cmp x z < 0) as Bx. { intros z [Hz|Hz]; [by apply B1|]. specialize (B2 z Hz). pose proof (cmp_eq_l _ CO x y z Hxy). lia. }
      destruct (IH _ R1 _ R2 n1 (ln ++ o1) E1' E2') as (n' & out & P1 & R1' & P2 & R2' & Em & Hn' & F1 & F2 & Hend & Ao & Hout & Hord); try done.
      { cbn in Hf. lia. } { intros z w [Hz|Hz]%elem_of_app Hw; [apply Hln; [done|]; destruct Hw; [left|right]; by right|]. subst o1. destruct ie; [|by apply elem_of_nil in Hz]. apply elem_of_list_singleton in Hz as ->. by apply Bx. }
      exists n', (o1 ++ out), ((a, (x, u)) :: P1), R1', ((b, (y, v)) :: P2), R2'. rewrite app_assoc. rewrite Em. rewrite F1, F2. rewrite F1 in Bx. rewrite F2 in Bx.
      assert (∀ z, z ∈ els P1 ∨ z ∈ els R1' ∨ z ∈ els P2 ∨ z ∈ els R2' → cmp x z < 0) as Bx'. { intros z Hz. apply Bx. rewrite !fmap_app, !elem_of_app. tauto. } clear Bx.
      assert (∀ z, cmp x z < 0 → cmp y z < 0) as Byx. { intros z Hz. pose proof (cmp_eq_l _ CO x y z Hxy). lia. }
      split_and!; try done.
      + apply s_asc_app. split_and!; [subst o1; destruct ie; repeat constructor|done|]. intros z w Hz Hw. subst o1. destruct ie; [|by apply elem_of_nil in Hz]. apply elem_of_list_singleton in Hz as ->. apply Bx'. apply Hout in Hw. tauto.
      + intros z. rewrite elem_of_app, !els_cons, !elem_of_cons. rewrite Hout. cbn [fst].
        assert (∀ w, cmp x w < 0 → ∀ l, has cmp w (y :: l) ↔ has cmp w l) as Hh1. { intros w Hw l. split; intros (q & Hq & Hqw); [|exists q; split; [by right|done]]. apply elem_of_cons in Hq as [->|Hq]; [|by exists q]. apply Byx in Hw. apply cmp_flip_eq in Hqw; [|done]. lia. }
        assert (∀ w, cmp x w < 0 → ∀ l, has cmp w (x :: l) ↔ has cmp w l) as Hh2. { intros w Hw l. split; intros (q & Hq & Hqw); [|exists q; split; [by right|done]]. apply elem_of_cons in Hq as [->|Hq]; [|by exists q]. apply cmp_flip_eq in Hqw; [|done]. lia. }
        assert (∀ l, has cmp x (y :: l)) as Hx1. { intros l. exists y. split; [by left|done]. } assert (∀ l, has cmp y (x :: l)) as Hx2. { intros l. exists x. split; [by left|by apply cmp_flip_eq]. }
        rewrite F1, F2. split.
        * intros [Hz|[[Hz Hr]|[Hz Hr]]].
          -- left. subst o1. destruct ie; [|by apply elem_of_nil in Hz]. apply elem_of_list_singleton in Hz as ->. split; [by left|]. left. split; [apply Hx1|done].
          -- left. split; [by right|]. rewrite Hh1 by (apply Bx'; tauto). done.
          -- right. split; [by right|]. rewrite Hh2 by (apply Bx'; tauto). done.
        * intros [[[->|Hz] Hr]|[[->|Hz] Hr]].
          -- left. destruct Hr as [[_ Hr]|[Hr _]]; [|by destruct Hr; apply Hx1]. subst o1. destruct ie; [by left|done].
          -- right. left. rewrite Hh1 in Hr by (apply Bx'; tauto). done.
          -- destruct Hr as [Hr _]. destruct Hr. apply Hx2.
          -- right. right. rewrite Hh2 in Hr by (apply Bx'; tauto). done.
      + intros z w. rewrite !els_cons, !elem_of_cons. cbn [fst]. intros [[->|Hz]|[->|Hz]] Hw; [apply Bx'; tauto|apply Hord; tauto|apply Byx, Bx'; tauto|apply Hord; tauto].
    - (* less *)
      assert (∃ n1 o1, (if il then let! a0 := on_s (it_Key (Some a)) in on_n (rb_Insert cmp a0 set_Empty_const) else mret_ tt) (s, o, n) = Ok (tt, (s, o, n1)) ∧ sholds n1 (ln ++ o1) ∧ o1 = if il then [x] else []) as (n1 & o1 & En & Hn1 & Ho1).
      { destruct il. - unfold mbind_, on_s, on_n. cbn [fst snd]. rewrite (it_key_hd s ts L1 a (x, u) R1 Hs E1). cbn [fst snd]. destruct (s_insert n ln x Hn) as (n1 & -> & Hn1). exists n1, [x]. rewrite place_end in Hn1 by (intros z Hz; apply Hln; [done|left; by left]). done.
        - exists n, []. by rewrite app_nil_r. }
      unfold mbind_ at 1. rewrite En. unfold mbind_ at 1. unfold on_s at 1. cbn [fst snd]. rewrite (it_next_hd s ts L1 a (x, u) R1 Hs E1).
      assert (∀ z, z ∈ els R1 ∨ z ∈ els ((b, (y, v)) :: R2) → cmp x z < 0) as Bx. { rewrite els_cons. intros z [Hz|[->|Hz]%elem_of_cons]; [by apply B1|done|]. specialize (B2 z Hz). eapply cmp_lt_trans; eauto. }
      destruct (IH _ R1 _ ((b, (y, v)) :: R2) n1 (ln ++ o1) E1' E2) as (n' & out & P1 & R1' & P2 & R2' & Em & Hn' & F1 & F2 & Hend & Ao & Hout & Hord); try done.
      { cbn in Hf |- *. lia. } { intros z w [Hz|Hz]%elem_of_app Hw; [apply Hln; [done|]; destruct Hw; [left; by right|right; done]|]. subst o1. destruct il; [|by apply elem_of_nil in Hz]. apply elem_of_list_singleton in Hz as ->. by apply Bx. }
      exists n', (o1 ++ out), ((a, (x, u)) :: P1), R1', P2, R2'. rewrite app_assoc. split_and!; try done.
      + by rewrite F1.
      + apply s_asc_app. split_and!; [subst o1; destruct il; repeat constructor|done|]. intros z w Hz Hw. subst o1. destruct il; [|by apply elem_of_nil in Hz]. apply elem_of_list_singleton in Hz as ->. apply Bx. apply Hout in Hw. rewrite F1, F2, !fmap_app, !elem_of_app. tauto.
      + intros z. rewrite elem_of_app, els_cons, elem_of_cons. rewrite Hout. cbn [fst]. rewrite !els_cons. cbn [fst].
        assert (¬ has cmp x (y :: els R2)) as Hx1. { intros (q & Hq & Hqx). specialize (Bx q (or_intror Hq)). lia. }
        assert (∀ w, w ∈ els P2 → has cmp w (x :: els R1) ↔ has cmp w (els R1)) as Hh2. { intros w Hw. split; intros (q & Hq & Hqw); [|exists q; split; [by right|done]]. apply elem_of_cons in Hq as [->|Hq]; [|by exists q]. apply cmp_flip_eq in Hqw; [|done]. assert (cmp x w < 0); [|lia]. apply Bx. right. rewrite F2, !fmap_app, elem_of_app. by left. }
        split.
        * intros [Hz|[[Hz Hr]|[Hz Hr]]].
          -- left. subst o1. destruct il; [|by apply elem_of_nil in Hz]. apply elem_of_list_singleton in Hz as ->. split; [by left|]. right. done.
          -- left. split; [by right|done].
          -- right. split; [done|]. rewrite Hh2 by done. done.
        * intros [[[->|Hz] Hr]|[Hz Hr]].
          -- left. destruct Hr as [[Hr _]|[_ Hr]]; [done|]. subst o1. destruct il; [by left|done].
          -- right. left. done.
          -- right. right. rewrite Hh2 in Hr by done. done.
      + intros z w. rewrite els_cons, elem_of_cons. cbn [fst]. intros [[->|Hz]|Hz] Hw; [apply Bx; rewrite F1, F2, !fmap_app, !elem_of_app; tauto|apply Hord; tauto|apply Hord; tauto].
    - (* greater *)
      assert (cmp y x < 0) as Hgt. { apply cmp_flip_lt; [done|]. lia. }
      assert (∃ n1 o1, (if ig then let! b0 := on_o (it_Key (Some b)) in on_n (rb_Insert cmp b0 set_Empty_const) else mret_ tt) (s, o, n) = Ok (tt, (s, o, n1)) ∧ sholds n1 (ln ++ o1) ∧ o1 = if ig then [y] else []) as (n1 & o1 & En & Hn1 & Ho1).
      { destruct ig. - unfold mbind_, on_o, on_n. cbn [fst snd]. rewrite (it_key_hd o to L2 b (y, v) R2 Ho E2). cbn [fst snd]. destruct (s_insert n ln y Hn) as (n1 & -> & Hn1). exists n1, [y]. rewrite place_end in Hn1 by (intros z Hz; apply Hln; [done|right; by left]). done.
        - exists n, []. by rewrite app_nil_r. }
      unfold mbind_ at 1. rewrite En. unfold mbind_ at 1. unfold on_o at 1. cbn [fst snd]. rewrite (it_next_hd o to L2 b (y, v) R2 Ho E2).
      assert (∀ z, z ∈ els ((a, (x, u)) :: R1) ∨ z ∈ els R2 → cmp y z < 0) as Bx. { rewrite els_cons. intros z [[->|Hz]%elem_of_cons|Hz]; [done| |by apply B2]. specialize (B1 z Hz). eapply cmp_lt_trans; eauto. }
      destruct (IH _ ((a, (x, u)) :: R1) _ R2 n1 (ln ++ o1) E1 E2') as (n' & out & P1 & R1' & P2 & R2' & Em & Hn' & F1 & F2 & Hend & Ao & Hout & Hord); try done.
      { cbn in Hf |- *. lia. } { intros z w [Hz|Hz]%elem_of_app Hw; [apply Hln; [done|]; destruct Hw; [left; done|right; by right]|]. subst o1. destruct ig; [|by apply elem_of_nil in Hz]. apply elem_of_list_singleton in Hz as ->. by apply Bx. }
      exists n', (o1 ++ out), P1, R1', ((b, (y, v)) :: P2), R2'. rewrite app_assoc. split_and!; try done.
      + by rewrite F2.
      + apply s_asc_app. split_and!; [subst o1; destruct ig; repeat constructor|done|]. intros z w Hz Hw. subst o1. destruct ig; [|by apply elem_of_nil in Hz]. apply elem_of_list_singleton in Hz as ->. apply Bx. apply Hout in Hw. rewrite F1, F2, !fmap_app, !elem_of_app. tauto.
      + intros z. rewrite elem_of_app, els_cons, elem_of_cons. rewrite Hout. cbn [fst]. rewrite !els_cons. cbn [fst].
        assert (¬ has cmp y (x :: els R1)) as Hx1. { intros (q & Hq & Hqx). specialize (Bx q (or_introl Hq)). lia. }
        assert (∀ w, w ∈ els P1 → has cmp w (y :: els R2) ↔ has cmp w (els R2)) as Hh2. { intros w Hw. split; intros (q & Hq & Hqw); [|exists q; split; [by right|done]]. apply elem_of_cons in Hq as [->|Hq]; [|by exists q]. apply cmp_flip_eq in Hqw; [|done]. assert (cmp y w < 0); [|lia]. apply Bx. left. rewrite F1, !fmap_app, elem_of_app. by left. }
        split.
        * intros [Hz|[[Hz Hr]|[Hz Hr]]].
          -- right. subst o1. destruct ig; [|by apply elem_of_nil in Hz]. apply elem_of_list_singleton in Hz as ->. split; [by left|]. done.
          -- left. split; [done|]. rewrite Hh2 by done. done.
          -- right. split; [by right|]. done.
        * intros [[Hz Hr]|[[->|Hz] Hr]].
          -- right. left. rewrite Hh2 in Hr by done. done.
          -- left. destruct Hr as [_ Hr]. subst o1. destruct ig; [by left|done].
          -- right. right. done.
      + intros z w. rewrite els_cons, elem_of_cons. cbn [fst]. intros [Hz|[->|Hz]] Hw; [apply Hord; tauto|apply Bx; rewrite F1, F2, !fmap_app, !elem_of_app; tauto|apply Hord; tauto].
  Qed.
  Lemma rest_s_ok s ts o : tinv cmp s ts → ∀ f L R n ln, io ts = L ++ R → (length R < f)%nat → s_asc cmp (els R) → sholds n ln → (∀ x y, x ∈ ln → y ∈ els R → cmp x y < 0) →
    ∃ n', rest_s cmp f (hd R) (s, o, n) = Ok (tt, (s, o, n')) ∧ sholds n' (ln ++ els R).
  Proof using CO.
    intros Hs f. induction f as [|f IH]; intros L R n ln E1 Hf A1 Hn Hln; [lia|]. destruct R as [|[a [x u]] R].
    { exists n. by rewrite app_nil_r. }
    cbn [rest_s hd head fmap option_fmap option_map fst]. change (it_IsValid (Some a)) with true. cbn match. unfold mbind_ at 1. unfold on_s at 1. cbn [fst snd]. rewrite (it_key_hd s ts L a (x, u) R Hs E1). cbn [fst snd].
    rewrite els_cons in *. cbn [fst] in *. apply s_asc_cons in A1 as [A1 B1].
    unfold mbind_ at 1. unfold on_n at 1. cbn [fst snd]. destruct (s_insert n ln x Hn) as (n1 & -> & Hn1). rewrite place_end in Hn1 by (intros z Hz; apply Hln; [done|by left]).
    unfold mbind_ at 1. unfold on_s at 1. cbn [fst snd]. rewrite (it_next_hd s ts L a (x, u) R Hs E1).
    destruct (IH (L ++ [(a, (x, u))]) R n1 (ln ++ [x])) as (n' & -> & Hn'); [by rewrite <-app_assoc|cbn in Hf; lia|done|done| |].
    - intros z w [Hz|Hz]%elem_of_app Hw; [apply Hln; [done|by right]|]. apply elem_of_list_singleton in Hz as ->. by apply B1.
    - exists n'. split; [done|]. by rewrite <-app_assoc in Hn'.
  Qed.
  Lemma rest_o_ok s o to : tinv cmp o to → ∀ f L R n ln, io to = L ++ R → (length R < f)%nat → s_asc cmp (els R) → sholds n ln → (∀ x y, x ∈ ln → y ∈ els R → cmp x y < 0) →
    ∃ n', rest_o cmp f (hd R) (s, o, n) = Ok (tt, (s, o, n')) ∧ sholds n' (ln ++ els R).
  Proof using CO.
    intros Hs f. induction f as [|f IH]; intros L R n ln E1 Hf A1 Hn Hln; [lia|]. destruct R as [|[a [x u]] R].
    { exists n. by rewrite app_nil_r. }
    cbn [rest_o hd head fmap option_fmap option_map fst]. change (it_IsValid (Some a)) with true. cbn match. unfold mbind_ at 1. unfold on_o at 1. cbn [fst snd]. rewrite (it_key_hd o to L a (x, u) R Hs E1). cbn [fst snd].
    rewrite els_cons in *. cbn [fst] in *. apply s_asc_cons in A1 as [A1 B1].
    unfold mbind_ at 1. unfold on_n at 1. cbn [fst snd]. destruct (s_insert n ln x Hn) as (n1 & -> & Hn1). rewrite place_end in Hn1 by (intros z Hz; apply Hln; [done|by left]).
    unfold mbind_ at 1. unfold on_o at 1. cbn [fst snd]. rewrite (it_next_hd o to L a (x, u) R Hs E1).
    destruct (IH (L ++ [(a, (x, u))]) R n1 (ln ++ [x])) as (n' & -> & Hn'); [by rewrite <-app_assoc|cbn in Hf; lia|done|done| |].
    - intros z w [Hz|Hz]%elem_of_app Hw; [apply Hln; [done|by right]|]. apply elem_of_list_singleton in Hz as ->. by apply B1.
    - exists n'. split; [done|]. by rewrite <-app_assoc in Hn'.
  Qed.
End proofs.
