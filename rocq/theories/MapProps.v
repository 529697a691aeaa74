(** Properties C31, C32 and the map part of C36. *)
From Verif Require Import Base Wp History RbModel RbTree RbRot RbIns RbIns2 RbDel RbNav RbDel2 RbSpec RbFind RbProps RbApi MapModel MapSpec MapProofs.
Open Scope Z_scope.
Open Scope go_scope.

Section props.
  Context {K V W : Type} (cmp : K → K → Z) (CO : CmpOK cmp).
  Implicit Types (s : rb K V) (l : list (K * V)) (ops : list (map_op K V W)).
  (** C31: every history of a new map gives the results of the list it denotes, and panics exactly
      where the list says so *)
  Theorem map_is_finite_map ops :
    match srun (map_spec cmp) ops [] with
    | Some (rs, l) => ∃ s, run (map_step cmp) ops map_new = Ok (rs, s)
    | None => run (map_step cmp) ops map_new = Panic
    end.
  Proof using CO.
    pose proof (run_agrees (map_step (W := W) cmp) (map_spec cmp) (mholds cmp) (λ _, True) (λ o s l _ H, map_agrees cmp CO o s l H) ops map_new []) as H.
    unfold agrees in H. destruct (srun (map_spec cmp) ops []) as [[rs l]|]; destruct H as (s & H & _) || idtac; eauto.
    all: try (by apply Forall_forall); try (split; [by apply holds_new|constructor]).
    apply H; [by apply Forall_forall|split; [by apply holds_new|constructor]].
  Qed.
  (** ... that list has strictly ascending keys *)
  Theorem map_ascending ops rs l : srun (map_spec cmp) ops [] = Some (rs, l) → ascending cmp l.
  Proof using CO.
    intros E1. pose proof (run_agrees (map_step (W := W) cmp) (map_spec cmp) (mholds cmp) (λ _, True) (λ o s l _ H, map_agrees cmp CO o s l H) ops map_new []) as H.
    unfold agrees in H. rewrite E1 in H. destruct H as (s & _ & _ & H); [by apply Forall_forall|split; [by apply holds_new|constructor]|done].
  Qed.
  (** what Get k must return after a history of Insert, Erase, Clear and reads *)
  Definition last_write (k : K) (acc : option V) (o : map_op K V W) : option V :=
    match o with
    | MInsert k' v => if cmp k k' =? 0 then Some v else acc
    | MErase k' | MEraseFound k' => if cmp k k' =? 0 then None else acc
    | MClear => None
    | _ => acc
    end.
  Definition by_key (o : map_op K V W) : Prop := match o with MEraseAt _ | MSetAt _ _ => False | _ => True end.
  Lemma is_k_lt k k' (kv : K * V) : cmp k k' = 0 → is_k cmp k kv = is_k cmp k' kv.
  Proof using CO. intros H. unfold is_k. pose proof (cmp_eq_l _ CO k k' kv.1 H). lia. Qed.
  Lemma lookup_upsert k k' v l : ascending cmp l → lookup_k cmp k (upsert cmp k' v l) = if cmp k k' =? 0 then Some v else lookup_k cmp k l.
  Proof using CO.
    unfold lookup_k. induction l as [|[k1 v1] l IH]; intros Ha; cbn [upsert suffix].
    - cbn. unfold is_k. cbn. by destruct (cmp k k' =? 0).
    - apply asc_inv in Ha as [Ha Hlt]. destruct (Z.eqb_spec (cmp k' k1) 0) as [He|Hne]; [|destruct (Z.ltb_spec (cmp k' k1) 0) as [Hl|Hg]]; cbn [suffix]; unfold is_k at 1; cbn [fst].
      + pose proof (cmp_eq_r _ CO k' k1 k He). destruct (Z.eqb_spec (cmp k k1) 0), (Z.eqb_spec (cmp k k') 0); try lia; [done|]. unfold is_k at 2. cbn [fst]. by rewrite (proj2 (Z.eqb_neq _ _)) by done.
      + destruct (Z.eqb_spec (cmp k k') 0) as [Hk|Hk]; [done|]. cbn [suffix]. done.
      + destruct (Z.eqb_spec (cmp k k1) 0) as [Hk|Hk].
        * destruct (Z.eqb_spec (cmp k k') 0) as [Hk'|Hk']. { pose proof (cmp_eq_l _ CO k k' k1 Hk'). lia. } unfold is_k. cbn [fst]. by rewrite (proj2 (Z.eqb_eq _ _) Hk).
        * rewrite IH by done. unfold is_k at 2. cbn [fst]. by rewrite (proj2 (Z.eqb_neq _ _) Hk).
  Qed.
  Lemma lookup_erase k k' l : lookup_k cmp k (erase_k cmp k' l) = if cmp k k' =? 0 then None else lookup_k cmp k l.
  Proof using CO.
    unfold lookup_k, erase_k. induction l as [|[k1 v1] l IH]; [by destruct (cmp k k' =? 0)|]. rewrite filter_cons. destruct (decide (¬ is_k cmp k' (k1, v1))) as [Hn|Hn]; cbn [suffix].
    - destruct (is_k cmp k (k1, v1)) eqn:Ek; [|done]. destruct (Z.eqb_spec (cmp k k') 0) as [Hk|Hk]; [|done]. rewrite (is_k_lt _ _ _ Hk) in Ek. rewrite Ek in Hn. by destruct Hn.
    - rewrite IH. destruct (Z.eqb_spec (cmp k k') 0) as [Hk|Hk]; [done|]. unfold is_k in *. cbn [fst] in *. destruct (Z.eqb_spec (cmp k k1) 0) as [Hk1|]; [|done]. exfalso. apply Hn. intros Hi. destruct (Z.eqb_spec (cmp k' k1) 0) as [Hz|]; [|done].
      apply Hk. apply (cmp_eq_trans _ CO k k1 k' Hk1). by apply cmp_flip_eq.
  Qed.
  Theorem map_get_last_write ops k : Forall by_key ops → ∀ rs s, run (map_step cmp) (ops ++ [MGet k]) map_new = Ok (rs, s) → last rs = Some (ROpt (foldl (last_write k) None ops)).
  Proof using CO.
    intros Hb rs s E1. pose proof (map_is_finite_map (ops ++ [MGet k])) as H.
    assert (∀ ops l, Forall by_key ops → ascending cmp l → match srun (map_spec cmp) (ops ++ [MGet k]) l with Some (rs, _) => last rs = Some (ROpt (foldl (last_write k) (lookup_k cmp k l) ops)) | None => True end) as Hs.
    { clear - CO. intros ops. induction ops as [|o ops IH]; intros l Hb Ha; [done|]. apply Forall_cons in Hb as [Hb1 Hb2]. cbn [srun app foldl].
      destruct (map_spec cmp o l) as [[r l']|] eqn:Eo; [|done].
      assert (ascending cmp l' ∧ lookup_k cmp k l' = last_write k (lookup_k cmp k l) o) as [Ha' Hl'].
      { destruct o; cbn in Hb1; try done; cbn in Eo; try (injection Eo as <- <-); cbn [last_write]; try done.
        - split; [by apply upsert_asc|by apply lookup_upsert].
        - split; [by apply filter_asc|by apply lookup_erase].
        - split; [by apply filter_asc|by apply lookup_erase].
        - destruct (l !! i); [|done]. cbn in Eo. by injection Eo as <- <-.
        - destruct (l !! i); [|done]. cbn in Eo. by injection Eo as <- <-.
        - split; [constructor|done]. }
      specialize (IH l' Hb2 Ha'). destruct (srun (map_spec cmp) (ops ++ [MGet k]) l') as [[rs l'']|] eqn:Er; [|done]. rewrite <-Hl', <-IH. destruct rs; [|done].
      exfalso. clear - Er. destruct ops as [|o1 ops]; cbn in Er; [done|]. destruct (map_spec cmp o1 l') as [[? ?]|]; [|done]. by destruct (srun _ _ _) as [[? ?]|]. }
    specialize (Hs ops [] Hb ltac:(constructor)). destruct (srun (map_spec cmp) (ops ++ [MGet k]) []) as [[rs' l']|].
    - destruct H as (s' & E2). rewrite E1 in E2. injection E2 as <- <-. done.
    - congruence.
  Qed.

  (** C32 *)
  Theorem multimap_is_ordered_bag ops :
    match srun (mm_spec cmp) ops [] with
    | Some (rs, l) => ∃ s, run (mm_step cmp) ops map_new = Ok (rs, s)
    | None => run (mm_step cmp) ops map_new = Panic
    end.
  Proof using CO.
    pose proof (run_agrees (mm_step (W := W) cmp) (mm_spec cmp) (holds cmp) (λ _, True) (λ o s l _ H, mm_agrees cmp CO o s l H) ops map_new []) as H.
    unfold agrees in H. destruct (srun (mm_spec cmp) ops []) as [[rs l]|]; [destruct H as (s & H & _); [by apply Forall_forall|by apply holds_new|eauto]|apply H; [by apply Forall_forall|by apply holds_new]].
  Qed.
  (** the pairs inserted and not erased, in the order of their insertion *)
  Definition kept (acc : list (K * V)) (o : map_op K V W) : list (K * V) :=
    match o with MInsert k v => acc ++ [(k, v)] | MErase k => filter (λ kv, cmp k kv.1 ≠ 0) acc | MClear => [] | _ => acc end.
  Lemma add_after_perm k v l : add_after cmp k v l ≡ₚ l ++ [(k, v)].
  Proof using. clear CO. induction l as [|[k' v'] l IH]; cbn; [done|]. destruct (cmp k k' <? 0); [|by rewrite IH]. apply (Permutation_cons_append ((k', v') :: l) (k, v)). Qed.
  Lemma add_after_sorted k v l : sorted cmp l → sorted cmp (add_after cmp k v l).
  Proof using CO.
    unfold sorted. induction l as [|[k' v'] l IH]; cbn; intros H. { apply SS_cons. split; [constructor|]. intros y Hy. by apply elem_of_nil in Hy. }
    apply SS_cons in H as [H1 H2]. destruct (Z.ltb_spec (cmp k k') 0) as [Hl|Hg]; apply SS_cons.
    - split; [by apply SS_cons|]. intros y [->|Hy]%elem_of_cons; cbn; [lia|]. specialize (H2 y Hy). cbn in H2. pose proof (cmp_lt_le_trans _ CO _ _ _ Hl H2). lia.
    - split; [by apply IH|]. intros y Hy. rewrite add_after_perm in Hy. apply elem_of_app in Hy as [Hy| ->%elem_of_list_singleton]; [by apply H2|]. cbn. by apply cmp_flip_le.
  Qed.
  Lemma filter_sorted (P : K * V → Prop) `{∀ x, Decision (P x)} l : sorted cmp l → sorted cmp (filter P l).
  Proof using. unfold sorted. induction 1 as [|x l Hs IH Hf]; [constructor|]. rewrite filter_cons. destruct (decide (P x)); [|done]. constructor; [done|]. rewrite Forall_forall in *. intros y [? Hy]%elem_of_list_filter. auto. Qed.
  Lemma add_after_filter k k' v l : sorted cmp l → filter (λ kv, cmp k kv.1 = 0) (add_after cmp k' v l) = filter (λ kv, cmp k kv.1 = 0) (l ++ [(k', v)]).
  Proof using CO.
    unfold sorted. induction l as [|[k1 v1] l IH]; cbn [add_after app]; intros H; [done|]. apply SS_cons in H as [H1 H2]. destruct (Z.ltb_spec (cmp k' k1) 0) as [Hl|Hg].
    - assert (cmp k k' = 0 → filter (λ kv : K * V, cmp k kv.1 = 0) ((k1, v1) :: l) = []) as Hno.
      { intros Hk. assert (∀ y, y ∈ (k1, v1) :: l → cmp k y.1 ≠ 0) as Hy. { intros y [->|Hy]%elem_of_cons; cbn; pose proof (cmp_eq_l _ CO k k' k1 Hk); [lia|]. specialize (H2 y Hy). cbn in H2. pose proof (cmp_lt_le_trans _ CO _ _ _ Hl H2). pose proof (cmp_eq_l _ CO k k' y.1 Hk). lia. }
        revert Hy. generalize ((k1, v1) :: l). intros l0 Hy. induction l0 as [|z l0 IH0]; [done|]. rewrite filter_cons_False; [apply IH0; intros y Hy0; apply Hy; by right|]. apply Hy. by left. }
      change ((k1, v1) :: l ++ [(k', v)]) with (((k1, v1) :: l) ++ [(k', v)]). rewrite filter_app. rewrite filter_cons at 1. rewrite (filter_cons _ (k', v) []). cbn [fst]. destruct (decide (cmp k k' = 0)) as [Hk|Hk]; [rewrite (Hno Hk); done|]. by rewrite app_nil_r.
    - rewrite !filter_cons. rewrite (IH H1). done.
  Qed.
  (** A multimap's contents, after any history: the pairs kept, sorted by key, equal keys in the
      order of insertion.  (MSetAt rewrites values in place and is left out.) *)
  Theorem multimap_insertion_order ops rs l : Forall by_key ops → srun (mm_spec cmp) ops [] = Some (rs, l) →
    sorted cmp l ∧ l ≡ₚ foldl kept [] ops ∧ ∀ k, filter (λ kv, cmp k kv.1 = 0) l = filter (λ kv, cmp k kv.1 = 0) (foldl kept [] ops).
  Proof using CO.
    assert (∀ ops l a rs l', Forall by_key ops → sorted cmp l → l ≡ₚ a → (∀ k, filter (λ kv, cmp k kv.1 = 0) l = filter (λ kv, cmp k kv.1 = 0) a) → srun (mm_spec cmp) ops l = Some (rs, l') →
      sorted cmp l' ∧ l' ≡ₚ foldl kept a ops ∧ ∀ k, filter (λ kv, cmp k kv.1 = 0) l' = filter (λ kv, cmp k kv.1 = 0) (foldl kept a ops)) as Hg; [|intros Hb E1; apply (Hg ops [] [] rs l); try done; constructor].
    clear ops rs l. intros ops. induction ops as [|o ops IH]; intros l a rs l' Hb Hs Hp Hf E1; cbn in E1; [by injection E1 as <- <-|]. apply Forall_cons in Hb as [Hb1 Hb2].
    destruct (mm_spec cmp o l) as [[r l1]|] eqn:Eo; [|done]. destruct (srun (mm_spec cmp) ops l1) as [[rs1 l2]|] eqn:Er; [|done]. injection E1 as <- <-. cbn [foldl].
    assert (sorted cmp l1 ∧ l1 ≡ₚ kept a o ∧ ∀ k, filter (λ kv, cmp k kv.1 = 0) l1 = filter (λ kv, cmp k kv.1 = 0) (kept a o)) as (H1 & H2 & H3); [|by eapply IH].
    destruct o; cbn in Hb1; try done; cbn in Eo; try (injection Eo as <- <-); cbn [kept]; try done.
    - split_and!; [by apply add_after_sorted|by rewrite add_after_perm, Hp|]. intros k0. rewrite add_after_filter, !filter_app by done. by rewrite Hf.
    - assert (erase_k cmp k l = filter (λ kv, cmp k kv.1 ≠ 0) l) as ->. { unfold erase_k. apply list_filter_iff. intros x. unfold is_k. destruct (Z.eqb_spec (cmp k x.1) 0); naive_solver. }
      split_and!; [by apply filter_sorted|by rewrite Hp|]. intros k0. rewrite !list_filter_filter.
      assert (∀ l0 : list (K * V), filter (λ x, cmp k0 x.1 = 0 ∧ cmp k x.1 ≠ 0) l0 = filter (λ x, cmp k x.1 ≠ 0) (filter (λ x, cmp k0 x.1 = 0) l0)) as Hc. { intros l0. rewrite list_filter_filter. apply list_filter_iff. tauto. }
      rewrite !Hc. by rewrite Hf.
    - destruct (l !! i); [|done]. cbn in Eo. by injection Eo as <- <-.
    - destruct (l !! i); [|done]. cbn in Eo. by injection Eo as <- <-.
    - split_and!; [constructor|done|done].
  Qed.

  (** C36 for Map: an iterator taken in any map keeps its key through any insertions, and its value
      until an equal key is inserted *)
  Fixpoint map_inserts (kvs : list (K * V)) : M (rb K V) unit :=
    match kvs with [] => mret_ tt | kv :: kvs => map_Insert cmp kv.1 kv.2 ;; map_inserts kvs end.
  Definition overwritten (k : K) (v : V) (kvs : list (K * V)) : V := foldl (λ v kv, if cmp kv.1 k =? 0 then kv.2 else v) v kvs.
  #[local] Opaque rb_FindNode rb_Insert set_value key value.
  Theorem map_iterators_survive_insertions ops rs s i a k v : run (map_step cmp) ops map_new = Ok (rs, s) →
    (let! p := map_Begin in times i mi_Next p) s = Ok (Some a, s) → mi_Key (Some a) s = Ok (k, s) → mi_Value (Some a) s = Ok (v, s) →
    ∀ kvs, ∃ s', map_inserts kvs s = Ok (tt, s') ∧ mi_Key (Some a) s' = Ok (k, s') ∧ mi_Value (Some a) s' = Ok (overwritten k v kvs, s')
      ∧ ∃ j, (let! p := map_Begin in times j mi_Next p) s' = Ok (Some a, s').
  Proof using CO.
    intros E1 Ei Ek Ev.
    assert (∃ t, tinv cmp s t ∧ ascending cmp (io t).*2) as (t & Ht & Ha).
    { pose proof (run_agrees (map_step (W := W) cmp) (map_spec cmp) (mholds cmp) (λ _, True) (λ o s l _ H, map_agrees cmp CO o s l H) ops map_new []) as H. unfold agrees in H.
      destruct (srun (map_spec cmp) ops []) as [[rs' l]|]; [destruct H as (s' & E2 & (t & Ht & <-) & Ha); [by apply Forall_forall|split; [by apply holds_new|constructor]|]|rewrite H in E1; [done|by apply Forall_forall|split; [by apply holds_new|constructor]]].
      rewrite E1 in E2. injection E2 as <- <-. by exists t. }
    assert (∃ L R, io t = L ++ (a, (k, v)) :: R) as Hin.
    { pose proof (tinv_rep _ _ _ Ht) as Hp. unfold mbind_ at 1 in Ei. unfold map_Begin in Ei. rewrite (hd_first _ _ Hp), (walk_ok cmp s t [] (io t) i Ht eq_refl) in Ei. injection Ei as Ei. unfold hd in Ei. rewrite nth_cons_hd in Ei. destruct (io t !! i) as [[b [k' v']]|] eqn:El; [|done]. cbn in Ei. injection Ei as ->.
      pose proof (split_at _ _ _ El) as E2. unfold mi_Key in Ek. unfold mi_Value in Ev. rewrite (key_ok _ _ _ _ _ _ _ Hp E2) in Ek. rewrite (value_ok _ _ _ _ _ _ _ Hp E2) in Ev. injection Ek as ->. injection Ev as ->. eauto. }
    clear E1 Ei Ek Ev ops rs i. intros kvs. revert s t v Ht Ha Hin. induction kvs as [|[k1 v1] kvs IH]; intros s t v Ht Ha (L & R & E1); cbn [map_inserts].
    - exists s. pose proof (tinv_rep _ _ _ Ht) as Hp. split_and!; [done|by eapply key_ok|by eapply value_ok|]. exists (length L). unfold mbind_, map_Begin. rewrite (hd_first _ _ Hp), (walk_ok cmp s t [] (io t) _ Ht eq_refl). unfold hd. rewrite nth_cons_hd, E1, list_lookup_middle by done. done.
    - unfold mbind_ at 1. unfold map_Insert at 1. unfold mbind_ at 1. cbn [fst snd]. destruct (hd_search_eq cmp CO s t k1 Ht) as (L1 & R1 & E2 & E3 & E4 & E5 & E6). rewrite E2.
      destruct R1 as [|[b [k2 v2]] R1]; cbn [hd head fmap option_fmap option_map fst].
      + destruct (insert_tinv cmp CO s t k1 v1 Ht) as (s1 & t1 & L2 & R2 & -> & Ht1 & E7 & E8 & _ & HL & HR). rewrite app_nil_r in E3. subst L1.
        assert (cmp k1 k ≠ 0) as Hk. { rewrite E1 in E5. apply Forall_app in E5 as [_ E5]. apply Forall_cons in E5 as [E5 _]. done. }
        apply (IH s1 t1 v) in Ht1 as (s' & E9 & H1 & H2 & H3).
        * exists s'. split_and!; [done|done| |done]. rewrite H2. unfold overwritten. cbn [foldl fst]. by rewrite (proj2 (Z.eqb_neq _ _) Hk).
        * rewrite E8, fmap_app, fmap_cons. cbn [snd]. rewrite E7, fmap_app in Ha. unfold ascending in *. apply SS_app in Ha as (A1 & A2 & A3). apply SS_app. split_and!; [done|apply SS_cons; split; [done|intros y (z & -> & Hz)%elem_of_list_fmap; by apply HR]|].
          intros x y Hx [->|Hy]%elem_of_cons; [|by apply A3]. apply elem_of_list_fmap in Hx as (z & -> & Hz). cbn. specialize (HL z Hz). assert (cmp k1 z.2.1 ≠ 0) as Hn. { rewrite Forall_forall in E5. apply E5. rewrite E7. apply elem_of_app. by left. } pose proof (proj1 (cmp_flip_eq _ CO k1 z.2.1)). pose proof (proj2 (cmp_flip_eq _ CO k1 z.2.1)). lia.
        * rewrite E8. assert ((a, (k, v)) ∈ io t) as Hi by (rewrite E1; apply elem_of_app; right; by left). rewrite E7 in Hi. apply elem_of_list_split. apply elem_of_app in Hi as [Hi|Hi]; apply elem_of_app; [by left|right; by right].
      + destruct (hd_setval cmp CO s t L1 b (k2, v2) R1 v1 Ht E3) as (s1 & t1 & E7 & Ht1 & E8). cbn [hd head fmap option_fmap option_map fst] in E7. rewrite E7. cbn in E6.
        assert (ascending cmp (io t1).*2) as Ha1. { rewrite E8. rewrite E3 in Ha. rewrite fmap_app, fmap_cons in Ha |- *. unfold ascending in *. apply SS_app in Ha as (A1 & A2 & A3). apply SS_cons in A2 as [A2 A4]. apply SS_app. split_and!; [done|apply SS_cons; split; [done|exact A4]|]. intros x y Hx [->|Hy]%elem_of_cons; [|apply A3; [done|by right]]. apply (A3 x (k2, v2) Hx). by left. }
        assert (((a, (k, v)) = (b, (k2, v2)) ∧ cmp k1 k = 0) ∨ ((a, (k, v)) ∈ L1 ++ R1 ∧ cmp k1 k ≠ 0)) as [[[= -> -> ->] Hk]|[Hi Hk]].
        { assert ((a, (k, v)) ∈ io t) as Hi by (rewrite E1; apply elem_of_app; right; by left). rewrite E3 in Ha, Hi. rewrite fmap_app, fmap_cons in Ha. apply asc_mid in Ha as (A1 & A2 & _).
          apply elem_of_app in Hi as [Hi|[Hi|Hi]%elem_of_cons].
          - right. split; [apply elem_of_app; by left|]. rewrite Forall_forall in E5. by apply (E5 _ Hi).
          - left. split; [done|]. by injection Hi as -> -> ->.
          - right. split; [apply elem_of_app; by right|]. specialize (A2 (k, v) (proj2 (elem_of_list_fmap _ _ _) (ex_intro _ _ (conj eq_refl Hi)))). cbn in A2. pose proof (cmp_eq_l _ CO k1 k2 k E6). lia. }
        * apply (IH s1 t1 v1) in Ht1 as (s' & E9 & H1 & H2 & H3); [|done|by exists L1, R1]. exists s'. split_and!; [done|done| |done]. rewrite H2. unfold overwritten. cbn [foldl fst snd]. by rewrite (proj2 (Z.eqb_eq _ _) Hk).
        * apply (IH s1 t1 v) in Ht1 as (s' & E9 & H1 & H2 & H3); [|done|]. { exists s'. split_and!; [done|done| |done]. rewrite H2. unfold overwritten. cbn [foldl fst snd]. by rewrite (proj2 (Z.eqb_neq _ _) Hk). }
          rewrite E8. apply elem_of_list_split. apply elem_of_app in Hi as [Hi|Hi]; apply elem_of_app; [by left|right; by right].
  Qed.
End props.
Print Assumptions map_is_finite_map. Print Assumptions map_ascending. Print Assumptions map_get_last_write.
Print Assumptions multimap_is_ordered_bag. Print Assumptions multimap_insertion_order. Print Assumptions map_iterators_survive_insertions.

(** concrete histories *)
Definition demo : list (map_op Z Z Z) :=
  [MInsert 2 20; MInsert 1 10; MInsert 3 30; MInsert 2 21; MGet 2; MErase 1; MEraseAt 1; MFwd 0; MFwd 1; MLower 3 0; MSize; MTraverse (λ k v w, (true, w + v)) 0].
Example demo_map : ∃ s, run (map_step zc) demo map_new = Ok ([RUnit; RUnit; RUnit; RUnit; ROpt (Some 21); RUnit; RUnit; REnt (Some (2, 21)); REnt None; REnt None; RInt 1; RVis 21], s).
Proof. eexists. by vm_compute. Qed.
Example demo_multimap : ∃ s, run (mm_step zc) demo map_new = Ok ([RUnit; RUnit; RUnit; RUnit; ROpt (Some 20); RUnit; RUnit; REnt (Some (2, 20)); REnt (Some (2, 21)); REnt (Some (3, 30)); RInt 3; RVis 71], s).
Proof. eexists. by vm_compute. Qed.
Example demo_panic : run (map_step (W := Z) zc) [MInsert 1 1; MKeyAt 1] map_new = Panic.
Proof. by vm_compute. Qed.
Example demo_by_key : Forall by_key [MInsert 2 20; MErase 1; MGet 2 : map_op Z Z Z]. Proof. by repeat constructor. Qed.
Example demo_iterator : ∃ rs s, run (map_step (W := Z) zc) [MInsert 2 20; MInsert 1 10] map_new = Ok (rs, s) ∧ (mbind_ map_Begin (times 1 mi_Next)) s = Ok (Some 0%nat, s) ∧ mi_Key (Some 0%nat) s = Ok (2, s) ∧ mi_Value (Some 0%nat) s = Ok (20, s).
Proof. eexists _, _. split; [by vm_compute|]. by vm_compute. Qed.
