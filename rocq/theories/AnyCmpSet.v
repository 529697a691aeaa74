(** Set and MultiSet with any comparison function: step lemmas. *)
From Verif Require Import Base Wp History RbModel RbTree RbRot RbIns RbIns2 RbDel RbNav RbDel2 RbSpec RbFind RbProps RbApi MapModel MapSpec MapProofs SetModel SetSpec SetProofs AnyCmpRb AnyCmpSpec AnyCmpMap.
Open Scope Z_scope.
Open Scope go_scope.
#[local] Opaque rb_First rb_Last rb_FindNode rb_FindLowerBoundNode rb_FindUpperBoundNode rb_Find rb_Insert rb_Delete rb_Clear rb_Traversal set_value key value next prev rb_Size.

Section sets.
  Context {T W : Type} (cmp : T → T → Z).
  Implicit Types (s : rb T bool) (t : tree T bool) (l : list T).
  Definition seholds s l : Prop := ∃ t, rbinv s t ∧ (io t).*2.*1 = l.
  Lemma seholds_triv s l : seholds s l ↔ sholds triv s l.
  Proof using. split; [intros (t & H & E1); exists t; split; [by apply triv_tinv|done]|intros (t & [H _] & E1); by exists t]. Qed.
  Lemma seholds_a s l : seholds s l ↔ ∃ l2 : list (T * bool), aholds s l2 ∧ l2.*1 = l.
  Proof using. split; [intros (t & H & <-); eexists; split; [by exists t|done]|intros (? & (t & H & <-) & <-); by exists t]. Qed.
  Lemma found_fst (P : T → Prop) (l L R : list (T * bool)) : found (λ kv, P kv.1) l L R → found P l.*1 L.*1 R.*1.
  Proof using. intros [-> H]. split; [by rewrite fmap_app|]. destruct R as [|kv R]; [done|]. cbn. intros x [= <-]. by apply H. Qed.
  Lemma s_search_step (o : set_op T W) s l : set_searching o = true → seholds s l → ∃ r, set_step cmp o s = Ok (r, s) ∧ set_searches cmp o l r.
  Proof using.
    intros Ho (t & H & <-). pose proof (triv_tinv s t H) as Ht. destruct o; try done; cbn [set_step set_searches]; clear Ho.
    - unfold set_Find. unfold mbind_ at 1. destruct (ahd_eq cmp s t x H) as (L & R & -> & E2 & E3). eexists. rewrite (swalk_elem _ _ _ _ _ _ Ht E2). split; [done|]. exists L.*2.*1, R.*2.*1. split; [by apply (found_fst (equ cmp x))|done].
    - unfold set_LowerBound. unfold mbind_ at 1. destruct (ahd_lower cmp s t x H) as (L & R & -> & E2 & E3). eexists. rewrite (swalk_elem _ _ _ _ _ _ Ht E2). split; [done|]. exists L.*2.*1, R.*2.*1. split; [by apply (found_fst (λ y, cmp x y <= 0))|done].
    - unfold set_UpperBound. unfold mbind_ at 1. destruct (ahd_upper cmp s t x H) as (L & R & -> & E2 & E3). eexists. rewrite (swalk_elem _ _ _ _ _ _ Ht E2). split; [done|]. exists L.*2.*1, R.*2.*1. split; [by apply (found_fst (λ y, cmp x y < 0))|done].
    - unfold set_Contains, mbind_. destruct (ahd_find cmp s t x H) as (L & R & -> & E3). eexists. split; [done|]. exists L.*1, R.*1. split; [by apply (found_fst (equ cmp x))|]. by destruct R.
  Qed.
  Definition s_exact (o : set_op T W) : Prop := match o with SInsert _ | SErase _ | SEraseAll _ | SCount _ => False | _ => negb (set_searching o) end.
  Lemma s_exact_step (o : set_op T W) s l : s_exact o → seholds s l →
    (∃ r s' l', set_step cmp o s = Ok (r, s') ∧ s_obs cmp l o = Some (r, l') ∧ seholds s' l') ∨ (set_step cmp o s = Panic ∧ set_panics o l).
  Proof using.
    intros Ho H. assert (set_step cmp o s = set_step triv o s) as -> by by destruct o. apply seholds_triv in H. pose proof (s_obs_agrees triv triv_ok o s l) as Hag.
    assert (s_obs cmp l o = s_obs triv l o) as -> by by destruct o. assert (s_is_obs o) as Hi by by destruct o. specialize (Hag Hi H). unfold agrees in Hag.
    destruct (s_obs triv l o) as [[r l']|] eqn:Eo.
    - destruct Hag as (s' & E1 & H'). left. exists r, s', l'. split_and!; [done|done|by apply seholds_triv].
    - right. split; [done|]. destruct o; try done; cbn in Eo |- *; apply lookup_ge_None; by destruct (l !! i).
  Qed.
  Lemma s_insert_any s t x : rbinv s t → ∃ s' L R, rb_Insert cmp x set_Empty_const s = Ok (tt, s') ∧ (io t).*2.*1 = L ++ R ∧ seholds s' (L ++ x :: R) ∧ between cmp x L R.
  Proof using.
    intros H. destruct (ahd_insert cmp s t x set_Empty_const H) as (s' & t' & L & R & E1 & H' & E2 & E3 & Hb). exists s', L.*1, R.*1. split_and!; [done|by rewrite E2, fmap_app| |done]. exists t'. split; [done|]. by rewrite E3, fmap_app.
  Qed.
  Lemma s_erase_any s t x : rbinv s t → ∃ s' L R, (let! node := rb_FindNode cmp x in match node with Some _ => rb_Delete node | None => mret_ tt end) s = Ok (tt, s') ∧ found (equ cmp x) (io t).*2.*1 L R ∧ seholds s' (L ++ tail R).
  Proof using.
    intros H. unfold mbind_. destruct (ahd_eq cmp s t x H) as (L & R & -> & E2 & E3). destruct (delete_step s t L R H E2) as (s' & E4 & (t' & H' & E5)). pose proof (found_fst (equ cmp x) _ _ _ E3) as E3'.
    destruct R as [|[a kv] R].
    - exists s, L.*2.*1, []. split_and!; [done|done|]. exists t. split; [done|]. by rewrite (proj1 E3').
    - cbn [hd head fmap option_fmap option_map fst] in E4 |- *. rewrite E4. exists s', L.*2.*1, ((a, kv) :: R).*2.*1. split_and!; [done|done|]. exists t'. split; [done|]. rewrite E5, fmap_app. done.
  Qed.
  Lemma set_any (o : set_op T W) s l : seholds s l →
    (∃ r s' l', set_step cmp o s = Ok (r, s') ∧ set_allows cmp o l r l' ∧ seholds s' l') ∨ (set_step cmp o s = Panic ∧ set_panics o l).
  Proof using.
    intros H. destruct (set_searching o) eqn:Es.
    { left. destruct (s_search_step o s l Es H) as (r & E1 & Hr). exists r, s, l. split_and!; [done| |done]. by destruct o. }
    assert (s_exact o ∨ match o with SInsert _ | SErase _ | SEraseAll _ | SCount _ => True | _ => False end) as [Ho|Ho] by (destruct o; cbn in Es |- *; by auto).
    { destruct (s_exact_step o s l Ho H) as [(r & s' & l' & E1 & E2 & H')|Hp]; [left|by right]. exists r, s', l'. split_and!; [done| |done]. by destruct o. }
    left. pose proof H as (t & Ht & <-). destruct o; try done; cbn [set_step set_allows].
    - unfold set_Insert. unfold mbind_ at 1. unfold mbind_ at 1. destruct (ahd_eq cmp s t x Ht) as (L & R & -> & E2 & E3). destruct R as [|[a kv] R]; cbn [hd head fmap option_fmap option_map fst].
      + destruct (s_insert_any s t x Ht) as (s' & L1 & R1 & -> & E4 & H' & Hb). eexists QUnit, s', _. split_and!; [done|done| |exact H']. right. by exists L1, R1.
      + exists QUnit, s, (io t).*2.*1. split_and!; [done|done| |done]. left. split; [done|]. exists kv.1. split; [|by apply (proj2 E3)]. rewrite E2, !fmap_app. apply elem_of_app. right. by left.
    - unfold set_Erase. unfold mbind_ at 1. destruct (s_erase_any s t x Ht) as (s' & L & R & -> & Hf & H'). eexists QUnit, s', _. split_and!; [done|done| |exact H']. by exists L, R.
    - by exists QUnit, s, (io t).*2.*1.
    - by exists QUnit, s, (io t).*2.*1.
  Qed.
  Lemma thin_fst (P : T → Prop) (l l' : list (T * bool)) : thinned (λ kv, P kv.1) l l' → thinned P l.*1 l'.*1.
  Proof using. induction 1; [constructor|by apply thin_keep|by apply thin_drop]. Qed.
  Lemma count_any s t L R x f c : rbinv s t → io t = L ++ R → (length R < f)%nat → ms_count_loop cmp f x (hd R) c s = Ok (c + Z.of_nat (length (filter (λ y, cmp y x = 0) R.*2.*1)), s).
  Proof using.
    intros H. pose proof (ri_rep _ _ H) as Hp. revert L R c. induction f as [|f IH]; intros L R c E1 Hf; [lia|]. destruct R as [|[a [k v]] R]; [cbn; by rewrite Z.add_0_r|]. cbn [ms_count_loop hd head fmap option_fmap option_map fst list_fmap snd].
    unfold mbind_ at 1. rewrite (key_ok _ _ _ _ _ _ _ Hp E1). unfold mbind_ at 1. rewrite (next_ok _ _ _ _ _ _ _ Hp E1). fold (hd R). rewrite (IH (L ++ [(a, (k, v))])); [|by rewrite <-app_assoc|cbn in Hf; lia]. do 2 f_equal.
    rewrite filter_cons. destruct (Z.eqb_spec (cmp k x) 0) as [Hk|Hk]; rewrite ?decide_True, ?decide_False by done; cbn [length]; lia.
  Qed.
  Lemma ms_any (o : set_op T W) s l : seholds s l →
    (∃ r s' l', ms_step cmp o s = Ok (r, s') ∧ ms_allows cmp o l r l' ∧ seholds s' l') ∨ (ms_step cmp o s = Panic ∧ set_panics o l).
  Proof using.
    intros H. destruct (set_searching o) eqn:Es.
    { left. destruct (s_search_step o s l Es H) as (r & E1 & Hr). exists r, s, l. split_and!; [by destruct o| |done]. by destruct o. }
    assert (s_exact o ∨ match o with SInsert _ | SErase _ | SEraseAll _ | SCount _ => True | _ => False end) as [Ho|Ho] by (destruct o; cbn in Es |- *; by auto).
    { assert (ms_step cmp o s = set_step cmp o s) as -> by by destruct o. destruct (s_exact_step o s l Ho H) as [(r & s' & l' & E1 & E2 & H')|Hp]; [left|by right]. exists r, s', l'. split_and!; [done| |done]. by destruct o. }
    left. pose proof H as (t & Ht & <-). destruct o; try done; cbn [ms_step ms_allows].
    - unfold ms_Insert, mbind_. destruct (s_insert_any s t x Ht) as (s' & L1 & R1 & -> & E4 & H' & Hb). eexists QUnit, s', _. split_and!; [done|done| |exact H']. by exists L1, R1.
    - unfold ms_Erase. unfold mbind_ at 1. destruct (s_erase_any s t x Ht) as (s' & L & R & -> & Hf & H'). eexists QUnit, s', _. split_and!; [done|done| |exact H']. by exists L, R.
    - unfold ms_EraseAll. unfold mbind_ at 1. unfold mbind_ at 1. unfold fuel. rewrite ms_loop. destruct (erase_loop_any cmp (S (rb_next s)) x s (io t).*2) as (s' & l' & -> & H' & Hth). { by exists t. } { pose proof (count_ok _ _ (ri_rep _ _ Ht)). rewrite fmap_length. lia. }
      exists QUnit, s', l'.*1. split_and!; [done|done|by apply (thin_fst (equ cmp x))|]. apply seholds_a. by exists l'.
    - unfold ms_Count. unfold mbind_ at 1. unfold mbind_ at 1. rewrite (hd_first _ _ (ri_rep _ _ Ht)). unfold mbind_, fuel. rewrite (count_any s t [] (io t)); [|done|done|pose proof (count_ok _ _ (ri_rep _ _ Ht)); lia]. by eexists _, s, _.
  Qed.
  Lemma seholds_new : seholds (rb_new : rb T bool) []. Proof using. exists E. split; [apply rbinv_new|done]. Qed.
End sets.
