(** C81: step lemmas for Map, MultiMap, Set and MultiSet. *)
From Verif Require Import Base Wp History RbModel RbTree RbRot RbIns RbIns2 RbDel RbNav RbDel2 RbSpec RbFind RbProps RbApi MapModel MapSpec MapProofs SetModel SetSpec SetProofs ConcRo CrashModel CrashSpec CrashProofs CrashShift.
Open Scope Z_scope.
Open Scope go_scope.
Open Scope x_scope.

Section attempts.
  Context {S C A O R : Type} (x : O → X (S * C) R) (m : O → M S R) (spec : O → A → option (R * A)) (may : O → Prop) (partway : O → A → A → Prop) (rel : S → A → Prop).
  Lemma attempts_recovered : (∀ o s a, rel s a → agrees rel (m o s) (spec o a) ∧ cr (λ s', ∃ a', partway o a a' ∧ rel s' a') (may o) (x o) (m o) s) →
    ∀ ops s a c, rel s a → ∃ rs s' c' a', attempts x ops (s, c) = Some (rs, (s', c')) ∧ recovered spec may partway ops a rs a' ∧ rel s' a'.
  Proof.
    intros Hst ops. induction ops as [|o ops IH]; intros s a c Hr. { exists [], s, c, a. split_and!; [done|constructor|done]. }
    destruct (Hst o s a Hr) as [H1 H2]. specialize (H2 c). cbn [attempts]. unfold agrees in H1.
    assert (∀ s1 c1 a1, (spec o a = None ∨ may o) → x o (s, c) = (Panic, (s1, c1)) → partway o a a1 → rel s1 a1 → ∃ rs s' c' a', match x o (s, c) with (Ok r, s') => (λ p, (Answer r :: p.1, p.2)) <$> attempts x ops s' | (Panic, s') => (λ p, (Recovered :: p.1, p.2)) <$> attempts x ops s' | (Fuel, _) => None end = Some (rs, (s', c')) ∧ recovered spec may partway (o :: ops) a rs a' ∧ rel s' a') as Hp.
    { intros s1 c1 a1 Hm -> Hp Hr1. destruct (IH s1 a1 c1 Hr1) as (rs & s' & c' & a' & E1 & Hrec & Hr'). exists (Recovered :: rs), s', c', a'. rewrite E1. split_and!; [done|by eapply rec_panic|done]. }
    destruct (spec o a) as [[r a1]|] eqn:Es.
    - destruct H1 as (s1 & E1 & Hr1). rewrite E1 in H2. destruct H2 as [(c1 & E2)|(Hm & s2 & c2 & E2 & a2 & Hp2 & Hr2)]; [|by eapply Hp; eauto].
      destruct (IH s1 a1 c1 Hr1) as (rs & s' & c' & a' & E3 & Hrec & Hr'). exists (Answer r :: rs), s', c', a'. rewrite E2, E3. split_and!; [done|by eapply rec_answer|done].
    - rewrite H1 in H2. destruct H2 as (s2 & c2 & E2 & a2 & Hp2 & Hr2). eapply Hp; eauto.
  Qed.
End attempts.

Lemma dropped_more {A} (P : A → Prop) `{∀ x, Decision (P x)} L x R l : Forall (λ x, ¬ P x) L → P x → front_dropped P (L ++ R) l → front_dropped P (L ++ x :: R) l.
Proof.
  intros HL Hx (F & G & E1 & ->). assert (∀ L, Forall (λ x, ¬ P x) L → filter (λ x, ¬ P x) L = L) as Hf. { clear. intros L. induction 1 as [|y L Hy _ IH]; [done|]. rewrite filter_cons_True by done. by f_equal. }
  apply app_eq_inv in E1 as [(M & -> & ->)|(M & -> & ->)].
  - rewrite Forall_app in HL. destruct HL as [HF HM]. exists ((F ++ M) ++ [x]), R. split; [by rewrite <- !app_assoc|]. rewrite filter_app, (Hf (F ++ M)) by (by apply Forall_app). rewrite filter_cons_False by (by intros ?). rewrite (Hf F HF). cbn. by rewrite app_nil_r, <- app_assoc.
  - exists (L ++ x :: M), G. split; [by rewrite <- app_assoc|]. rewrite !filter_app, filter_cons_False by (by intros ?). done.
Qed.
Section maps.
  Context {K V W C : Type} (u : user_cmp K C) (cmp : K → K → Z) (CO : CmpOK cmp) (Hu : agrees_with u cmp).
  Implicit Types (s : rb K V) (t : tree K V) (l : list (K * V)).
  Notation op := (map_op K V W).
  Notation same s0 := (λ s, s = s0).
  Definition mayp (o : op) : Prop := map_compares o = true ∧ can_panic u.
  #[local] Hint Resolve ro_get ro_root ro_size ro_fuel_ ro_parent ro_left ro_right ro_key ro_value ro_first ro_last ro_next ro_lower ro_upper ro_findnode ro_find : ro.
  Ltac after_find := eapply cr_bind; [eapply cr_weak; [apply c_findnode; exact Hu|done|done]|].

  Lemma c_map (o : op) s (ip : rb K V → Prop) : (∀ s', s' = s → ip s') →
    (∀ k v, o = MInsert k v → cr ip (can_panic u) (x_insert u k v) (rb_Insert cmp k v) s) →
    cr ip (mayp o) (x_map_step u o) (map_step cmp o) s.
  Proof using Hu.
    intros Hip Hins.
    assert (∀ A (x : X (rb K V * C) A) (m : M (rb K V) A), cr (same s) (can_panic u) x m s → mayp o = (true = true ∧ can_panic u) → cr ip (mayp o) x m s) as Hw.
    { intros A x m H E1. eapply cr_weak; [exact H|done|]. intros Hc. by rewrite E1. }
    destruct o; cbn [x_map_step map_step]; try (apply cr_run; intros; by apply Hip).
    - (* MInsert *) unfold x_map_Insert, map_Insert. apply cr_bind; [|intros; apply cr_ret].
      apply cr_bind; [apply Hw; [by apply c_findnode|done]|]. intros n s1 E. pose proof (ro_findnode cmp _ _ _ _ E). subst s1. destruct n as [a|].
      + apply cr_run. intros. by apply Hip.
      + eapply cr_weak; [by apply Hins|done|done].
    - unfold x_map_Get, map_Get. apply cr_bind; [|intros; apply cr_ret]. apply cr_bind; [apply Hw; [by apply c_findnode|done]|]. intros n s1 E. pose proof (ro_findnode cmp _ _ _ _ E). subst s1.
      destruct n; [|apply cr_ret]. apply cr_read; [by apply Hip|auto with ro|intros; apply cr_ret].
    - unfold x_map_Erase, map_Erase. apply cr_bind; [|intros; apply cr_ret]. apply cr_bind; [apply Hw; [by apply c_findnode|done]|]. intros n s1 E. pose proof (ro_findnode cmp _ _ _ _ E). subst s1.
      destruct n; [|apply cr_ret]. apply cr_run. intros. by apply Hip.
    - unfold map_Find. apply cr_bind; [apply Hw; [by apply c_findnode|done]|]. intros n s1 E. pose proof (ro_findnode cmp _ _ _ _ E). subst s1. apply cr_run. intros. by apply Hip.
    - unfold map_Find. apply cr_bind; [apply Hw; [by apply c_findnode|done]|]. intros n s1 E. pose proof (ro_findnode cmp _ _ _ _ E). subst s1. apply cr_run. intros. by apply Hip.
    - unfold map_LowerBound. apply cr_bind; [apply Hw; [by apply c_lower|done]|]. intros n s1 E. pose proof (ro_lower cmp _ _ _ _ E). subst s1. apply cr_run. intros. by apply Hip.
    - unfold map_UpperBound. apply cr_bind; [apply Hw; [by apply c_upper|done]|]. intros n s1 E. pose proof (ro_upper cmp _ _ _ _ E). subst s1. apply cr_run. intros. by apply Hip.
    - unfold x_map_Contains, map_Contains. apply cr_bind; [|intros; apply cr_ret]. apply cr_bind; [apply Hw; [by apply c_find|done]|]. intros n s1 E. apply cr_ret.
  Qed.
  (** nodes that are not linked do not matter *)
  Lemma tinv_garbage s t n : tinv cmp s t → tinv cmp (MkRb (<[rb_next s := n]> (rb_heap s)) (S (rb_next s)) (rb_root s) (rb_size s)) t.
  Proof using.
    clear. intros [[[H1 H2 H3 H4] Hb Hz] Hs]. split; [|done]. split; [|done|done]. split; cbn; [|done|done|].
    - apply rep_insert; [|done]. intros Hin. rewrite Forall_forall in H4. specialize (H4 _ Hin). lia.
    - eapply Forall_impl; [exact H4|]. cbn. lia.
  Qed.
  Definition drel s (a : list (K * V) * nat) : Prop := ∃ s0, holds cmp s0 a.1 ∧ s = shift (Z.of_nat a.2) s0.
  Lemma drel_counted k v s l d s' : drel s (l, d) → counted k v s s' → ∃ d', drel s' (l, d') ∧ (d' = d ∨ d' = S d).
  Proof using.
    clear. intros (s0 & (t & Ht & El) & ->) [-> | (y & ->)]; [exists d; split; [|by left]; exists s0; split; [by exists t|done]|].
    exists (S d). split; [|by right]. eexists. split; [exists t; split; [by apply (tinv_garbage s0 t (MkNode y None None RED k v))|done]|].
    unfold shift. cbn [rb_heap rb_next rb_root rb_size fst snd]. f_equal. lia.
  Qed.
  Lemma agrees_sh {A : Type} (rel0 : rb K V → A → Prop) d (r : res (map_res K V W * rb K V)) sp : agrees rel0 r sp →
    agrees (λ s a, ∃ s0, rel0 s0 a.1 ∧ s = shift (Z.of_nat a.2) s0) (shr (Z.of_nat d) r) ((λ p, (p.1, (p.2, d))) <$> sp).
  Proof using. clear. unfold agrees. destruct sp as [[r' a]|]; cbn; [intros (s' & -> & H); eexists; split; [done|]; by exists s'|by intros ->]. Qed.
  Definition mrel s (a : list (K * V) * nat) : Prop := ∃ s0, mholds cmp s0 a.1 ∧ s = shift (Z.of_nat a.2) s0.
  Lemma map_surplus (o : op) s a : mrel s a → agrees mrel (map_step cmp o s) (surplus (map_spec cmp) o a).
  Proof using CO.
    destruct a as [l d]. intros (s0 & Hh & ->). pose proof (map_agrees cmp CO o s0 l Hh) as H.
    destruct (sized o) eqn:Es.
    - destruct o; try done; cbn in Hh.
      + cbn [surplus]. exists (MkRb (rb_heap s0) (rb_next s0) None 0). split; [done|]. destruct H as (s' & E & H). cbn in E. injection E as <-. exists (MkRb (rb_heap s0) (rb_next s0) None 0). split; [done|]. by rewrite shift_0.
      + cbn [surplus fst snd]. destruct H as (s' & E & H). cbn in E. injection E as E <-. exists (shift (Z.of_nat d) s0). split; [|by exists s0]. change (Ok (RInt (W := W) (K := K) (V := V) (rb_size s0 + Z.of_nat d), shift (Z.of_nat d) s0) = Ok (RInt (Z.of_nat (length l + d)), shift (Z.of_nat d) s0)). by rewrite E, Nat2Z.inj_add.
    - rewrite (sh_map cmp o Es). replace (surplus (map_spec cmp) o (l, d)) with ((λ p : map_res K V W * list (K * V), (p.1, (p.2, d))) <$> map_spec cmp o l) by by destruct o. by apply agrees_sh.
  Qed.
  Lemma mm_surplus (o : op) s a : drel s a → agrees drel (mm_step cmp o s) (surplus (mm_spec cmp) o a).
  Proof using CO.
    destruct a as [l d]. intros (s0 & Hh & ->). pose proof (mm_agrees cmp CO o s0 l Hh) as H.
    destruct (sized o) eqn:Es.
    - destruct o; try done; cbn in Hh.
      + cbn [surplus]. exists (MkRb (rb_heap s0) (rb_next s0) None 0). split; [done|]. destruct H as (s' & E & H). cbn in E. injection E as <-. exists (MkRb (rb_heap s0) (rb_next s0) None 0). split; [done|]. by rewrite shift_0.
      + cbn [surplus fst snd]. destruct H as (s' & E & H). cbn in E. injection E as E <-. exists (shift (Z.of_nat d) s0). split; [|by exists s0]. change (Ok (RInt (W := W) (K := K) (V := V) (rb_size s0 + Z.of_nat d), shift (Z.of_nat d) s0) = Ok (RInt (Z.of_nat (length l + d)), shift (Z.of_nat d) s0)). by rewrite E, Nat2Z.inj_add.
    - rewrite (sh_mm cmp o Es). replace (surplus (mm_spec cmp) o (l, d)) with ((λ p : map_res K V W * list (K * V), (p.1, (p.2, d))) <$> mm_spec cmp o l) by by destruct o. by apply (agrees_sh (holds cmp)).
  Qed.
  (** the loop of MultiMap.Erase and MultiSet.EraseAll *)
  Lemma c_erase_loop f k d s0 l : holds cmp s0 l → cr (λ s', ∃ s1 l1, holds cmp s1 l1 ∧ s' = shift d s1 ∧ front_dropped (λ kv, cmp k kv.1 = 0) l l1) (can_panic u) (x_mm_erase_loop u f k) (mm_erase_loop cmp f k) (shift d s0).
  Proof using CO Hu.
    assert (∀ l, front_dropped (λ kv : K * V, cmp k kv.1 = 0) l l) as Hrefl. { intros l'. by exists [], l'. }
    revert s0 l. induction f as [|f IH]; intros s0 l Hh; cbn [x_mm_erase_loop mm_erase_loop]; [apply cr_fuel|].
    apply cr_bind. { eapply cr_mono; [by apply c_findnode|]. intros s' ->. exists s0, l. by split_and!. }
    intros n s1 E. rewrite (sh_findnode cmp k) in E. destruct Hh as (t & Ht & El).
    destruct (hd_search_eq cmp CO s0 t k Ht) as (L & R & E1 & E2 & _ & E4 & E5). rewrite E1 in E. injection E as <- <-.
    destruct R as [|[a [k' v']] R]; [apply cr_ret|]. change (hd ((a, (k', v')) :: R)) with (Some a). cbn in E5.
    destruct (delete_tinv cmp CO s0 t L R a k' v' Ht E2) as (s1 & t1 & Ed & Ht1 & _ & E6).
    assert (rb_Delete (Some a) (shift d s0) = Ok (tt, shift d s1)) as Ed'. { rewrite (sh_delete (Some a)). by rewrite Ed. }
    apply cr_runb. { intros E. by rewrite Ed' in E. }
    intros [] s2 E. rewrite Ed' in E. injection E as <-.
    assert (∃ l1, holds cmp s1 l1 ∧ l1 = L.*2 ++ R.*2) as (l1 & Hh1 & El1). { exists (L.*2 ++ R.*2). split; [|done]. exists t1. split; [done|]. destruct E6 as [-> | (y & kv & R' & -> & ->)]; by rewrite fmap_app. }
    eapply cr_mono; [by apply (IH s1 l1)|]. intros s' (s2 & l2 & H1 & H2 & Hd). exists s2, l2. split_and!; [done|done|].
    subst l. rewrite E2, fmap_app. cbn [fmap list_fmap snd]. apply (dropped_more (λ kv : K * V, cmp k kv.1 = 0)); [by apply Forall_fmap|done|by rewrite <- El1].
  Qed.
  Lemma c_mm (o : op) s (ip : rb K V → Prop) : (∀ s', s' = s → ip s') →
    (∀ k v, o = MInsert k v → cr ip (can_panic u) (x_insert u k v) (rb_Insert cmp k v) s) →
    (∀ k f, o = MErase k → cr ip (can_panic u) (x_mm_erase_loop u f k) (mm_erase_loop cmp f k) s) →
    cr ip (mayp o) (x_mm_step u o) (mm_step cmp o) s.
  Proof using Hu.
    intros Hip Hins Her.
    assert (∀ A (x : X (rb K V * C) A) (m : M (rb K V) A), cr (same s) (can_panic u) x m s → mayp o = (true = true ∧ can_panic u) → cr ip (mayp o) x m s) as Hw.
    { intros A x m H E1. eapply cr_weak; [exact H|done|]. intros Hc. by rewrite E1. }
    destruct o; cbn [x_mm_step mm_step]; try (apply cr_run; intros; by apply Hip).
    - unfold mm_Insert. apply cr_bind; [|intros; apply cr_ret]. eapply cr_weak; [by apply Hins|done|done].
    - unfold x_map_Get, mm_Get. apply cr_bind; [|intros; apply cr_ret]. apply cr_bind; [apply Hw; [by apply c_findnode|done]|]. intros n s1 E. pose proof (ro_findnode cmp _ _ _ _ E). subst s1.
      destruct n; [|apply cr_ret]. apply cr_read; [by apply Hip|auto with ro|intros; apply cr_ret].
    - unfold x_mm_Erase, mm_Erase. apply cr_bind; [|intros; apply cr_ret]. apply cr_read; [by apply Hip|auto with ro|intros f _]. eapply cr_weak; [by apply Her|done|done].
    - unfold mm_Find. apply cr_bind; [apply Hw; [by apply c_findnode|done]|]. intros n s1 E. pose proof (ro_findnode cmp _ _ _ _ E). subst s1. apply cr_run. intros. by apply Hip.
    - unfold mm_LowerBound. apply cr_bind; [apply Hw; [by apply c_lower|done]|]. intros n s1 E. pose proof (ro_lower cmp _ _ _ _ E). subst s1. apply cr_run. intros. by apply Hip.
    - unfold mm_UpperBound. apply cr_bind; [apply Hw; [by apply c_upper|done]|]. intros n s1 E. pose proof (ro_upper cmp _ _ _ _ E). subst s1. apply cr_run. intros. by apply Hip.
    - unfold x_map_Contains, mm_Contains. apply cr_bind; [|intros; apply cr_ret]. apply cr_bind; [apply Hw; [by apply c_find|done]|]. intros n s1 E. apply cr_ret.
  Qed.
  (** Insert when the panics depend on the arguments only *)
  Lemma c_insert_unchanged (Ha : by_args u) k v s l : holds cmp s l → cr (same s) (can_panic u) (x_insert u k v) (rb_Insert cmp k v) s.
  Proof using CO Hu.
    intros (t & Ht & El). eapply cr_mono; [apply c_insert_args; [exact Hu|exact Ha|]|].
    - intros a s1 E. destruct Ht as [[Hr Hb Hz] Hs]. destruct (descend_ok cmp CO (S (rb_next s)) k [] t s) as (ctx & E1 & E2 & _); [done|pose proof (count_ok s t Hr); lia|done|by intros ? ?%elem_of_nil|by intros ? ?%elem_of_nil|].
      cbn [cpar] in E1. rewrite (rr_root _ _ Hr) in E. rewrite E1 in E. injection E as E _. pose proof (rr_lt _ _ Hr) as Hlt. cbn in E2. rewrite E2 in Hlt. rewrite ads_plug in Hlt. rewrite Forall_forall in Hlt. apply Hlt. rewrite elem_of_app. left.
      destruct ctx as [|[] ctx]; cbn in E; try done; injection E as ->; clear; unfold cads; cbn [lic ric]; rewrite elem_of_app.
      + right. apply elem_of_cons. by left.
      + left. rewrite !fmap_app, !elem_of_app. right. right. by apply elem_of_list_singleton.
    - intros s' [-> | E]; [done|]. destruct (insert_tinv cmp CO s t k v Ht) as (? & ? & ? & ? & E1 & _). by rewrite E1 in E.
  Qed.

  (** the four step lemmas of the maps *)
  Notation aft o a rel left := (λ s', ∃ a', left o a a' ∧ rel s' a').
  Lemma map_any (o : op) s a : mrel s a → agrees mrel (map_step cmp o s) (surplus (map_spec cmp) o a) ∧ cr (aft o a mrel (counts untouched)) (mayp o) (x_map_step u o) (map_step cmp o) s.
  Proof using CO Hu.
    intros H. split; [by apply map_surplus|]. destruct a as [l d].
    apply c_map. { intros s' ->. exists (l, d). split; [split; [done|by left]|done]. }
    intros k v ->. eapply cr_mono; [by apply c_insert|]. intros s' Hc. destruct H as (s0 & [Hh Hasc] & Es). destruct (drel_counted k v s l d s') as (d' & (s1 & Hh1 & Es1) & Hd); [by exists s0|done|].
    exists (l, d'). split; [split; [done|cbn; destruct Hd as [-> | ->]; [by left|right; split; [by exists k, v|done]]]|]. by exists s1.
  Qed.
  Lemma mm_any (o : op) s a : drel s a → agrees drel (mm_step cmp o s) (surplus (mm_spec cmp) o a) ∧ cr (aft o a drel (counts (mm_left cmp))) (mayp o) (x_mm_step u o) (mm_step cmp o) s.
  Proof using CO Hu.
    intros H. split; [by apply mm_surplus|]. destruct a as [l d]. assert (∀ l, mm_left cmp o l l) as Hrefl. { intros l'. destruct o; try done. by exists [], l'. }
    apply c_mm. { intros s' ->. exists (l, d). split; [split; [apply Hrefl|by left]|done]. }
    - intros k v ->. eapply cr_mono; [by apply c_insert|]. intros s' Hc. destruct (drel_counted k v s l d s') as (d' & (s1 & Hh1 & Es1) & Hd); [done|done|].
      exists (l, d'). split; [split; [done|cbn; destruct Hd as [-> | ->]; [by left|right; split; [by exists k, v|done]]]|]. by exists s1.
    - intros k f ->. destruct H as (s0 & Hh & ->). eapply cr_mono; [by apply (c_erase_loop f k (Z.of_nat d) s0 l)|]. intros s' (s1 & l1 & H1 & -> & H2). exists (l1, d). split; [split; [done|by left]|]. by exists s1.
  Qed.
  Lemma map_args (Ha : by_args u) (o : op) s l : mholds cmp s l → agrees (mholds cmp) (map_step cmp o s) (map_spec cmp o l) ∧ cr (aft o l (mholds cmp) untouched) (mayp o) (x_map_step u o) (map_step cmp o) s.
  Proof using CO Hu.
    intros H. split; [by apply map_agrees|]. apply c_map. { intros s' ->. by exists l. }
    intros k v ->. eapply cr_mono; [eapply (c_insert_unchanged Ha); apply H|]. intros s' ->. by exists l.
  Qed.
  Lemma mm_args (Ha : by_args u) (o : op) s l : holds cmp s l → agrees (holds cmp) (mm_step cmp o s) (mm_spec cmp o l) ∧ cr (aft o l (holds cmp) (mm_left cmp)) (mayp o) (x_mm_step u o) (mm_step cmp o) s.
  Proof using CO Hu.
    intros H. split; [by apply mm_agrees|]. assert (∀ l, mm_left cmp o l l) as Hrefl. { intros l'. destruct o; try done. by exists [], l'. }
    apply c_mm. { intros s' ->. exists l. split; [apply Hrefl|done]. }
    - intros k v ->. eapply cr_mono; [eapply (c_insert_unchanged Ha); apply H|]. intros s' ->. by exists l.
    - intros k f ->. pose proof (c_erase_loop f k 0 s l H) as Hc. rewrite shift_0 in Hc. eapply cr_mono; [exact Hc|]. intros s' (s1 & l1 & H1 & -> & H2). rewrite shift_0. by exists l1.
  Qed.
End maps.

Section sets.
  Context {T W C : Type} (u : user_cmp T C) (cmp : T → T → Z) (CO : CmpOK cmp) (Hu : agrees_with u cmp).
  Implicit Types (s : rb T bool) (t : tree T bool) (l : list T).
  Notation op := (set_op T W).
  Notation same s0 := (λ s, s = s0).
  Definition mays (o : op) : Prop := set_compares o = true ∧ can_panic u.
  #[local] Hint Resolve ro_get ro_root ro_size ro_fuel_ ro_parent ro_left ro_right ro_key ro_value ro_first ro_last ro_next ro_lower ro_upper ro_findnode ro_find : ro.

  Lemma c_set (o : op) s (ip : rb T bool → Prop) : (∀ s', s' = s → ip s') →
    (∀ x, o = SInsert x → cr ip (can_panic u) (x_insert u x set_Empty_const) (rb_Insert cmp x set_Empty_const) s) →
    cr ip (mays o) (x_set_step u o) (set_step cmp o) s.
  Proof using Hu.
    intros Hip Hins.
    assert (∀ A (x : X (rb T bool * C) A) (m : M (rb T bool) A), cr (same s) (can_panic u) x m s → mays o = (true = true ∧ can_panic u) → cr ip (mays o) x m s) as Hw.
    { intros A x m H E1. eapply cr_weak; [exact H|done|]. intros Hc. by rewrite E1. }
    destruct o; cbn [x_set_step set_step]; try (apply cr_run; intros; by apply Hip).
    - unfold x_set_Insert, set_Insert. apply cr_bind; [|intros; apply cr_ret].
      apply cr_bind; [apply Hw; [by apply c_findnode|done]|]. intros n s1 E. pose proof (ro_findnode cmp _ _ _ _ E). subst s1. destruct n as [a|]; [apply cr_ret|].
      eapply cr_weak; [by apply Hins|done|done].
    - unfold x_map_Erase, set_Erase. apply cr_bind; [|intros; apply cr_ret]. apply cr_bind; [apply Hw; [by apply c_findnode|done]|]. intros n s1 E. pose proof (ro_findnode cmp _ _ _ _ E). subst s1.
      destruct n; [|apply cr_ret]. apply cr_run. intros. by apply Hip.
    - unfold set_Find. apply cr_bind; [apply Hw; [by apply c_findnode|done]|]. intros n s1 E. pose proof (ro_findnode cmp _ _ _ _ E). subst s1. apply cr_run. intros. by apply Hip.
    - unfold set_LowerBound. apply cr_bind; [apply Hw; [by apply c_lower|done]|]. intros n s1 E. pose proof (ro_lower cmp _ _ _ _ E). subst s1. apply cr_run. intros. by apply Hip.
    - unfold set_UpperBound. apply cr_bind; [apply Hw; [by apply c_upper|done]|]. intros n s1 E. pose proof (ro_upper cmp _ _ _ _ E). subst s1. apply cr_run. intros. by apply Hip.
    - unfold x_map_Contains, set_Contains. apply cr_bind; [|intros; apply cr_ret]. apply cr_bind; [apply Hw; [by apply c_find|done]|]. intros n s1 E. apply cr_ret.
  Qed.
  Lemma c_count_loop f x p n s : cr (same s) (can_panic u) (x_ms_count_loop u f x p n) (ms_count_loop cmp f x p n) s.
  Proof using Hu.
    revert p n. induction f as [|f IH]; intros p n; cbn [x_ms_count_loop ms_count_loop]; [apply cr_fuel|]. destruct p; [|apply cr_ret].
    apply cr_read; [done|auto with ro|intros k _]. apply (cr_cmp _ _ _ cmp); [exact Hu|done|done|]. apply cr_read; [done|auto with ro|intros q _]. apply IH.
  Qed.
  Lemma c_ms_loop ip f x s : cr ip (can_panic u) (x_mm_erase_loop u f x) (mm_erase_loop cmp f x) s → cr ip (can_panic u) (x_mm_erase_loop u f x) (ms_erase_loop cmp f x) s.
  Proof using. clear. intros H c. rewrite ms_loop. apply H. Qed.
  Lemma c_ms (o : op) s (ip : rb T bool → Prop) : (∀ s', s' = s → ip s') →
    (∀ x, o = SInsert x → cr ip (can_panic u) (x_insert u x set_Empty_const) (rb_Insert cmp x set_Empty_const) s) →
    (∀ x f, o = SEraseAll x → cr ip (can_panic u) (x_mm_erase_loop u f x) (mm_erase_loop cmp f x) s) →
    cr ip (mays o) (x_ms_step u o) (ms_step cmp o) s.
  Proof using Hu.
    intros Hip Hins Her.
    assert (∀ A (x : X (rb T bool * C) A) (m : M (rb T bool) A), cr (same s) (can_panic u) x m s → mays o = (true = true ∧ can_panic u) → cr ip (mays o) x m s) as Hw.
    { intros A x m H E1. eapply cr_weak; [exact H|done|]. intros Hc. by rewrite E1. }
    destruct o; cbn [x_ms_step ms_step]; try (apply cr_run; intros; by apply Hip).
    - unfold ms_Insert. apply cr_bind; [|intros; apply cr_ret]. eapply cr_weak; [by apply Hins|done|done].
    - unfold x_map_Erase, ms_Erase. apply cr_bind; [|intros; apply cr_ret]. apply cr_bind; [apply Hw; [by apply c_findnode|done]|]. intros n s1 E. pose proof (ro_findnode cmp _ _ _ _ E). subst s1.
      destruct n; [|apply cr_ret]. apply cr_run. intros. by apply Hip.
    - unfold x_mm_Erase, ms_EraseAll. apply cr_bind; [|intros; apply cr_ret]. apply cr_read; [by apply Hip|auto with ro|intros f _]. eapply cr_weak; [apply c_ms_loop; by apply Her|done|done].
    - unfold ms_Find. apply cr_bind; [apply Hw; [by apply c_findnode|done]|]. intros n s1 E. pose proof (ro_findnode cmp _ _ _ _ E). subst s1. apply cr_run. intros. by apply Hip.
    - unfold ms_LowerBound. apply cr_bind; [apply Hw; [by apply c_lower|done]|]. intros n s1 E. pose proof (ro_lower cmp _ _ _ _ E). subst s1. apply cr_run. intros. by apply Hip.
    - unfold ms_UpperBound. apply cr_bind; [apply Hw; [by apply c_upper|done]|]. intros n s1 E. pose proof (ro_upper cmp _ _ _ _ E). subst s1. apply cr_run. intros. by apply Hip.
    - unfold x_map_Contains, ms_Contains. apply cr_bind; [|intros; apply cr_ret]. apply cr_bind; [apply Hw; [by apply c_find|done]|]. intros n s1 E. apply cr_ret.
    - unfold x_ms_Count, ms_Count. apply cr_bind; [|intros; apply cr_ret]. apply cr_read; [by apply Hip|auto with ro|intros p _]. apply cr_read; [by apply Hip|auto with ro|intros f _]. apply Hw; [apply c_count_loop|done].
  Qed.
  (** sets hold the keys of maps *)
  Lemma sholds_holds s l : sholds cmp s l ↔ ∃ l' : list (T * bool), holds cmp s l' ∧ l'.*1 = l.
  Proof using. clear. split; [intros (t & H & E); exists (io t).*2; split; [by exists t|done]|intros (l' & (t & H & <-) & E); by exists t]. Qed.
  Lemma dropped_fst x (l l1 : list (T * bool)) : front_dropped (λ kv, cmp x kv.1 = 0) l l1 → front_dropped (λ y, cmp x y = 0) l.*1 l1.*1.
  Proof using.
    clear. intros (F & R & -> & ->). exists F.*1, R.*1. rewrite !fmap_app. split; [done|]. f_equal. induction F as [|[y b] F IH]; [done|]. cbn [fmap list_fmap fst]. rewrite !filter_cons. cbn [fst]. destruct (decide (¬ cmp x y = 0)); [|done]. cbn [fmap list_fmap fst]. f_equal. exact IH.
  Qed.
  Definition sdrel s (a : list T * nat) : Prop := ∃ s0, sholds cmp s0 a.1 ∧ s = shift (Z.of_nat a.2) s0.
  Definition sarel s (a : list T * nat) : Prop := ∃ s0, asholds cmp s0 a.1 ∧ s = shift (Z.of_nat a.2) s0.
  Lemma sdrel_counted x s l d s' : sdrel s (l, d) → counted x set_Empty_const s s' → ∃ d', sdrel s' (l, d') ∧ (d' = d ∨ d' = S d).
  Proof using.
    clear. intros (s0 & (l' & Hh & El)%sholds_holds & Es) Hc. destruct (drel_counted cmp x set_Empty_const s l' d s') as (d' & (s1 & Hh1 & Es1) & Hd); [by exists s0|done|].
    exists d'. split; [|done]. exists s1. split; [|done]. apply sholds_holds. by exists l'.
  Qed.
  Lemma s_agrees_sh {A : Type} (rel0 : rb T bool → A → Prop) d (r : res (set_res T W * rb T bool)) sp : agrees rel0 r sp →
    agrees (λ s a, ∃ s0, rel0 s0 a.1 ∧ s = shift (Z.of_nat a.2) s0) (shr (Z.of_nat d) r) ((λ p, (p.1, (p.2, d))) <$> sp).
  Proof using. clear. unfold agrees. destruct sp as [[r' a]|]; cbn; [intros (s' & -> & H); eexists; split; [done|]; by exists s'|by intros ->]. Qed.
  Lemma set_surplus (o : op) s a : sarel s a → agrees sarel (set_step cmp o s) (s_surplus (set_spec cmp) o a).
  Proof using CO.
    destruct a as [l d]. intros (s0 & Hh & ->). pose proof (set_agrees cmp CO o s0 l Hh) as H.
    destruct (s_sized o) eqn:Es.
    - destruct o; try done; cbn in Hh.
      + cbn [s_surplus]. exists (MkRb (rb_heap s0) (rb_next s0) None 0). split; [done|]. destruct H as (s' & E & H). cbn in E. injection E as <-. exists (MkRb (rb_heap s0) (rb_next s0) None 0). split; [done|]. by rewrite shift_0.
      + cbn [s_surplus fst snd]. destruct H as (s' & E & H). cbn in E. injection E as E <-. exists (shift (Z.of_nat d) s0). split; [|by exists s0]. change (Ok (QInt (W := W) (T := T) (rb_size s0 + Z.of_nat d), shift (Z.of_nat d) s0) = Ok (QInt (Z.of_nat (length l + d)), shift (Z.of_nat d) s0)). by rewrite E, Nat2Z.inj_add.
    - rewrite (sh_set cmp o Es). replace (s_surplus (set_spec cmp) o (l, d)) with ((λ p : set_res T W * list T, (p.1, (p.2, d))) <$> set_spec cmp o l) by by destruct o. by apply (s_agrees_sh (asholds cmp)).
  Qed.
  Lemma ms_surplus (o : op) s a : sdrel s a → agrees sdrel (ms_step cmp o s) (s_surplus (ms_spec cmp) o a).
  Proof using CO.
    destruct a as [l d]. intros (s0 & Hh & ->). pose proof (ms_agrees cmp CO o s0 l Hh) as H.
    destruct (s_sized o) eqn:Es.
    - destruct o; try done; cbn in Hh.
      + cbn [s_surplus]. exists (MkRb (rb_heap s0) (rb_next s0) None 0). split; [done|]. destruct H as (s' & E & H). cbn in E. injection E as <-. exists (MkRb (rb_heap s0) (rb_next s0) None 0). split; [done|]. by rewrite shift_0.
      + cbn [s_surplus fst snd]. destruct H as (s' & E & H). cbn in E. injection E as E <-. exists (shift (Z.of_nat d) s0). split; [|by exists s0]. change (Ok (QInt (W := W) (T := T) (rb_size s0 + Z.of_nat d), shift (Z.of_nat d) s0) = Ok (QInt (Z.of_nat (length l + d)), shift (Z.of_nat d) s0)). by rewrite E, Nat2Z.inj_add.
    - rewrite (sh_ms cmp o Es). replace (s_surplus (ms_spec cmp) o (l, d)) with ((λ p : set_res T W * list T, (p.1, (p.2, d))) <$> ms_spec cmp o l) by by destruct o. by apply (s_agrees_sh (sholds cmp)).
  Qed.
  Notation aft o a rel left := (λ s', ∃ a', left o a a' ∧ rel s' a').
  Lemma set_any (o : op) s a : sarel s a → agrees sarel (set_step cmp o s) (s_surplus (set_spec cmp) o a) ∧ cr (aft o a sarel (s_counts untouched)) (mays o) (x_set_step u o) (set_step cmp o) s.
  Proof using CO Hu.
    intros H. split; [by apply set_surplus|]. destruct a as [l d].
    apply c_set. { intros s' ->. exists (l, d). split; [split; [done|by left]|done]. }
    intros x ->. eapply cr_mono; [by apply c_insert|]. intros s' Hc. destruct H as (s0 & [Hh Hasc] & Es). destruct (sdrel_counted x s l d s') as (d' & (s1 & Hh1 & Es1) & Hd); [by exists s0|done|].
    exists (l, d'). split; [split; [done|cbn; destruct Hd as [-> | ->]; [by left|right; split; [by exists x|done]]]|]. by exists s1.
  Qed.
  Lemma ms_any (o : op) s a : sdrel s a → agrees sdrel (ms_step cmp o s) (s_surplus (ms_spec cmp) o a) ∧ cr (aft o a sdrel (s_counts (ms_left cmp))) (mays o) (x_ms_step u o) (ms_step cmp o) s.
  Proof using CO Hu.
    intros H. split; [by apply ms_surplus|]. destruct a as [l d]. assert (∀ l, ms_left cmp o l l) as Hrefl. { intros l'. destruct o; try done. by exists [], l'. }
    apply c_ms. { intros s' ->. exists (l, d). split; [split; [apply Hrefl|by left]|done]. }
    - intros x ->. eapply cr_mono; [by apply c_insert|]. intros s' Hc. destruct (sdrel_counted x s l d s') as (d' & (s1 & Hh1 & Es1) & Hd); [done|done|].
      exists (l, d'). split; [split; [done|cbn; destruct Hd as [-> | ->]; [by left|right; split; [by exists x|done]]]|]. by exists s1.
    - intros x f ->. destruct H as (s0 & (l' & Hh & El)%sholds_holds & ->). eapply cr_mono; [by apply (c_erase_loop u cmp CO Hu f x (Z.of_nat d) s0 l')|]. intros s' (s1 & l1 & H1 & -> & H2). exists (l1.*1, d). split; [split; [|by left]|].
      + cbn in El. cbn. rewrite <- El. by apply dropped_fst.
      + exists s1. split; [|done]. apply sholds_holds. by exists l1.
  Qed.
  Lemma set_args (Ha : by_args u) (o : op) s l : asholds cmp s l → agrees (asholds cmp) (set_step cmp o s) (set_spec cmp o l) ∧ cr (aft o l (asholds cmp) untouched) (mays o) (x_set_step u o) (set_step cmp o) s.
  Proof using CO Hu.
    intros H. split; [by apply set_agrees|]. apply c_set. { intros s' ->. by exists l. }
    intros x ->. destruct (proj1 (sholds_holds s l) (proj1 H)) as (l' & Hh & _). eapply cr_mono; [eapply (c_insert_unchanged u cmp CO Hu Ha); exact Hh|]. intros s' ->. by exists l.
  Qed.
  Lemma ms_args (Ha : by_args u) (o : op) s l : sholds cmp s l → agrees (sholds cmp) (ms_step cmp o s) (ms_spec cmp o l) ∧ cr (aft o l (sholds cmp) (ms_left cmp)) (mays o) (x_ms_step u o) (ms_step cmp o) s.
  Proof using CO Hu.
    intros H. split; [by apply ms_agrees|]. assert (∀ l, ms_left cmp o l l) as Hrefl. { intros l'. destruct o; try done. by exists [], l'. }
    apply c_ms. { intros s' ->. exists l. split; [apply Hrefl|done]. }
    all: destruct (proj1 (sholds_holds s l) H) as (l' & Hh & El).
    - intros x ->. eapply cr_mono; [eapply (c_insert_unchanged u cmp CO Hu Ha); exact Hh|]. intros s' ->. by exists l.
    - intros x f ->. pose proof (c_erase_loop u cmp CO Hu f x 0 s l' Hh) as Hc. rewrite shift_0 in Hc. eapply cr_mono; [exact Hc|]. intros s' (s1 & l1 & H1 & -> & H2). rewrite shift_0. exists l1.*1. split.
      + cbn. rewrite <- El. by apply dropped_fst.
      + apply sholds_holds. by exists l1.
  Qed.
End sets.
