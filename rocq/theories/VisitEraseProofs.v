(** C113, the skip list: proofs. *)
From Coq Require Import Sorting.Sorted.
From Verif Require Import Base History RbSpec MapSpec MapProofs MapProps SkipModel SkipSpec SkipProofs SkipOps SkipProps VisitEraseModel VisitEraseSpec.
Open Scope Z_scope.
Open Scope go_scope.

Section skip.
  Context {K V W : Type} (cmp : K → K → Z) (CO : CmpOK cmp).
  Implicit Types (s : skip K V) (l : list (K * V)).
  Notation C := (kv_call K V).
  (** a call that is not the removal of k *)
  Definition other (k : K) (o : C) : Prop := match o with VInsert word _ _ => 0 <= word < 2 ^ 64 | VRemove k' => cmp k k' ≠ 0 end.
  Lemma act_other (max : nat) s xs l o p k : inv cmp max s xs l → other k o → p ∈ xs → fst <$> kvof s p = Some k →
    ∃ s' xs', sk_act cmp o s = Ok (tt, s') ∧ inv cmp max s' xs' (called cmp l o) ∧ p ∈ xs' ∧ fst <$> kvof s' p = Some k.
  Proof using CO.
    intros H Ho Hp Hk. destruct o as [word k1 v1|k1]; cbn [sk_act called other] in *.
    - destruct (sk_Insert_all cmp CO max s xs l word k1 v1 H Ho) as (s' & xs' & E & [_ Ha] & _ & H'). destruct (Ha p Hp) as [Hp' Hk']. exists s', xs'. split_and!; [done|done|done|]. by rewrite Hk'.
    - destruct (sk_Remove_all cmp CO max s xs l k1 H) as (s' & xs' & E & [_ Ha] & _ & H'). destruct (kvof s p) as [kv|] eqn:Ekv; [|done]. cbn in Hk. injection Hk as <-.
      destruct (Ha p kv Hp Ekv) as (Hk' & Hin & _). exists s', xs'. unfold mbind_. rewrite E. split_and!; [done|done|by apply Hin|]. by rewrite Hk'.
  Qed.
  Lemma act_others (max : nat) os : ∀ s xs l p k, inv cmp max s xs l → (∀ o, o ∈ os → other k o) → p ∈ xs → fst <$> kvof s p = Some k →
    ∃ s' xs', act_all (sk_act cmp) os s = Ok (tt, s') ∧ inv cmp max s' xs' (foldl (called cmp) l os) ∧ p ∈ xs' ∧ fst <$> kvof s' p = Some k.
  Proof using CO.
    induction os as [|o os IH]; intros s xs l p k H Ho Hp Hk; cbn [act_all foldl]; [by exists s, xs|].
    destruct (act_other max s xs l o p k H (Ho o (elem_of_list_here _ _)) Hp Hk) as (s1 & xs1 & E1 & H1 & Hp1 & Hk1).
    destruct (IH s1 xs1 _ p k H1 (λ o' Ho', Ho o' (elem_of_list_further _ _ _ Ho')) Hp1 Hk1) as (s2 & xs2 & E2 & H2). exists s2, xs2. unfold mbind_. rewrite E1. by split.
  Qed.
  Lemma act_app os1 os2 s : act_all (sk_act cmp) (os1 ++ os2) s = (act_all (sk_act cmp) os1 ;; act_all (sk_act cmp) os2) s.
  Proof using.
    revert s. induction os1 as [|o os1 IH]; intros s; cbn [act_all app]; [done|]. unfold mbind_. destruct (sk_act cmp o s) as [[[] s1]| |]; [|done|done]. apply IH.
  Qed.
  (** the entry after a node that is in the list *)
  Lemma beyond_split k v (la lb : list (K * V)) : ascending cmp (la ++ (k, v) :: lb) → beyond cmp (Some k) (la ++ (k, v) :: lb) = lb.
  Proof using CO.
    intros Ha. apply asc_app in Ha as (_ & Hb & Hab). cbn [beyond]. rewrite filter_app, filter_cons_False; cycle 1.
    { cbn. pose proof (cmp_refl cmp CO k). lia. }
    assert (filter (λ kv : K * V, cmp k kv.1 < 0) la = []) as ->.
    { assert (Hl : ∀ x, x ∈ la → 0 <= cmp k x.1). { intros x Hx. specialize (Hab x (k, v) Hx (elem_of_list_here _ _)). cbn in Hab. pose proof (sgn_flip cmp CO k x.1). lia. }
      clear Hab. induction la as [|x la IH]; [done|]. rewrite filter_cons_False by (specialize (Hl x (elem_of_list_here _ _)); lia). apply IH. intros y Hy. apply Hl. by right. }
    cbn [app]. clear Hab. apply StronglySorted_inv in Hb as [_ Hb]. induction Hb as [|x lb Hx _ IH]; [done|]. rewrite filter_cons_True by exact Hx. by rewrite IH.
  Qed.
  Lemma inv_split (max : nat) s xs l p k : inv cmp max s xs l → p ∈ xs → fst <$> kvof s p = Some k →
    ∃ A B la lb v, xs = A ++ p :: B ∧ l = la ++ (k, v) :: lb ∧ kvof s p = Some (k, v) ∧ Forall2 (λ p kv, kvof s p = Some kv) B lb ∧ beyond cmp (Some k) l = lb.
  Proof using CO.
    intros H Hp Hk. apply elem_of_list_split in Hp as (A & B & ->). destruct (proj1 (Forall2_app_inv_l _ _ _ _) (inv_kv _ _ _ _ _ H)) as (la & lb0 & _ & HB & ->).
    inversion HB as [|? [k' v] ? lb Hkv HB']; subst. rewrite Hkv in Hk. cbn in Hk. injection Hk as ->. exists A, B, la, lb, v. split_and!; try done. apply beyond_split. apply H.
  Qed.
  Lemma next_in (max : nat) s xs l A p B : inv cmp max s xs l → xs = A ++ p :: B → nx s (Some p) 0%nat = Some (head B).
  Proof using.
    intros H ->. assert (Hh : (0 < hgt s (Some p))%nat). { pose proof (inv_ht _ _ _ _ _ H p) as Hh. cbn. assert (1 <= ht s p <= max)%nat; [|lia]. apply Hh. apply elem_of_app. right. apply elem_of_list_here. }
    rewrite (inv_links _ _ _ _ _ H (Some p) B 0%nat (ex_intro _ A eq_refl) Hh). rewrite lvl_0; [done|]. intros q Hq. apply (inv_ht _ _ _ _ _ H). apply elem_of_app. right. by right.
  Qed.
  (** the visitor's calls, then the next pointer: the first entry with a greater key *)
  Lemma act_next (vis : K * V → W → list C * (bool * W)) (max : nat) s xs l p k v w : removes_last cmp vis → inv cmp max s xs l → p ∈ xs → kvof s p = Some (k, v) →
    let l' := foldl (called cmp) l (vis (k, v) w).1 in
    ∃ s' xs' q, act_all (sk_act cmp) (vis (k, v) w).1 s = Ok (tt, s') ∧ inv cmp max s' xs' l' ∧ nextat (Some p) 0 s' = Ok (q, s') ∧
      match q with None => beyond cmp (Some k) l' = [] | Some q => ∃ d t, beyond cmp (Some k) l' = d :: t ∧ q ∈ xs' ∧ kvof s' q = Some d end.
  Proof using CO.
    intros Hr H Hp Hkv l'. destruct (Hr (k, v) w) as (os & end_ & E & Ho & He). unfold l'. rewrite E. rewrite foldl_app.
    destruct (act_others max os s xs l p k H Ho Hp ltac:(by rewrite Hkv)) as (s1 & xs1 & E1 & H1 & Hp1 & Hk1). set (l1 := foldl (called cmp) l os) in *.
    destruct (inv_split max s1 xs1 l1 p k H1 Hp1 Hk1) as (A & B & la & lb & v1 & -> & El1 & Hkv1 & HB & Hbey).
    pose proof (next_in max s1 _ l1 A p B H1 eq_refl) as Hnx. destruct He as [->| ->].
    - rewrite app_nil_r. exists s1, (A ++ p :: B), (head B). split_and!; [done | done | by apply (nextat_ok s1 (Some p) 0%nat)|]. cbn [foldl]. rewrite Hbey.
      destruct HB as [|q d B lb Hq HB]; [done|]. cbn. exists d, lb. split_and!; [done| |done]. apply elem_of_app. right. right. apply elem_of_list_here.
    - rewrite act_app. unfold mbind_ at 1. rewrite E1. cbn [act_all sk_act foldl called fst]. destruct (sk_Remove_all cmp CO max s1 _ l1 k H1) as (s2 & xs2 & E2 & [_ Ha] & _ & H2).
      destruct (Ha p (k, v1) Hp1 Hkv1) as (Hkv2 & _ & Hnx2). specialize (Hnx2 (cmp_refl cmp CO k)). rewrite Hnx in Hnx2.
      exists s2, xs2, (head B). split_and!; [unfold mbind_; by rewrite E2 | done | by apply (nextat_ok s2 (Some p) 0%nat)|].
      assert (Hbey2 : beyond cmp (Some k) (erase_k cmp k l1) = lb).
      { transitivity (beyond cmp (Some k) l1); [|exact Hbey]. cbn [beyond]. unfold erase_k. rewrite list_filter_filter. apply list_filter_iff. intros x. split; [by intros [? _] | intros Hx; split; [done|]].
        intros Ei%Is_true_true. apply (is_k_spec cmp CO) in Ei. pose proof (sgn_flip cmp CO k x.1). lia. }
      rewrite Hbey2. destruct HB as [|q d B lb Hq HB]; [done|]. cbn. exists d, lb. assert (Hqin : q ∈ A ++ p :: q :: B) by (apply elem_of_app; right; right; apply elem_of_list_here).
      destruct (Ha q d Hqin Hq) as (Hq2 & Hin & _). split_and!; [done| |done]. apply Hin. intros E0. assert (d ∈ beyond cmp (Some k) l1) as Hd by (rewrite Hbey; apply elem_of_list_here).
      cbn [beyond] in Hd. apply elem_of_list_filter in Hd as [Hd _]. pose proof (sgn_flip cmp CO k d.1). lia.
  Qed.
  Lemma visits_loop_ok (vis : K * V → W → list C * (bool * W)) (max : nat) : removes_last cmp vis → ∀ f s xs l from q w, inv cmp max s xs l →
    match q with None => beyond cmp from l = [] | Some q => ∃ d t, beyond cmp from l = d :: t ∧ q ∈ xs ∧ kvof s q = Some d end →
    let r := visits_loop sk_read (λ p, nextat p 0) (sk_act cmp) vis f q w s in
    match visited_in_order cmp vis f l from w with
    | Some (tr, l') => ∃ s' xs', r = Ok (tr, s') ∧ inv cmp max s' xs' l'
    | None => r = Fuel
    end.
  Proof using CO.
    intros Hr. induction f as [|f IH]; intros s xs l from q w H Hq; cbv zeta.
    { cbn [visits_loop visited_in_order]. destruct q as [q|]; [destruct Hq as (d & t & -> & _); done | rewrite Hq; by exists s, xs]. }
    destruct q as [q|]; [|cbn [visits_loop visited_in_order]; rewrite Hq; by exists s, xs]. destruct Hq as ([k v] & t & Hbey & Hin & Hkv).
    destruct (el_ok s q (k, v) Hkv) as (e & Ee & Ek & Ev & _). cbn in Ek, Ev. assert (Er : sk_read q s = Ok ((k, v), s)) by (unfold sk_read, mbind_, mret_; by rewrite Ee, Ek, Ev).
    destruct (act_next vis max s xs l q k v w Hr H Hin Hkv) as (s1 & xs1 & q1 & E1 & H1 & En & Hq1).
    assert (Ep : visits_loop sk_read (λ p, nextat p 0) (sk_act cmp) vis (S f) (Some q) w s =
      if (vis (k, v) w).2.1 then match visits_loop sk_read (λ p, nextat p 0) (sk_act cmp) vis f q1 (vis (k, v) w).2.2 s1 with Ok (tr, s2) => Ok (((k, v), (vis (k, v) w).1) :: tr, s2) | Panic => Panic | Fuel => Fuel end
      else Ok ([((k, v), (vis (k, v) w).1)], s1)).
    { cbn [visits_loop]. unfold mbind_ at 1. rewrite Er. cbv zeta. unfold mbind_ at 1. rewrite E1. destruct ((vis (k, v) w).2.1); cbn [negb]; [|done]. unfold mbind_ at 1. rewrite En. done. }
    rewrite Ep. cbn [visited_in_order]. rewrite Hbey. cbv zeta. destruct ((vis (k, v) w).2.1) eqn:Eb.
    - specialize (IH s1 xs1 _ (Some k) q1 (vis (k, v) w).2.2 H1 Hq1). cbv zeta in IH. cbn [fst].
      destruct (visited_in_order cmp vis f _ _ _) as [[tr l']|]; [|by rewrite IH]. destruct IH as (s2 & xs2 & IH & H2). exists s2, xs2. split; [|done]. by rewrite IH.
    - by exists s1, xs1.
  Qed.
  Lemma sk_visit_ok (vis : K * V → W → list C * (bool * W)) (max : nat) f s xs l w : removes_last cmp vis → inv cmp max s xs l →
    match visited_in_order cmp vis f l None w with
    | Some (tr, l') => ∃ s' xs', sk_visit cmp vis f w s = Ok (tr, s') ∧ inv cmp max s' xs' l'
    | None => sk_visit cmp vis f w s = Fuel
    end.
  Proof using CO.
    intros Hr H.
    assert (Hn : nx s None 0%nat = Some (head xs)).
    { rewrite (inv_links _ _ _ _ _ H None xs 0%nat eq_refl) by (cbn; rewrite (inv_head _ _ _ _ _ H); pose proof (inv_max _ _ _ _ _ H); lia). rewrite lvl_0; [done|]. intros p Hp. by apply (inv_ht _ _ _ _ _ H). }
    assert (Ep : sk_visit cmp vis f w s = visits_loop sk_read (λ p, nextat p 0) (sk_act cmp) vis f (head xs) w s) by (unfold sk_visit, visits_all, mbind_; by rewrite (nextat_ok s None 0%nat _ Hn : nextat None 0 s = _)).
    rewrite Ep. apply (visits_loop_ok vis max Hr f s xs l None (head xs) w H). cbn [beyond].
    destruct (inv_kv _ _ _ _ _ H) as [|p d xs l Hp _]; [done|]. cbn. exists d, l. split_and!; [done | apply elem_of_list_here | done].
  Qed.
End skip.
