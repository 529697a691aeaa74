(** The operations of Skiplist against the specification. *)
From Coq Require Import Sorting.Sorted.
From Verif Require Import Base Wp RbSpec MapSpec SkipModel SkipSpec SkipProofs.
Open Scope Z_scope.
Open Scope go_scope.

Section ops.
  Context {K V : Type} (cmp : K → K → Z) (OK : CmpOK cmp).
  Notation skip := (skip K V).
  Implicit Types (s : skip) (xs A B Y : list nat) (r : option nat) (p : nat).
  Notation inv := (inv cmp). Notation found := (found cmp).

  (* ---------- the specification on split lists ---------- *)
  Lemma sgn_flip a b : Z.sgn (cmp a b) = - Z.sgn (cmp b a).
  Proof using OK. apply (cmp_flip _ OK). Qed.
  Lemma upsert_skip k v (la lb : list (K * V)) : Forall (λ kv, cmp kv.1 k < 0) la → upsert cmp k v (la ++ lb) = la ++ upsert cmp k v lb.
  Proof using OK.
    induction 1 as [|[k' v'] la Hlt _ IH]; [done|]. cbn [app upsert]. cbn in Hlt. pose proof (sgn_flip k k').
    destruct (Z.eqb_spec (cmp k k') 0); [lia|]. destruct (Z.ltb_spec (cmp k k') 0); [lia|]. by rewrite IH.
  Qed.
  Definition head_eq (k : K) (lb : list (K * V)) : Prop := match lb with [] => False | kv :: _ => cmp kv.1 k = 0 end.
  Lemma upsert_new k v (lb : list (K * V)) : Forall (λ kv, 0 <= cmp kv.1 k) lb → ¬ head_eq k lb → upsert cmp k v lb = (k, v) :: lb.
  Proof using OK.
    destruct lb as [|[k' v'] lb]; [done|]. intros Hf Hn. apply Forall_cons in Hf as [Hf _]. cbn in *. pose proof (sgn_flip k k').
    destruct (Z.eqb_spec (cmp k k') 0); [lia|]. destruct (Z.ltb_spec (cmp k k') 0); [done|lia].
  Qed.
  Lemma upsert_old k v k' v' (lb : list (K * V)) : cmp k' k = 0 → upsert cmp k v ((k', v') :: lb) = (k', v) :: lb.
  Proof using OK. intros H. cbn. pose proof (sgn_flip k k'). destruct (Z.eqb_spec (cmp k k') 0); [done|lia]. Qed.
  Lemma is_k_spec k (kv : K * V) : is_k cmp k kv = true ↔ cmp kv.1 k = 0.
  Proof using OK. unfold is_k. pose proof (sgn_flip k kv.1). destruct (Z.eqb_spec (cmp k kv.1) 0); split; try done; lia. Qed.
  Lemma la_no k (la : list (K * V)) : Forall (λ kv, cmp kv.1 k < 0) la → Forall (λ kv, is_k cmp k kv = false) la.
  Proof using OK. intros Hf. eapply Forall_impl; [exact Hf|]. intros kv H. cbn in H. apply not_true_iff_false. rewrite is_k_spec. lia. Qed.
  Lemma lb_no k (lb : list (K * V)) : ascending cmp lb → Forall (λ kv, 0 <= cmp kv.1 k) lb → ¬ head_eq k lb → Forall (λ kv, is_k cmp k kv = false) lb.
  Proof using OK.
    intros Hs Hf Hn. destruct lb as [|kv lb]; [done|]. apply StronglySorted_inv in Hs as [_ Hs]. apply Forall_cons in Hf as [Hk Hf]. cbn in Hn.
    apply Forall_forall. intros x Hx. apply not_true_iff_false. rewrite is_k_spec. apply elem_of_cons in Hx as [->|Hx]; [done|].
    rewrite Forall_forall in Hs. specialize (Hs x Hx). cbn in Hs. intros E. pose proof (sgn_flip kv.1 k). pose proof (cmp_lt_le_trans _ OK kv.1 x.1 k Hs ltac:(lia)). lia.
  Qed.
  Lemma lb_tail_no k kv (lb : list (K * V)) : ascending cmp (kv :: lb) → cmp kv.1 k = 0 → Forall (λ kv, is_k cmp k kv = false) lb.
  Proof using OK.
    intros Hs Hk. apply StronglySorted_inv in Hs as [_ Hs]. eapply Forall_impl; [exact Hs|]. cbn. intros x Hx. apply not_true_iff_false. rewrite is_k_spec. intros E.
    pose proof (sgn_flip k x.1). pose proof (cmp_eq_trans _ OK kv.1 k x.1 Hk ltac:(lia)). lia.
  Qed.
  Lemma lookup_no k (l : list (K * V)) rest : Forall (λ kv, is_k cmp k kv = false) l → lookup_k cmp k (l ++ rest) = lookup_k cmp k rest.
  Proof using. unfold lookup_k. induction 1 as [|kv l H _ IH]; [done|]. cbn [app suffix]. by rewrite H. Qed.
  Lemma exists_no k (l : list (K * V)) : Forall (λ kv, is_k cmp k kv = false) l → existsb (is_k cmp k) l = false.
  Proof using. induction 1 as [|kv l H _ IH]; [done|]. cbn. by rewrite H. Qed.
  Lemma erase_no k (l : list (K * V)) : Forall (λ kv, is_k cmp k kv = false) l → erase_k cmp k l = l.
  Proof using. unfold erase_k. induction 1 as [|kv l H _ IH]; [done|]. rewrite filter_cons_True by (by rewrite H; intros ?). by rewrite IH. Qed.
  Lemma asc_app (la lb : list (K * V)) : ascending cmp (la ++ lb) ↔ ascending cmp la ∧ ascending cmp lb ∧ ∀ x y, x ∈ la → y ∈ lb → cmp x.1 y.1 < 0.
  Proof using.
    unfold ascending. induction la as [|a la IH]; cbn [app].
    - split; [intros H; split_and!; [constructor | done | intros ?? Hx; by apply elem_of_nil in Hx] | by intros (_ & H & _)].
    - split.
      + intros H. apply StronglySorted_inv in H as [H Hf]. apply IH in H as (H1 & H2 & H3). apply Forall_app in Hf as [Hf1 Hf2]. split_and!; [by constructor | done|].
        intros x y [->|Hx]%elem_of_cons Hy; [rewrite Forall_forall in Hf2; by apply Hf2 | by apply H3].
      + intros (H1 & H2 & H3). apply StronglySorted_inv in H1 as [H1 Hf]. constructor.
        * apply IH. split_and!; [done | done |]. intros x y Hx Hy. apply H3; [by apply elem_of_list_further | done].
        * apply Forall_app; split; [done|]. apply Forall_forall. intros y Hy. apply H3; [apply elem_of_list_here | done].
  Qed.

  (* ---------- positions ---------- *)
  Lemma after_split A B r Y : after (A ++ B) r Y → (∃ Y0, after A r Y0 ∧ Y = Y0 ++ B) ∨ (∃ p l1, r = Some p ∧ B = l1 ++ p :: Y).
  Proof using.
    destruct r as [p|]; cbn; [|intros ->; left; by exists A]. intros [l1 E]. revert l1 E. induction A as [|a A IH]; intros l1 E; cbn in E.
    - right. by exists p, l1.
    - destruct l1 as [|b l1]; cbn in E; injection E as -> E.
      + left. exists A. split; [by exists [] | done].
      + destruct (IH _ E) as [(Y0 & [l2 ->] & ->)|(p' & l2 & [= ->] & ->)]; [left; exists Y0; split; [by exists (b :: l2) | done] | right; by exists p', l2].
  Qed.
  Lemma after_in A r Y p : after A r Y → r = Some p → p ∈ A.
  Proof using. intros Ha ->. destruct Ha as [l1 ->]. apply elem_of_app. right. apply elem_of_list_here. Qed.
  Lemma after_sub A r Y p : after A r Y → p ∈ Y → p ∈ A.
  Proof using. destruct r as [a|]; [apply after_elem | cbn; by intros ->]. Qed.
  Lemma is_prev_in s A i r p : is_prev s A i r → r = Some p → p ∈ A.
  Proof using. intros (Y & Ha & _) E. by eapply after_in. Qed.
  (** the predecessors of every level as a function *)
  Lemma prevs_fun s A (c : list (option (option nat))) (max : nat) : (∀ i, (i < max)%nat → ∃ r, c !! i = Some (Some r) ∧ is_prev s A i r) →
    ∃ prev : nat → option nat, ∀ i, (i < max)%nat → c !! i = Some (Some (prev i)) ∧ is_prev s A i (prev i).
  Proof using.
    intros H. exists (λ i, match c !! i with Some (Some r) => r | _ => None end). intros i Hi. destruct (H i Hi) as (r & E & Hp). by rewrite E.
  Qed.

  (* ---------- Get ---------- *)
  Lemma head_lvl0 (max : nat) s A B la lb key : found s A B la lb key max → head (lvl (ht s) 0 B) = head B.
  Proof using. intros (Hinv & _). rewrite lvl_0; [done|]. intros p Hp. apply (inv_ht _ _ _ _ _ Hinv). apply elem_of_app. by right. Qed.
  Lemma sk_Get_ok (max : nat) s xs l k : inv max s xs l → sk_Get cmp k s = Ok (lookup_k cmp k l, s).
  Proof using OK.
    intros Hinv0. destruct (found_exists cmp OK max s xs l k Hinv0) as (A & B & la & lb & -> & -> & Hf). assert (Hf0 := Hf). destruct Hf as (Hinv & HA & HB & Hla & Hlb).
    unfold sk_Get, mbind_, getmax, walkfuel. rewrite (inv_smax _ _ _ _ _ Hinv), Nat2Z.id.
    pose proof (get_loop_ok cmp max s A B la lb k Hinv HA HB Hla Hlb max None A eq_refl) as H. cbn [hgt] in H. rewrite (inv_head _ _ _ _ _ Hinv) in H. specialize (H ltac:(lia)).
    assert (Hasc : ascending cmp lb) by (destruct (proj1 (asc_app la lb) (inv_asc _ _ _ _ _ Hinv0)) as (_ & ? & _); done).
    rewrite (lookup_no k la lb (la_no k la Hla)).
    destruct (get_loop _ _ _ _ _ _) as [[[v|] s']| |]; [| |done|done].
    - destruct H as (-> & q & kv & Hq & Hkv & E0 & ->). do 2 f_equal.
      apply elem_of_list_lookup in Hq as [j Hj]. destruct (Forall2_lookup_l _ _ _ _ _ HB Hj) as (kv' & Hkv' & E). cbn in E. rewrite Hkv in E. injection E as <-.
      destruct lb as [|kv0 lb]; [done|]. destruct j as [|j].
      + injection Hkv' as ->. unfold lookup_k. cbn [suffix]. rewrite (proj2 (is_k_spec k kv) E0). done.
      + exfalso. change (lb !! j = Some kv) in Hkv'. apply elem_of_list_lookup_2 in Hkv'. apply StronglySorted_inv in Hasc as [_ Hs]. rewrite Forall_forall in Hs. specialize (Hs kv). cbn in Hs.
        assert (cmp kv0.1 kv.1 < 0) as Hlt by (by apply Hs). apply Forall_cons in Hlb as [Hk0 _]. pose proof (cmp_lt_le_trans _ OK kv0.1 kv.1 k Hlt ltac:(lia)). lia.
    - destruct H as [-> H]. do 2 f_equal. specialize (H ltac:(pose proof (inv_max _ _ _ _ _ Hinv); lia)). rewrite (head_lvl0 _ _ _ _ _ _ _ Hf0) in H.
      rewrite <- (app_nil_r lb). rewrite lookup_no; [reflexivity|]. apply lb_no; [done | done|].
      destruct HB as [|q kv B lb Hkv _]; [by intros []|]. cbn in H |- *. destruct H as (kv' & Hkv' & Hne). rewrite Hkv in Hkv'. by injection Hkv' as <-.
  Qed.

  (* ---------- Insert ---------- *)
  Lemma asc_insert k v (la lb : list (K * V)) : ascending cmp (la ++ lb) → Forall (λ kv, cmp kv.1 k < 0) la → Forall (λ kv, 0 <= cmp kv.1 k) lb → ¬ head_eq k lb →
    ascending cmp (la ++ (k, v) :: lb).
  Proof using OK.
    intros Hs Hla Hlb Hn. apply asc_app in Hs as (H1 & H2 & H3).
    assert (Hgt : ∀ x, x ∈ lb → cmp k x.1 < 0).
    { intros x Hx. pose proof (lb_no k lb H2 Hlb Hn) as Hno. rewrite Forall_forall in Hno, Hlb. specialize (Hno x Hx). specialize (Hlb x Hx). cbn in *.
      apply not_true_iff_false in Hno. rewrite is_k_spec in Hno. pose proof (sgn_flip k x.1). lia. }
    apply asc_app. split_and!; [done | constructor; [done|]; apply Forall_forall; intros x Hx; by apply Hgt |].
    intros x y Hx [->|Hy]%elem_of_cons; [|by apply H3]. rewrite Forall_forall in Hla. by apply Hla.
  Qed.
  (** the pairs before a key *)
  Definition before (k : K) (l : list (K * V)) : list (K * V) := filter (λ kv, cmp kv.1 k < 0) l.
  Lemma before_split k (la lb : list (K * V)) : Forall (λ kv, cmp kv.1 k < 0) la → Forall (λ kv, 0 <= cmp kv.1 k) lb → before k (la ++ lb) = la.
  Proof using.
    intros Ha Hb. unfold before. rewrite filter_app. assert (filter (λ kv : K * V, cmp kv.1 k < 0) lb = []) as ->.
    { induction Hb as [|kv lb H _ IH]; [done|]. rewrite filter_cons_False; [done|]. cbn in H. lia. }
    rewrite app_nil_r. induction Ha as [|kv la H _ IH]; [done|]. rewrite filter_cons_True by done. by rewrite IH.
  Qed.
  (** the heights of the towers of the nodes xs *)
  Definition hts s xs : list nat := ht s <$> xs.
  Lemma hts_ext s s' xs : (∀ p, p ∈ xs → ht s' p = ht s p) → hts s' xs = hts s xs.
  Proof using. intros H. unfold hts. induction xs as [|p xs IH]; [done|]. cbn. rewrite (H p) by apply elem_of_list_here. f_equal. apply IH. intros q Hq. apply H. by right. Qed.
  (** what Insert does to the towers: none changes, and a new key gets one of the height drawn *)
  Definition new_hts (max : nat) (word : Z) (k : K) (l : list (K * V)) (hs hs' : list nat) : Prop :=
    if existsb (is_k cmp k) l then hs' = hs
    else ∃ lev, randomLevel 64 (Z.of_nat max) word = Ok lev ∧ hs' = take (length (before k l)) hs ++ Z.to_nat lev :: drop (length (before k l)) hs.
  Lemma existsb_head k (la lb : list (K * V)) : ascending cmp lb → Forall (λ kv, cmp kv.1 k < 0) la → Forall (λ kv, 0 <= cmp kv.1 k) lb → (head_eq k lb → existsb (is_k cmp k) (la ++ lb) = true) ∧ (¬ head_eq k lb → existsb (is_k cmp k) (la ++ lb) = false).
  Proof using OK.
    intros Hs Ha Hb. split; intros H; rewrite existsb_app.
    - destruct lb as [|kv lb]; [by destruct H|]. cbn in H |- *. rewrite (proj2 (is_k_spec k kv) H). by rewrite orb_true_r.
    - rewrite (exists_no k la (la_no k la Ha)), (exists_no k lb (lb_no k lb Hs Hb H)). done.
  Qed.
  (** the nodes before the key stay, all nodes stay in the list and keep their keys *)
  Lemma sk_Insert_all (max : nat) s xs l word k v : inv max s xs l → 0 <= word < 2 ^ 64 → ∃ s' xs', sk_Insert cmp word k v s = Ok (tt, s') ∧
    (take (length (before k l)) xs' = take (length (before k l)) xs ∧ ∀ p, p ∈ xs → p ∈ xs' ∧ fst <$> kvof s' p = fst <$> kvof s p) ∧ new_hts max word k l (hts s xs) (hts s' xs') ∧ inv max s' xs' (upsert cmp k v l).
  Proof using OK.
    intros Hinv0 Hword. destruct (found_exists cmp OK max s xs l k Hinv0) as (A & B & la & lb & -> & -> & Hf).
    destruct (findPrevNodes_ok cmp max s A B la lb k Hf) as (c & Efind & Hf1 & Hprev0). destruct (prevs_fun s A c max Hprev0) as [prev Hprev]. clear Hprev0.
    unfold sk_Insert. unfold mbind_ at 1. rewrite Efind. set (s1 := with_cache s c) in *.
    assert (Hf1' := Hf1). destruct Hf1' as (Hinv & HA & HB & Hla & Hlb). pose proof (inv_max _ _ _ _ _ Hinv) as Hmax.
    destruct (Hprev 0%nat ltac:(lia)) as [Hc0 Hp0]. unfold mbind_ at 1. change 0 with (Z.of_nat 0) at 1. rewrite (prevat_ok s1 0 (prev 0%nat) Hc0).
    assert (Hn0 := prev_next cmp s1 A B la lb k max 0 (prev 0%nat) Hf1 Hp0). rewrite (head_lvl0 _ _ _ _ _ _ _ Hf1) in Hn0.
    unfold mbind_ at 1. change 0 with (Z.of_nat 0) at 1. rewrite (nextat_ok _ _ _ _ Hn0).
    rewrite upsert_skip by done.
    assert (Hsm : sk_max s1 = Z.of_nat max) by apply Hinv.
    assert (Hasc0 : ascending cmp lb) by (destruct (proj1 (asc_app la lb) (inv_asc _ _ _ _ _ Hinv)) as (_ & ? & _); done).
    assert (Hlen0 : length A = length la) by (by eapply Forall2_length).
    unfold new_hts. rewrite (before_split k la lb Hla Hlb). destruct (existsb_head k la lb Hasc0 Hla Hlb) as [Hex1 Hex2].
    assert (Hdec : head_eq k lb ∨ ¬ head_eq k lb) by (destruct lb as [|kv lb]; [right; intros []|]; cbn; lia).
    destruct Hdec as [Heq|Hneq].
    - rewrite (Hex1 Heq). clear Hex1 Hex2. destruct HB as [|q kv B lb Hkv HB]; [by destruct Heq|]. cbn in Heq. destruct (el_ok _ _ _ Hkv) as (e & He & Hek & _).
      unfold mbind_ at 1. cbn [head]. unfold mbind_ at 1. rewrite He. cbn [mret_]. unfold mret_. rewrite Hek.
      destruct (Z.eqb_spec (cmp kv.1 k) 0); [|lia]. destruct kv as [k' v']. rewrite upsert_old by done.
      unfold setval. unfold el in He. destruct (sk_els s1 !! q) as [e'|] eqn:Eq; [|done]. injection He as ->.
      eexists _, (A ++ q :: B). split; [reflexivity|]. split.
      { split; [done|]. intros p Hp. split; [done|]. unfold kvof. cbn [sk_els]. destruct (decide (p = q)) as [->|Hne]; [|by rewrite list_lookup_insert_ne].
        rewrite list_lookup_insert by (by eapply lookup_lt_Some). change (sk_els s !! q) with (sk_els s1 !! q). by rewrite Eq. }
      assert (Hkvq : e_key e = k') by done. assert (HqA : q ∉ A ∧ q ∉ B).
      { pose proof (inv_nodup _ _ _ _ _ Hinv) as Hnd. apply NoDup_app in Hnd as (_ & Hd & Hnd). apply NoDup_cons in Hnd as [Hnd _]. split; [|done]. intros Hq. apply (Hd q Hq), elem_of_list_here. }
      set (s2 := MkSkip _ _ _ _ _).
      assert (Hht : ∀ p, ht s2 p = ht s1 p).
      { intros p. unfold ht, s2. cbn [sk_els]. destruct (decide (p = q)) as [->|Hne]; [rewrite list_lookup_insert by (by eapply lookup_lt_Some); by rewrite Eq | by rewrite list_lookup_insert_ne]. }
      assert (Hnx : ∀ r i, nx s2 r i = nx s1 r i).
      { intros [p|] i; [|done]. unfold nx, s2. cbn [sk_els]. destruct (decide (p = q)) as [->|Hne]; [rewrite list_lookup_insert by (by eapply lookup_lt_Some); by rewrite Eq | by rewrite list_lookup_insert_ne]. }
      assert (Hkvs : ∀ p, p ≠ q → kvof s2 p = kvof s1 p) by (intros p Hne; unfold kvof, s2; cbn [sk_els]; by rewrite list_lookup_insert_ne).
      assert (Hoth : ∀ C l', q ∉ C → Forall2 (λ p kv, kvof s1 p = Some kv) C l' → Forall2 (λ p kv, kvof s2 p = Some kv) C l').
      { intros C l' Hq. induction 1 as [|p kv C l' Hp _ IH]; constructor; [rewrite Hkvs; [done|]; intros ->; apply Hq, elem_of_list_here | apply IH; intros Hq'; apply Hq; by right]. }
      split; [apply hts_ext; intros p _; exact (Hht p)|].
      constructor; try apply Hinv.
      + pose proof (inv_len _ _ _ _ _ Hinv) as HL. rewrite app_length in HL |- *. exact HL.
      + destruct HqA as [HqA HqB]. apply Forall2_app; [by apply (Hoth A la)|]. constructor; [|by apply (Hoth B lb)]. unfold kvof, s2. cbn [sk_els]. rewrite list_lookup_insert by (by eapply lookup_lt_Some). cbn. by rewrite Hkvq.
      + intros p Hp. rewrite Hht. by apply (inv_ht _ _ _ _ _ Hinv).
      + pose proof (inv_asc _ _ _ _ _ Hinv) as Hs. apply asc_app in Hs as (Hs1 & Hs2 & Hs3). apply StronglySorted_inv in Hs2 as [Hs2 Hs4]. apply asc_app. split_and!; [done | by constructor |].
        intros x y Hx [->|Hy]%elem_of_cons; [apply (Hs3 x (k', v') Hx), elem_of_list_here | apply Hs3; [done | by right]].
      + intros r Y i Ha Hi. rewrite Hnx. assert (Hh' : hgt s2 r = hgt s1 r) by (destruct r as [p|]; [apply Hht | done]). rewrite Hh' in Hi.
        rewrite (inv_links _ _ _ _ _ Hinv r Y i Ha Hi). do 2 f_equal. apply lvl_ext. intros p _. by rewrite Hht.
    - rewrite (Hex2 Hneq). clear Hex1 Hex2. unfold mbind_ at 1.
      assert (Esame : (match head B with None => mret_ false | Some _ => let! e := el (head B) in mret_ (cmp (e_key e) k =? 0) end) s1 = Ok (false, s1)).
      { destruct HB as [|q kv B lb Hkv HB]; [done|]. cbn [head]. destruct (el_ok _ _ _ Hkv) as (e & He & Hek & _). unfold mbind_. rewrite He, Hek. cbn in Hneq. destruct (Z.eqb_spec (cmp kv.1 k) 0); [done|]. done. }
      rewrite Esame. unfold mbind_ at 1. cbn [getmax]. unfold mbind_ at 1.
      destruct (randomLevel_ok (sk_max s1) word) as (lev & Elev & Hlev & _); [rewrite (inv_smax _ _ _ _ _ Hinv); lia | lia|]. unfold getmax. rewrite Elev.
      rewrite (inv_smax _ _ _ _ _ Hinv) in Hlev. set (h := Z.to_nat lev). assert (Hh : (1 <= h <= max)%nat) by lia.
      unfold mbind_ at 1. unfold newelem. destruct (Z.ltb_spec lev 0); [lia|]. fold h. set (e := length (sk_els s1)). set (s2 := MkSkip (sk_els s1 ++ _) _ _ _ _).
      assert (HeA : ∀ p, p ∈ A ++ B → (p < e)%nat).
      { intros p Hp. apply elem_of_list_lookup in Hp as [j Hj]. destruct (Forall2_lookup_l _ _ _ _ _ (inv_kv _ _ _ _ _ Hinv) Hj) as (kv & _ & Hkv). cbn in Hkv. by apply kvof_lt in Hkv. }
      assert (Hels : ∀ p, (p < e)%nat → sk_els s2 !! p = sk_els s1 !! p) by (intros p Hp; unfold s2; cbn; by rewrite lookup_app_l).
      assert (Hele : sk_els s2 !! e = Some (MkElem (replicate h None) k v)) by (unfold s2; cbn; by rewrite lookup_app_r, Nat.sub_diag by done).
      assert (Hht2 : ∀ p, (p < e)%nat → ht s2 p = ht s1 p) by (intros p Hp; unfold ht; by rewrite Hels).
      assert (Hhte : ht s2 e = h) by (unfold ht; rewrite Hele; cbn; apply replicate_length).
      assert (Hpe : ∀ i p, (i < max)%nat → prev i = Some p → (p < e)%nat).
      { intros i p Hi Ep. destruct (Hprev i Hi) as [_ Hp]. apply HeA, elem_of_app. left. by eapply is_prev_in. }
      assert (Hhg : ∀ i, (i < max)%nat → hgt s2 (prev i) = hgt s1 (prev i)).
      { intros i Hi. destruct (prev i) as [p|] eqn:Ep; [|done]. cbn. apply Hht2. by eapply Hpe. }
      destruct (link_loop_ok h s2 0 e prev) as (s3 & E3 & Hs3 & Hn3).
      { intros i Hi. destruct (Hprev i ltac:(lia)) as [Hci (Y & Ha & Hl & Hhi)]. split_and!; [exact Hci | | rewrite Hhg by lia; exact Hhi | rewrite Hhte; lia].
        intros Ep. specialize (Hpe i e ltac:(lia) Ep). lia. }
      unfold mbind_ at 1. change 0 with (Z.of_nat 0). rewrite E3. unfold addlen. rewrite upsert_new by done.
      destruct Hs3 as (Hs3max & Hs3len & Hs3c & Hs3els & Hs3h & Hs3kv & Hs3ht).
      eexists _, (A ++ e :: B). split; [reflexivity|]. split.
      { split; [rewrite <-Hlen0; by rewrite !take_app_alt|]. intros p Hp. split; [rewrite elem_of_app in Hp |- *; rewrite elem_of_cons; tauto|].
        assert (Ek : kvof s3 p = kvof s1 p) by (transitivity (kvof s2 p); [apply Hs3kv | unfold kvof; by rewrite Hels by (by apply HeA)]). change (fst <$> kvof s3 p = fst <$> kvof s1 p). by rewrite Ek. }
      set (s4 := MkSkip _ _ _ _ _).
      assert (Hht4 : ∀ p, p ∈ A ++ B → ht s4 p = ht s1 p) by (intros p Hp; transitivity (ht s2 p); [apply Hs3ht | apply Hht2; by apply HeA]).
      assert (Hht4e : ht s4 e = h) by (transitivity (ht s2 e); [apply Hs3ht | done]).
      assert (Hkv4 : ∀ p, p ∈ A ++ B → kvof s4 p = kvof s1 p) by (intros p Hp; transitivity (kvof s2 p); [apply Hs3kv | unfold kvof; by rewrite Hels by (by apply HeA)]).
      assert (Hoth : ∀ C l', (∀ p, p ∈ C → p ∈ A ++ B) → Forall2 (λ p kv, kvof s1 p = Some kv) C l' → Forall2 (λ p kv, kvof s4 p = Some kv) C l').
      { intros C l' Hsub. induction 1 as [|p kv C l' Hp _ IH]; constructor; [rewrite Hkv4; [done|]; apply Hsub, elem_of_list_here | apply IH; intros q Hq; apply Hsub; by right]. }
      pose proof (inv_nodup _ _ _ _ _ Hinv) as Hnd.
      assert (HndA : NoDup A) by (by apply NoDup_app in Hnd as [? _]).
      assert (Hlvl : ∀ C i, (∀ p, p ∈ C → p ∈ A ++ B) → lvl (ht s4) i C = lvl (ht s1) i C) by (intros C i Hsub; apply lvl_ext; intros p Hp; by apply Hht4, Hsub).
      assert (Hnx4 : ∀ r i, (∀ p, r = Some p → p ∈ A ++ B) → nx s2 r i = nx s1 r i).
      { intros [p|] i Hin; [|done]. cbn. by rewrite Hels by (by apply HeA, Hin). }
      split.
      { exists lev. split; [by rewrite <-Hsm|]. unfold hts. rewrite !fmap_app, fmap_cons, Hht4e. rewrite <-Hlen0.
        rewrite take_app_alt, drop_app_alt by (by rewrite fmap_length). f_equal; [|f_equal]; apply (hts_ext s s4); intros p Hp; apply Hht4, elem_of_app; [by left|by right]. }
      constructor; try done.
      + cbn. rewrite Hs3max. apply Hinv.
      + cbn. rewrite Hs3h. apply Hinv.
      + cbn. rewrite Hs3c. apply Hinv.
      + pose proof (inv_len _ _ _ _ _ Hinv) as HL. rewrite app_length in HL |- *. change (sk_len s3 + 1 = Z.of_nat (length la + S (length lb))). rewrite Hs3len. change (sk_len s2) with (sk_len s1). lia.
      + apply NoDup_app in Hnd as (Hn1 & Hn2 & Hn4). apply NoDup_app. split_and!; [done | | constructor; [|done]].
        * intros x Hx [->|Hy]%elem_of_cons; [assert (e < e)%nat; [|lia]; apply HeA, elem_of_app; by left | by apply (Hn2 x)].
        * intros Hx. assert (e < e)%nat; [|lia]. apply HeA, elem_of_app. by right.
      + apply Forall2_app; [apply Hoth; [|done]; intros p Hp; apply elem_of_app; by left|]. constructor; [|apply Hoth; [|done]; intros p Hp; apply elem_of_app; by right].
        transitivity (kvof s2 e); [apply Hs3kv|]. unfold kvof. by rewrite Hele.
      + intros p Hp. rewrite elem_of_app, elem_of_cons in Hp. destruct (decide (p = e)) as [->|Hne]; [rewrite Hht4e; lia|].
        assert (p ∈ A ++ B) as Hin by (apply elem_of_app; tauto). rewrite Hht4 by done. by apply (inv_ht _ _ _ _ _ Hinv).
      + apply asc_insert; [apply Hinv | done | done | done].
      + intros r Y i Ha Hi. change (nx s4 r i) with (nx s3 r i). rewrite Hn3.
        assert (Hi4 : (i < max)%nat).
        { destruct r as [p|]; cbn in Hi; [|rewrite Hs3h in Hi; cbn in Hi; rewrite (inv_head _ _ _ _ _ Hinv : length (sk_head s) = _) in Hi; lia].
          apply after_in with (p := p) in Ha; [|done]. rewrite elem_of_app, elem_of_cons in Ha. destruct (decide (p = e)) as [->|Hne]; [rewrite Hht4e in Hi; lia|].
          assert (p ∈ A ++ B) as Hin by (apply elem_of_app; tauto). rewrite Hht4 in Hi by done. pose proof (inv_ht _ _ _ _ _ Hinv p Hin). lia. }
        destruct (Hprev i Hi4) as [_ Hpi].
        apply after_split in Ha as [(Y0 & Ha & ->)|(p & l1 & -> & El)].
        * (* r is in A or the head *)
          assert (Hre : r ≠ Some e). { intros ->. assert (e < e)%nat; [|lia]. apply HeA, elem_of_app. left. by eapply after_in. }
          assert (Hri : (i < hgt s1 r)%nat). { destruct r as [p|]; cbn in Hi |- *; [rewrite Hht4 in Hi; [done|]; apply elem_of_app; left; by eapply after_in | by rewrite Hs3h in Hi]. }
          assert (Hrin : ∀ p, r = Some p → p ∈ A ++ B) by (intros p Ep; apply elem_of_app; left; by eapply after_in).
          rewrite (decide_False (P := r = Some e)) by done. rewrite (Hnx4 r i Hrin).
          rewrite (inv_links _ _ _ _ _ Hinv r (Y0 ++ B) i (after_app _ _ _ _ Ha) Hri). rewrite !lvl_app.
          rewrite (Hlvl Y0) by (intros p Hp; apply elem_of_app; left; by eapply after_sub).
          pose proof (is_prev_unique s1 A i (prev i) r Y0 HndA Hpi Ha Hri) as Hu.
          destruct (lvl (ht s1) i Y0) as [|q rest] eqn:EY.
          -- cbn [app]. rewrite (proj1 Hu eq_refl). rewrite (decide_True (P := prev i = prev i)) by done. unfold lvl at 2. rewrite filter_cons, Hht4e.
             destruct (decide (0 <= i < 0 + h)%nat); [by rewrite decide_True by lia|]. rewrite decide_False by lia. fold (lvl (ht s4) i B). rewrite (Hlvl B) by (intros p Hp; apply elem_of_app; by right). done.
          -- cbn [app head]. rewrite (decide_False (P := r = prev i)) by (intros E; by apply Hu in E). by destruct (decide (0 <= i < 0 + h)%nat).
        * destruct l1 as [|e' l1]; cbn in El; injection El as <- El.
          -- subst Y. change (i < ht s4 e)%nat in Hi. rewrite Hht4e in Hi. rewrite decide_True by lia. rewrite decide_True by done.
             assert (Hin : ∀ p, prev i = Some p → p ∈ A ++ B) by (intros p Ep; apply elem_of_app; left; by eapply is_prev_in).
             rewrite (Hnx4 _ _ Hin). rewrite (prev_next cmp s1 A B la lb k max i (prev i) Hf1 Hpi). rewrite (Hlvl B) by (intros p Hp; apply elem_of_app; by right). done.
          -- assert (HpB : p ∈ B) by (rewrite El; apply elem_of_app; right; apply elem_of_list_here).
             assert (Hpin : p ∈ A ++ B) by (apply elem_of_app; by right).
             assert (Hpne : Some p ≠ Some e) by (intros [= ->]; specialize (HeA e Hpin); lia).
             assert (Hpp : Some p ≠ prev i). { intros E. apply NoDup_app in Hnd as (_ & Hd & _). apply (Hd p); [|done]. by eapply is_prev_in. }
             rewrite (decide_False (P := Some p = Some e)) by done. rewrite (decide_False (P := Some p = prev i)) by done.
             assert (E : ∀ b : bool, (if b then nx s2 (Some p) i else nx s2 (Some p) i) = nx s2 (Some p) i) by (by intros []).
             replace (if decide (0 <= i < 0 + h)%nat then nx s2 (Some p) i else nx s2 (Some p) i) with (nx s2 (Some p) i) by (by destruct (decide (0 <= i < 0 + h)%nat)).
             rewrite Hnx4 by (intros q [= <-]; done). change (i < ht s4 p)%nat in Hi. rewrite Hht4 in Hi by done.
             assert (Ha : after (A ++ B) (Some p) Y) by (exists (A ++ l1); rewrite El; by rewrite <- app_assoc).
             rewrite (inv_links _ _ _ _ _ Hinv (Some p) Y i Ha Hi). do 2 f_equal. symmetry. apply Hlvl. intros q Hq. eapply after_sub; done.
  Qed.
  (** the nodes before the key stay *)
  Lemma sk_Insert_pre (max : nat) s xs l word k v : inv max s xs l → 0 <= word < 2 ^ 64 → ∃ s' xs', sk_Insert cmp word k v s = Ok (tt, s') ∧ take (length (before k l)) xs' = take (length (before k l)) xs ∧ new_hts max word k l (hts s xs) (hts s' xs') ∧ inv max s' xs' (upsert cmp k v l).
  Proof using OK. intros H1 H2. destruct (sk_Insert_all max s xs l word k v H1 H2) as (s' & xs' & ? & [? _] & ? & ?). by exists s', xs'. Qed.
  Lemma sk_Insert_hts (max : nat) s xs l word k v : inv max s xs l → 0 <= word < 2 ^ 64 → ∃ s' xs', sk_Insert cmp word k v s = Ok (tt, s') ∧ new_hts max word k l (hts s xs) (hts s' xs') ∧ inv max s' xs' (upsert cmp k v l).
  Proof using OK. intros H1 H2. destruct (sk_Insert_pre max s xs l word k v H1 H2) as (s' & xs' & ? & _ & ? & ?). by exists s', xs'. Qed.

  Lemma sk_Insert_ok (max : nat) s xs l word k v : inv max s xs l → 0 <= word < 2 ^ 64 → ∃ s' xs', sk_Insert cmp word k v s = Ok (tt, s') ∧ inv max s' xs' (upsert cmp k v l).
  Proof using OK. intros H1 H2. destruct (sk_Insert_hts max s xs l word k v H1 H2) as (s' & xs' & ? & _ & ?). by exists s', xs'. Qed.

  (* ---------- Remove ---------- *)
  (** ... and Remove: the tower of the key goes *)
  Definition less_hts (k : K) (l : list (K * V)) (hs hs' : list nat) : Prop :=
    hs' = if existsb (is_k cmp k) l then take (length (before k l)) hs ++ drop (S (length (before k l))) hs else hs.
  (** the nodes before the key stay; all nodes keep their pairs, all but that of the key stay in the list, and that keeps its next pointer *)
  Lemma sk_Remove_all (max : nat) s xs l k : inv max s xs l → ∃ s' xs', sk_Remove cmp k s = Ok (existsb (is_k cmp k) l, s') ∧
    (take (length (before k l)) xs' = take (length (before k l)) xs ∧ ∀ p kv, p ∈ xs → kvof s p = Some kv → kvof s' p = Some kv ∧ (cmp kv.1 k ≠ 0 → p ∈ xs') ∧ (cmp kv.1 k = 0 → nx s' (Some p) 0 = nx s (Some p) 0)) ∧ less_hts k l (hts s xs) (hts s' xs') ∧ inv max s' xs' (erase_k cmp k l).
  Proof using OK.
    intros Hinv0. destruct (found_exists cmp OK max s xs l k Hinv0) as (A & B & la & lb & -> & -> & Hf).
    destruct (findPrevNodes_ok cmp max s A B la lb k Hf) as (c & Efind & Hf1 & Hprev0). destruct (prevs_fun s A c max Hprev0) as [prev Hprev]. clear Hprev0.
    unfold sk_Remove. unfold mbind_ at 1. rewrite Efind. set (s1 := with_cache s c) in *.
    assert (Hf1' := Hf1). destruct Hf1' as (Hinv & HA & HB & Hla & Hlb). pose proof (inv_max _ _ _ _ _ Hinv) as Hmax.
    destruct (Hprev 0%nat ltac:(lia)) as [Hc0 Hp0]. unfold mbind_ at 1. change 0 with (Z.of_nat 0) at 1. rewrite (prevat_ok s1 0 (prev 0%nat) Hc0).
    assert (Hn0 := prev_next cmp s1 A B la lb k max 0 (prev 0%nat) Hf1 Hp0). rewrite (head_lvl0 _ _ _ _ _ _ _ Hf1) in Hn0.
    unfold mbind_ at 1. change 0 with (Z.of_nat 0) at 1. rewrite (nextat_ok _ _ _ _ Hn0).
    pose proof (inv_asc _ _ _ _ _ Hinv) as Hasc. assert (Hasc' := Hasc). apply asc_app in Hasc' as (Hs1 & Hs2 & Hs3).
    assert (Hlen0 : length A = length la) by (by eapply Forall2_length).
    unfold less_hts. rewrite (before_split k la lb Hla Hlb).
    assert (Hdec : head_eq k lb ∨ ¬ head_eq k lb) by (destruct lb as [|kv lb]; [right; intros []|]; cbn; lia).
    destruct Hdec as [Heq|Hneq].
    - destruct HB as [|q kv B lb Hkv HB]; [by destruct Heq|]. cbn in Heq. destruct (el_ok _ _ _ Hkv) as (e & He & Hek & _ & Hlen).
      cbn [head]. unfold mbind_ at 1. rewrite He, Hek. destruct (Z.eqb_spec (cmp kv.1 k) 0); [|lia]. cbn [negb]. rewrite Hlen.
      assert (Hqh : (1 <= ht s1 q <= max)%nat) by (apply (inv_ht _ _ _ _ _ Hinv), elem_of_app; right; apply elem_of_list_here).
      pose proof (inv_nodup _ _ _ _ _ Hinv) as Hnd. assert (Hnd' := Hnd). apply NoDup_app in Hnd' as (HndA & Hd & HndB). apply NoDup_cons in HndB as [HqB HndB].
      assert (HqA : q ∉ A) by (intros Hq; apply (Hd q Hq), elem_of_list_here).
      destruct (unlink_loop_ok (ht s1 q) s1 0 q prev) as (s3 & E3 & Hs & Hn3).
      { intros i Hi. destruct (Hprev i ltac:(lia)) as [Hci Hpi]. assert (Hpi' := Hpi). destruct Hpi' as (Y & Ha & Hl & Hhi). split_and!; [exact Hci | | exact Hhi | lia].
        intros Ep. apply HqA. by eapply is_prev_in. }
      unfold mbind_ at 1. change 0 with (Z.of_nat 0) at 1. rewrite E3. unfold mbind_ at 1, addlen, mret_.
      destruct Hs as (Hs3max & Hs3len & Hs3c & Hs3els & Hs3h & Hs3kv & Hs3ht).
      assert (Hex : existsb (is_k cmp k) (la ++ kv :: lb) = true) by (rewrite existsb_app; cbn; rewrite (proj2 (is_k_spec k kv) Heq); apply orb_true_r).
      assert (Her : erase_k cmp k (la ++ kv :: lb) = la ++ lb).
      { unfold erase_k. rewrite filter_app, filter_cons_False by (rewrite (proj2 (is_k_spec k kv) Heq); intros H; by apply H).
        f_equal; [apply (erase_no k la), la_no | apply (erase_no k lb), (lb_tail_no k kv lb)]; done. }
      rewrite Hex, Her. eexists _, (A ++ B). split; [reflexivity|]. split.
      { split; [rewrite <-Hlen0; by rewrite !take_app_alt|]. intros p kv' Hp Hkvp. split_and!.
        - change (kvof s3 p = Some kv'). rewrite Hs3kv. exact Hkvp.
        - intros Hne. rewrite elem_of_app, elem_of_cons in Hp. rewrite elem_of_app. destruct Hp as [?|[->|?]]; [tauto| |tauto]. change (kvof s1 q = Some kv') in Hkvp. rewrite Hkv in Hkvp. injection Hkvp as <-. done.
        - intros H0. change (nx s3 (Some p) 0 = nx s1 (Some p) 0). rewrite Hn3. rewrite decide_False; [done|]. intros [_ Ep].
          assert (HpA : p ∈ A) by (eapply is_prev_in; [exact Hp0 | by rewrite Ep]). apply elem_of_list_lookup in HpA as [j Hj]. destruct (Forall2_lookup_l _ _ _ _ _ HA Hj) as (kv2 & Hj2 & E2). cbn in E2.
          change (kvof s1 p = Some kv') in Hkvp. rewrite Hkvp in E2. injection E2 as <-. rewrite Forall_lookup in Hla. specialize (Hla _ _ Hj2). cbn in Hla. lia. }
      set (s4 := MkSkip _ _ _ _ _).
      assert (Hht4 : ∀ p, ht s4 p = ht s1 p) by apply Hs3ht. assert (Hkv4 : ∀ p, kvof s4 p = kvof s1 p) by apply Hs3kv.
      assert (Hlvl : ∀ C i, lvl (ht s4) i C = lvl (ht s1) i C) by (intros C i; apply lvl_ext; intros p _; by apply Hht4).
      split.
      { unfold hts. rewrite !fmap_app, fmap_cons, <-Hlen0. rewrite take_app_alt by (by rewrite fmap_length). rewrite (cons_middle (ht s q)), (app_assoc _ [ht s q]). rewrite drop_app_alt by (rewrite app_length, fmap_length; cbn; lia).
        f_equal; apply (hts_ext s s4); intros p _; apply Hht4. }
      constructor; try done.
      + change (sk_max s3 = Z.of_nat max). rewrite Hs3max. apply Hinv.
      + change (length (sk_head s3) = max). rewrite Hs3h. apply Hinv.
      + change (length (sk_cache s3) = max). rewrite Hs3c. apply Hinv.
      + change (sk_len s3 + -1 = Z.of_nat (length (la ++ lb))). rewrite Hs3len. pose proof (inv_len _ _ _ _ _ Hinv) as HL. rewrite app_length in HL |- *. cbn [length] in HL. lia.
      + apply NoDup_app. split_and!; [done | | done]. intros x Hx Hy. apply (Hd x Hx). by right.
      + apply Forall2_app; (eapply Forall2_impl; [eassumption|]); cbn; intros p kv' Hp; by rewrite Hkv4.
      + intros p Hp. rewrite Hht4. apply (inv_ht _ _ _ _ _ Hinv). rewrite elem_of_app in Hp |- *. rewrite elem_of_cons. tauto.
      + apply StronglySorted_inv in Hs2 as [Hs2 _]. apply asc_app. split_and!; [done | done|]. intros x y Hx Hy. apply Hs3; [done | by right].
      + intros r Y i Ha Hi. change (nx s4 r i) with (nx s3 r i). rewrite Hn3, Hlvl.
        assert (Hri : (i < hgt s1 r)%nat). { destruct r as [p|]; [change (i < ht s4 p)%nat in Hi; by rewrite Hht4 in Hi | change (i < length (sk_head s3))%nat in Hi; by rewrite Hs3h in Hi]. }
        assert (Hi4 : (i < max)%nat).
        { destruct r as [p|]; cbn [hgt] in Hri; [|rewrite (inv_head _ _ _ _ _ Hinv) in Hri; lia].
          apply after_in with (p := p) in Ha; [|done]. assert (p ∈ A ++ q :: B) as Hin by (rewrite elem_of_app in Ha |- *; rewrite elem_of_cons; tauto). pose proof (inv_ht _ _ _ _ _ Hinv p Hin). lia. }
        destruct (Hprev i Hi4) as [_ Hpi].
        apply after_split in Ha as [(Y0 & Ha & ->)|(p & l1 & -> & El)].
        * pose proof (is_prev_unique s1 A i (prev i) r Y0 HndA Hpi Ha Hri) as Hu. rewrite lvl_app.
          pose proof (inv_links _ _ _ _ _ Hinv r (Y0 ++ q :: B) i (after_app _ _ _ _ Ha) Hri) as HL. rewrite lvl_app in HL.
          destruct (lvl (ht s1) i Y0) as [|a rest] eqn:EY.
          -- cbn [app] in *. rewrite (proj1 Hu eq_refl) in *. destruct (decide ((0 <= i < 0 + ht s1 q)%nat ∧ prev i = prev i)) as [[Hiq _]|Hiq].
             ++ apply (inv_links _ _ _ _ _ Hinv (Some q) B i); [by exists A | cbn; lia].
             ++ rewrite HL. unfold lvl. rewrite filter_cons_False; [done|]. intros Hlt. apply Hiq. split; [lia | done].
          -- rewrite decide_False; [exact HL|]. intros [_ E]. by apply Hu in E.
        * assert (HpB : p ∈ B) by (rewrite El; apply elem_of_app; right; apply elem_of_list_here).
          rewrite decide_False. 2:{ intros [_ E]. apply (Hd p); [by eapply is_prev_in | by right]. }
          apply (inv_links _ _ _ _ _ Hinv (Some p) Y i); [|done]. exists (A ++ q :: l1). rewrite El. by rewrite <- app_assoc.
    - assert (Hno : Forall (λ kv, is_k cmp k kv = false) (la ++ lb)) by (apply Forall_app; split; [by apply la_no | by apply lb_no]).
      rewrite (exists_no k _ Hno), (erase_no k _ Hno). exists s1, (A ++ B). split. 2:{ split; [|by split]. split; [done|]. intros p kv Hp Hkvp. by split_and!. }
      destruct HB as [|q kv B lb Hkv HB]; [done|]. cbn [head]. destruct (el_ok _ _ _ Hkv) as (e & He & Hek & _). unfold mbind_ at 1. rewrite He, Hek.
      cbn in Hneq. destruct (Z.eqb_spec (cmp kv.1 k) 0); [done|]. done.
  Qed.
  (** the nodes before the key stay *)
  Lemma sk_Remove_pre (max : nat) s xs l k : inv max s xs l → ∃ s' xs', sk_Remove cmp k s = Ok (existsb (is_k cmp k) l, s') ∧ take (length (before k l)) xs' = take (length (before k l)) xs ∧ less_hts k l (hts s xs) (hts s' xs') ∧ inv max s' xs' (erase_k cmp k l).
  Proof using OK. intros H1. destruct (sk_Remove_all max s xs l k H1) as (s' & xs' & ? & [? _] & ? & ?). by exists s', xs'. Qed.
  Lemma sk_Remove_hts (max : nat) s xs l k : inv max s xs l → ∃ s' xs', sk_Remove cmp k s = Ok (existsb (is_k cmp k) l, s') ∧ less_hts k l (hts s xs) (hts s' xs') ∧ inv max s' xs' (erase_k cmp k l).
  Proof using OK. intros H1. destruct (sk_Remove_pre max s xs l k H1) as (s' & xs' & ? & _ & ? & ?). by exists s', xs'. Qed.

  Lemma sk_Remove_ok (max : nat) s xs l k : inv max s xs l → ∃ s' xs', sk_Remove cmp k s = Ok (existsb (is_k cmp k) l, s') ∧ inv max s' xs' (erase_k cmp k l).
  Proof using OK. intros H1. destruct (sk_Remove_hts max s xs l k H1) as (s' & xs' & ? & _ & ?). by exists s', xs'. Qed.

  (* ---------- Traversal, Keys, Len ---------- *)
  Lemma trav_loop_ok {W} (vis : K → V → W → bool * W) (max : nat) s xs l : inv max s xs l → ∀ f ys ls xs0 w, xs = xs0 ++ ys → Forall2 (λ p kv, kvof s p = Some kv) ys ls → (length ys < f)%nat →
    trav_loop f vis (head ys) w s = Ok (visit vis ls w, s).
  Proof using.
    intros Hinv f. induction f as [|f IH]; intros ys ls xs0 w Hx Hkv Hf; [lia|]. destruct Hkv as [|p [k v] ys ls Hp Hkv]; [done|]. cbn [trav_loop head visit].
    destruct (el_ok _ _ _ Hp) as (e & He & Hek & Hev & _). unfold mbind_ at 1. rewrite He, Hek, Hev. cbn [fst snd]. destruct ((vis k v w).1); [|done].
    assert (Hin : ∀ q, q ∈ p :: ys → (1 <= ht s q)%nat) by (intros q Hq; apply (inv_ht _ _ _ _ _ Hinv); rewrite Hx; apply elem_of_app; by right).
    assert (Hn : nx s (Some p) 0%nat = Some (head ys)).
    { rewrite (inv_links _ _ _ _ _ Hinv (Some p) ys 0%nat); [| by exists xs0 | cbn; specialize (Hin p (elem_of_list_here _ _)); lia]. rewrite lvl_0; [done|]. intros q Hq. apply Hin. by right. }
    unfold mbind_ at 1. change 0 with (Z.of_nat 0) at 1. rewrite (nextat_ok s (Some p) 0%nat _ Hn). apply (IH ys ls (xs0 ++ [p])); [by rewrite Hx, <- app_assoc | done | cbn in Hf; lia].
  Qed.
  Lemma sk_Traversal_ok {W} (vis : K → V → W → bool * W) w (max : nat) s xs l : inv max s xs l → sk_Traversal vis w s = Ok (visit vis l w, s).
  Proof using.
    intros Hinv. unfold sk_Traversal. pose proof (inv_max _ _ _ _ _ Hinv).
    assert (Hn : nx s None 0%nat = Some (head xs)).
    { rewrite (inv_links _ _ _ _ _ Hinv None xs 0%nat); [| done | cbn; rewrite (inv_head _ _ _ _ _ Hinv); lia]. rewrite lvl_0; [done|]. intros q Hq. by apply (inv_ht _ _ _ _ _ Hinv). }
    unfold mbind_ at 1. change 0 with (Z.of_nat 0) at 1. rewrite (nextat_ok s None 0%nat _ Hn). unfold mbind_, walkfuel. eapply (trav_loop_ok vis max s xs l Hinv _ xs l []); [done | apply Hinv|].
    apply Nat.lt_succ_r. by eapply inv_length.
  Qed.
  Lemma visit_keys (l : list (K * V)) : ∀ acc, visit (λ k _ ks, (true, ks ++ [k])) l acc = acc ++ l.*1.
  Proof using. induction l as [|[k v] l IH]; intros acc; cbn [visit fst snd fmap list_fmap]; [by rewrite app_nil_r|]. rewrite IH, <- app_assoc. done. Qed.
  Lemma new_inv (max : nat) : (1 <= max <= 64)%nat → ∃ s, sk_New (Z.of_nat max) = Ok s ∧ inv max s [] [].
  Proof using.
    intros Hm. unfold sk_New. destruct (Z.ltb_spec (Z.of_nat max) 0); [lia|]. eexists. split; [reflexivity|]. rewrite Nat2Z.id. constructor.
    - lia.
    - done.
    - cbn [sk_head]. by rewrite replicate_length.
    - cbn [sk_cache]. by rewrite replicate_length.
    - done.
    - constructor.
    - constructor.
    - intros p Hp. by apply elem_of_nil in Hp.
    - constructor.
    - intros [p|] Y i Ha Hi; [destruct Ha as [l1 Ha]; by destruct l1|]. cbn in Ha, Hi |- *. subst Y. rewrite replicate_length in Hi. by rewrite lookup_replicate_2.
  Qed.
End ops.
