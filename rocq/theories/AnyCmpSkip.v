(** The skip list with any comparison function: the links stay right whatever the comparisons answer,
    because a search meets a node again on every lower level. *)
From Verif Require Import Base History ListLib RbSpec MapSpec MapProofs SkipModel SkipSpec SkipProofs SkipOps AnyCmpSpec.
Open Scope Z_scope.
Open Scope go_scope.

Section proofs.
  Context {K V : Type} (cmp : K → K → Z).
  Notation skip := (skip K V).
  Implicit Types (s : skip) (xs A B Y : list nat) (p q : nat) (r : option nat) (l : list (K * V)).
  (** for this function every list ascends: the invariant without the order *)
  Definition neg : K → K → Z := λ _ _, -1.
  Lemma neg_asc l : ascending neg l.
  Proof using. unfold ascending. induction l as [|x l IH]; constructor; [done|]. apply Forall_forall. done. Qed.
  Notation sinv := (inv neg).
  Definition stops s (key : K) r : Prop := match r with None => True | Some q => ∃ kv, kvof s q = Some kv ∧ 0 <= cmp kv.1 key end.
  Definition passed s (key : K) r : Prop := match r with None => True | Some q => ∃ kv, kvof s q = Some kv ∧ cmp kv.1 key < 0 end.

  Lemma kv_in (max : nat) s xs l p : sinv max s xs l → p ∈ xs → ∃ kv, kvof s p = Some kv ∧ kv ∈ l.
  Proof using. intros H Hp. apply elem_of_list_lookup in Hp as [i Hi]. destruct (Forall2_lookup_l _ _ _ _ _ (inv_kv _ _ _ _ _ H) Hi) as (kv & Hk & E). exists kv. split; [done|by eapply elem_of_list_lookup_2]. Qed.
  Lemma fuel_ok (max : nat) s xs l (i : nat) Y r : sinv max s xs l → after xs r Y → (length (lvl (ht s) i Y) < S (length (sk_els s)))%nat.
  Proof using.
    intros Hinv Ha. apply Nat.lt_succ_r. etransitivity; [|exact (inv_length _ _ _ _ _ Hinv)]. etransitivity; [apply filter_length|].
    destruct r as [p|]; cbn in Ha; [destruct Ha as [l1 ->]; rewrite app_length; cbn; lia | subst; lia].
  Qed.
  Lemma after_step xs r Y1 q Y2 : after xs r (Y1 ++ q :: Y2) → after xs (Some q) Y2.
  Proof using. destruct r as [p|]; cbn; [intros [l1 ->]; exists (l1 ++ p :: Y1); by rewrite <- app_assoc | intros <-; by exists Y1]. Qed.

  Lemma walk_any (max : nat) s xs l key : sinv max s xs l → ∀ f (i : nat) r Y, after xs r Y → (i < hgt s r)%nat → passed s key r → (length (lvl (ht s) i Y) < f)%nat →
    ∃ r' Y1 Y', walk cmp f key (Z.of_nat i) r (head (lvl (ht s) i Y)) s = Ok (r', s) ∧ Y = Y1 ++ Y' ∧ after xs r' Y' ∧ (i < hgt s r')%nat ∧ passed s key r' ∧
      stops s key (head (lvl (ht s) i Y')) ∧ (∀ q, q ∈ Y1 → (i < ht s q)%nat → passed s key (Some q)) ∧ (r' = r ∧ Y1 = [] ∨ ∃ Y0 q, Y1 = Y0 ++ [q] ∧ r' = Some q).
  Proof using.
    intros Hinv f. induction f as [|f IH]; intros i r Y Ha Hh Hps Hf; [lia|]. cbn [walk]. destruct (lvl (ht s) i Y) as [|q rest] eqn:EY; cbn [head].
    { exists r, [], Y. split_and!; [done|done|done|done|done|by rewrite EY|intros q Hq; by apply elem_of_nil in Hq|by left]. }
    assert (EY' := EY). apply lvl_cons_inv in EY' as (Y1 & Y2 & -> & H1 & Hq & Erest). pose proof (after_step _ _ _ _ _ Ha) as Haq.
    destruct (kv_in max s xs l q Hinv) as (kv & Hkv & _). { destruct Haq as [l1 ->]. apply elem_of_app. right. apply elem_of_list_here. }
    destruct (el_ok _ _ _ Hkv) as (e & He & Hek & _). unfold mbind_. rewrite He, Hek. rewrite Z.geb_leb. destruct (Z.leb_spec 0 (cmp kv.1 key)) as [Hc|Hc].
    { exists r, [], (Y1 ++ q :: Y2). split_and!; [done|done|done|done|done|rewrite EY; by exists kv|intros q' Hq'; by apply elem_of_nil in Hq'|by left]. }
    rewrite (nextat_ok _ _ _ _ (inv_links _ _ _ _ _ Hinv (Some q) Y2 i Haq Hq)). subst rest.
    destruct (IH i (Some q) Y2 Haq Hq ltac:(by exists kv) ltac:(cbn [length] in Hf; lia)) as (r' & Y3 & Y' & E1 & -> & H2 & H3 & H4 & H5 & H6 & H7).
    exists r', (Y1 ++ q :: Y3), Y'. split_and!; [done|by rewrite <- app_assoc|done|done|done|done| |].
    - intros q' Hq' Hh'. apply elem_of_app in Hq' as [Hq'|[->|Hq']%elem_of_cons]; [|by exists kv|by apply H6]. exfalso. by apply (proj1 (lvl_nil _ _ _) H1 q' Hq').
    - right. destruct H7 as [[-> ->]|(Y0 & q0 & -> & ->)]; [by exists Y1, q|]. exists (Y1 ++ q :: Y0), q0. split; [by rewrite <- app_assoc|done].
  Qed.
  Lemma get_walk_any (max : nat) s xs l key : sinv max s xs l → ∀ f (i : nat) r Y, after xs r Y → (i < hgt s r)%nat → (length (lvl (ht s) i Y) < f)%nat →
    (∃ kv, get_walk cmp f key (Z.of_nat i) r (head (lvl (ht s) i Y)) s = Ok (inl kv.2, s) ∧ kv ∈ l ∧ cmp kv.1 key = 0) ∨
    (∃ r' Y', get_walk cmp f key (Z.of_nat i) r (head (lvl (ht s) i Y)) s = Ok (inr r', s) ∧ after xs r' Y' ∧ (i < hgt s r')%nat).
  Proof using.
    intros Hinv f. induction f as [|f IH]; intros i r Y Ha Hh Hf; [lia|]. cbn [get_walk]. destruct (lvl (ht s) i Y) as [|q rest] eqn:EY; cbn [head]. { right. by exists r, Y. }
    apply lvl_cons_inv in EY as (Y1 & Y2 & -> & H1 & Hq & ->). pose proof (after_step _ _ _ _ _ Ha) as Haq.
    destruct (kv_in max s xs l q Hinv) as (kv & Hkv & Hin). { destruct Haq as [l1 ->]. apply elem_of_app. right. apply elem_of_list_here. }
    destruct (el_ok _ _ _ Hkv) as (e & He & Hek & Hev & _). unfold mbind_. rewrite He, Hek, Hev. destruct (Z.eqb_spec (cmp kv.1 key) 0); [left; by exists kv|].
    destruct (cmp kv.1 key >? 0); [right; by exists r, (Y1 ++ q :: Y2)|]. rewrite (nextat_ok _ _ _ _ (inv_links _ _ _ _ _ Hinv (Some q) Y2 i Haq Hq)). apply IH; [done|done|cbn [length] in Hf; lia].
  Qed.
  Lemma get_any (max : nat) s xs l key : sinv max s xs l → ∃ o, sk_Get cmp key s = Ok (o, s) ∧ match o with None => True | Some v => ∃ kv, kv ∈ l ∧ cmp kv.1 key = 0 ∧ v = kv.2 end.
  Proof using.
    intros Hinv. unfold sk_Get, mbind_, getmax, walkfuel. rewrite (inv_smax _ _ _ _ _ Hinv), Nat2Z.id.
    assert (∀ lv r Y, after xs r Y → (lv <= hgt s r)%nat → ∃ o, get_loop cmp lv (S (length (sk_els s))) key r s = Ok (o, s) ∧ match o with None => True | Some v => ∃ kv, kv ∈ l ∧ cmp kv.1 key = 0 ∧ v = kv.2 end) as H.
    { induction lv as [|lv IH]; intros r Y Ha Hh; [by exists None|]. cbn [get_loop]. unfold mbind_. rewrite (nextat_ok _ _ _ _ (inv_links _ _ _ _ _ Hinv r Y lv Ha ltac:(lia))).
      destruct (get_walk_any max s xs l key Hinv (S (length (sk_els s))) lv r Y Ha ltac:(lia) (fuel_ok _ _ _ _ _ _ _ Hinv Ha)) as [(kv & -> & Hq & Hkv)|(r' & Y' & -> & Ha' & Hh')].
      - exists (Some kv.2). split; [done|]. by exists kv.
      - apply (IH r' Y' Ha'). lia. }
    apply (H max None xs); [done|]. cbn. by rewrite (inv_head _ _ _ _ _ Hinv).
  Qed.

  Lemma prefix_first (h : nat → nat) i A B q p : head (lvl h i (A ++ B)) = Some q → p ∈ A → (i < h p)%nat → q ∈ A.
  Proof using. rewrite lvl_app. destruct (lvl h i A) as [|a rest] eqn:E. { intros _ Hp Hh. exfalso. by apply (proj1 (lvl_nil _ _ _) E p Hp). } cbn. intros [= ->] _ _. apply lvl_cons_inv in E as (Y1 & Y2 & -> & _). apply elem_of_app. right. apply elem_of_list_here. Qed.
  Lemma prev_loop_any (max : nat) xs l key (lv : nat) : ∀ s r Y, sinv max s xs l → after xs r Y → (lv <= hgt s r)%nat → (lv <= max)%nat → passed s key r →
    ∃ c A B YA r0, prev_loop cmp lv (S (length (sk_els s))) key r s = Ok (tt, with_cache s c) ∧ length c = length (sk_cache s) ∧ xs = A ++ B ∧ after A r YA ∧ Y = YA ++ B ∧
      (∀ i, (i < lv)%nat → ∃ r', c !! i = Some (Some r') ∧ is_prev s A i r') ∧ (∀ i, (lv <= i)%nat → c !! i = sk_cache s !! i) ∧
      (∀ q, q ∈ YA → (lv <= ht s q)%nat → passed s key (Some q)) ∧ after A r0 [] ∧ passed s key r0 ∧ (lv ≠ 0%nat → stops s key (head (lvl (ht s) 0 B))).
  Proof using.
    induction lv as [|lv IH]; intros s r Y Hinv Ha Hh Hm Hps.
    { assert (∃ A, xs = A ++ Y ∧ after A r []) as (A & Ex & HA0). { destruct r as [p|]; cbn in Ha; [destruct Ha as [l1 ->]; exists (l1 ++ [p]); split; [by rewrite <- app_assoc|by exists l1]|exists []; by subst Y]. }
      exists (sk_cache s), A, Y, [], r. split_and!; [by destruct s|done|done|done|done|lia|done|intros q Hq; by apply elem_of_nil in Hq|done|done|done]. }
    cbn [prev_loop]. unfold mbind_ at 1.
    assert (Hh0 : (lv < hgt s None)%nat) by (cbn; rewrite (inv_head _ _ _ _ _ Hinv); lia).
    rewrite (nextat_ok _ _ _ _ (inv_links _ _ _ _ _ Hinv None xs lv eq_refl Hh0)).
    assert (∃ r' Y1 Y', (match head (lvl (ht s) lv xs) with Some _ => let! next := nextat r (Z.of_nat lv) in walk cmp (S (length (sk_els s))) key (Z.of_nat lv) r next | None => mret_ r end) s = Ok (r', s) ∧
      Y = Y1 ++ Y' ∧ after xs r' Y' ∧ (lv < hgt s r')%nat ∧ passed s key r' ∧ stops s key (head (lvl (ht s) lv Y')) ∧ (∀ q, q ∈ Y1 → (lv < ht s q)%nat → passed s key (Some q)) ∧ (r' = r ∧ Y1 = [] ∨ ∃ Y0 q, Y1 = Y0 ++ [q] ∧ r' = Some q)) as (r' & Y1 & Y' & E & -> & Ha' & Hh' & Hps' & Hst & HY1 & Hr').
    { destruct (head (lvl (ht s) lv xs)) as [q|] eqn:Eh.
      - destruct (walk_any max s xs l key Hinv (S (length (sk_els s))) lv r Y Ha ltac:(lia) Hps (fuel_ok _ _ _ _ _ _ _ Hinv Ha)) as (r' & Y1 & Y' & Ew & H). exists r', Y1, Y'. split; [|done].
        unfold mbind_. by rewrite (nextat_ok _ _ _ _ (inv_links _ _ _ _ _ Hinv r Y lv Ha ltac:(lia))).
      - exists r, [], Y. split_and!; [done|done|done|lia|done| |intros q Hq; by apply elem_of_nil in Hq|by left]. destruct (head (lvl (ht s) lv Y)) as [q|] eqn:Eq; [|done]. exfalso.
        destruct (lvl (ht s) lv Y) as [|q' rest] eqn:El; [done|]. injection Eq as ->. apply lvl_cons_inv in El as (Y1 & Y2 & -> & _ & Hq & _). destruct (lvl (ht s) lv xs) eqn:Ex; [|done]. apply (proj1 (lvl_nil _ _ _) Ex q); [|done].
        pose proof (after_step _ _ _ _ _ Ha) as [l1 ->]. apply elem_of_app. right. apply elem_of_list_here. }
    unfold mbind_ at 1. rewrite E. unfold mbind_ at 1. unfold setprev. rewrite upd_nat by (rewrite (inv_cache _ _ _ _ _ Hinv); lia).
    fold (with_cache s (<[lv:=Some r']> (sk_cache s))).
    assert (Hinv' : sinv max (with_cache s (<[lv:=Some r']> (sk_cache s))) xs l) by (apply inv_with_cache; [done | by rewrite insert_length]).
    destruct (IH (with_cache s (<[lv:=Some r']> (sk_cache s))) r' Y' Hinv' Ha' ltac:(change (lv <= hgt s r')%nat; lia) ltac:(lia) Hps') as (c & A & B & YA & r0 & Ec & Hlen & -> & HaA & -> & Hc & Hk & HYA & H0 & Hp0 & Hst0).
    assert (lvl (ht s) lv YA = []) as Hnil.
    { apply lvl_nil. intros p Hp Hhp. destruct (head (lvl (ht s) lv (YA ++ B))) as [q|] eqn:Eq.
      - pose proof (prefix_first _ _ _ _ _ _ Eq Hp Hhp) as Hq. destruct (HYA q Hq) as (kv & Hkv & Hlt). { change (lv <= ht s q)%nat. destruct (lvl (ht s) lv (YA ++ B)) as [|q' rest] eqn:El; [done|]. injection Eq as ->. apply lvl_cons_inv in El as (_ & _ & _ & _ & Hq' & _). lia. }
        change (kvof s q = Some kv) in Hkv. destruct Hst as (kv' & Hkv' & Hge). rewrite Hkv in Hkv'. injection Hkv' as <-. lia.
      - rewrite lvl_app in Eq. destruct (lvl (ht s) lv YA) eqn:El; [|done]. by apply (proj1 (lvl_nil _ _ _) El p Hp). }
    exists c, A, B, (Y1 ++ YA), r0. cbn [with_cache sk_els] in Ec. split_and!; [exact Ec|rewrite Hlen; cbn; by rewrite insert_length|done| |by rewrite app_assoc| | | |done|done|].
    - destruct Hr' as [[-> ->]|(Y0 & q & -> & ->)]; [done|]. rewrite <- app_assoc in Ha |- *. cbn [app] in Ha |- *. destruct HaA as [l2 El2].
      destruct r as [p|]; cbn in Ha |- *.
      + destruct Ha as [l1 Ea]. exists l1. apply (app_inv_tail B). rewrite Ea. repeat (rewrite <- app_assoc; cbn [app]). done.
      + apply (app_inv_tail B). rewrite <- Ha. repeat (rewrite <- app_assoc; cbn [app]). done.
    - intros i Hi. destruct (decide (i = lv)) as [->|Hne]; [|apply Hc; lia]. exists r'. split; [|by exists YA]. rewrite Hk by lia. cbn. rewrite list_lookup_insert; [done|]. rewrite (inv_cache _ _ _ _ _ Hinv); lia.
    - intros i Hi. rewrite Hk by lia. cbn. by rewrite list_lookup_insert_ne by lia.
    - intros q [Hq|Hq]%elem_of_app Hhq; [by apply HY1|]. apply HYA; [done|]. change (lv <= ht s q)%nat. lia.
    - intros _. destruct lv as [|lv]; [|by apply Hst0]. assert (head (lvl (ht s) 0 (YA ++ B)) = head (lvl (ht s) 0 B)) as <-; [|exact Hst]. rewrite lvl_app, Hnil. done.
  Qed.
  (** what a search leaves in the cache *)
  Definition sfound s A B (la lb : list (K * V)) (max : nat) : Prop := sinv max s (A ++ B) (la ++ lb) ∧ Forall2 (λ p kv, kvof s p = Some kv) A la ∧ Forall2 (λ p kv, kvof s p = Some kv) B lb.
  Lemma findPrev_any (max : nat) s xs l key : sinv max s xs l → ∃ c A B la lb, findPrevNodes cmp key s = Ok (tt, with_cache s c) ∧ xs = A ++ B ∧ l = la ++ lb ∧ sfound (with_cache s c) A B la lb max ∧
    (∀ i, (i < max)%nat → ∃ r, c !! i = Some (Some r) ∧ is_prev s A i r) ∧ (∀ kv, last la = Some kv → cmp kv.1 key < 0) ∧ (∀ kv, head lb = Some kv → 0 <= cmp kv.1 key).
  Proof using.
    intros Hinv. unfold findPrevNodes, mbind_, getmax, walkfuel. rewrite (inv_smax _ _ _ _ _ Hinv), Nat2Z.id.
    destruct (prev_loop_any max xs l key max s None xs Hinv eq_refl) as (c & A & B & YA & r0 & E & Hlen & -> & _ & _ & Hc & _ & _ & H0 & Hp0 & Hst); [cbn; rewrite (inv_head _ _ _ _ _ Hinv); lia|lia|done|].
    destruct (proj1 (Forall2_app_inv_l _ _ _ _) (inv_kv _ _ _ _ _ Hinv)) as (la & lb & HA & HB & ->). exists c, A, B, la, lb. split_and!; [exact E|done|done| |exact Hc| |].
    - split_and!; [by apply inv_with_cache|done|done].
    - intros kv Hl. destruct r0 as [p|]; cbn in H0.
      + destruct H0 as [l1 ->]. apply Forall2_app_inv_l in HA as (la1 & la2 & _ & HA2 & ->). apply Forall2_cons_inv_l in HA2 as (kv' & la3 & Hkv' & HA3 & ->). apply Forall2_nil_inv_l in HA3 as ->. rewrite last_snoc in Hl. injection Hl as <-.
        destruct Hp0 as (kv & Hkv & Hlt). congruence.
      + subst A. by apply Forall2_nil_inv_l in HA as ->.
    - intros kv Hl. specialize (Hst ltac:(pose proof (inv_max _ _ _ _ _ Hinv); lia)). rewrite lvl_0 in Hst by (intros p Hp; apply (inv_ht _ _ _ _ _ Hinv), elem_of_app; by right).
      destruct HB as [|q kv' B lb Hkv HB]; [done|]. injection Hl as ->. destruct Hst as (kv' & Hkv' & Hge). cbn in Hkv'. congruence.
  Qed.
  Lemma sprev_next s A B la lb (max : nat) i r : sfound s A B la lb max → is_prev s A i r → nx s r i = Some (head (lvl (ht s) i B)).
  Proof using. intros (Hinv & _) (Y & Ha & Hl & Hh). rewrite (inv_links _ _ _ _ _ Hinv r (Y ++ B) i (after_app _ _ _ _ Ha) Hh). by rewrite lvl_app, Hl. Qed.
  Lemma shead_lvl0 (max : nat) s A B la lb : sfound s A B la lb max → head (lvl (ht s) 0 B) = head B.
  Proof using. intros (Hinv & _). rewrite lvl_0; [done|]. intros p Hp. apply (inv_ht _ _ _ _ _ Hinv). apply elem_of_app. by right. Qed.

  Lemma insert_skip_any (max : nat) s xs l word k v : sinv max s xs l → 0 <= word < 2 ^ 64 → ∃ s' xs' l', sk_Insert cmp word k v s = Ok (tt, s') ∧ sinv max s' xs' l' ∧
    ((∃ L kv R, l = L ++ kv :: R ∧ cmp kv.1 k = 0 ∧ l' = L ++ (kv.1, v) :: R) ∨
     (∃ L R, l = L ++ R ∧ l' = L ++ (k, v) :: R ∧ (∀ x, last L = Some x → cmp x.1 k < 0) ∧ (∀ x, head R = Some x → 0 < cmp x.1 k))).
  Proof using.
    intros Hinv0 Hword. destruct (findPrev_any max s xs l k Hinv0) as (c & A & B & la & lb & Efind & -> & -> & Hf1 & Hprev0 & Hla & Hlb). destruct (prevs_fun s A c max Hprev0) as [prev Hprev]. clear Hprev0.
    unfold sk_Insert. unfold mbind_ at 1. rewrite Efind. set (s1 := with_cache s c) in *.
    assert (Hf1' := Hf1). destruct Hf1' as (Hinv & HA & HB). pose proof (inv_max _ _ _ _ _ Hinv) as Hmax.
    destruct (Hprev 0%nat ltac:(lia)) as [Hc0 Hp0]. unfold mbind_ at 1. change 0 with (Z.of_nat 0) at 1. rewrite (prevat_ok s1 0 (prev 0%nat) Hc0).
    assert (Hn0 := sprev_next s1 A B la lb max 0 (prev 0%nat) Hf1 Hp0). rewrite (shead_lvl0 _ _ _ _ _ _ Hf1) in Hn0.
    unfold mbind_ at 1. change 0 with (Z.of_nat 0) at 1. rewrite (nextat_ok _ _ _ _ Hn0).
    assert (Hdec : head_eq cmp k lb ∨ ¬ head_eq cmp k lb) by (destruct lb as [|kv lb]; [right; intros []|]; cbn; lia).
    destruct Hdec as [Heq|Hneq].
    - destruct HB as [|q kv B lb Hkv HB]; [by destruct Heq|]. cbn in Heq. destruct (el_ok _ _ _ Hkv) as (e & He & Hek & _).
      unfold mbind_ at 1. cbn [head]. unfold mbind_ at 1. rewrite He. cbn [mret_]. unfold mret_. rewrite Hek.
      destruct (Z.eqb_spec (cmp kv.1 k) 0); [|lia]. destruct kv as [k' v'].
      unfold setval. unfold el in He. destruct (sk_els s1 !! q) as [e'|] eqn:Eq; [|done]. injection He as ->.
      eexists _, (A ++ q :: B), (la ++ (k', v) :: lb). split; [reflexivity|]. split; [|left; by exists la, (k', v'), lb].
      assert (Hkvq : e_key e = k') by done. assert (HqA : q ∉ A ∧ q ∉ B).
      { pose proof (inv_nodup _ _ _ _ _ Hinv) as Hnd. apply NoDup_app in Hnd as (_ & Hd & Hnd). apply NoDup_cons in Hnd as [Hnd _]. split; [|done]. intros Hq. apply (Hd q Hq), elem_of_list_here. }
      set (s2 := MkSkip _ _ _ _ _).
      assert (Hht : ∀ p, ht s2 p = ht s1 p).
      { intros p. unfold ht, s2. cbn [sk_els]. destruct (decide (p = q)) as [->|Hne]; [rewrite list_lookup_insert by (by eapply lookup_lt_Some); by rewrite Eq | by rewrite list_lookup_insert_ne]. }
      assert (Hnx : ∀ r i, nx s2 r i = nx s1 r i).
      { intros [p|] i; [|done]. unfold nx, s2. cbn [sk_els]. destruct (decide (p = q)) as [->|Hne]; [rewrite list_lookup_insert by (by eapply lookup_lt_Some); by rewrite Eq | by rewrite list_lookup_insert_ne]. }
      assert (Hkvs : ∀ p, p ≠ q → kvof s2 p = kvof s1 p) by (intros p Hne; unfold kvof, s2; cbn [sk_els]; by rewrite list_lookup_insert_ne).
      assert (Hoth : ∀ C l', q ∉ C → Forall2 (λ p kv, kvof s1 p = Some kv) C l' → Forall2 (λ p kv, kvof s2 p = Some kv) C l').
      { intros C l' Hq. induction 1 as [|p kv C l' Hp _ IH]; constructor; [rewrite Hkvs; [done|]; intros ->; apply Hq, elem_of_list_here | apply IH; intros Hq'; apply Hq; by right]. }
      constructor; try apply Hinv.
      + pose proof (inv_len _ _ _ _ _ Hinv) as HL. rewrite app_length in HL |- *. exact HL.
      + destruct HqA as [HqA HqB]. apply Forall2_app; [by apply (Hoth A la)|]. constructor; [|by apply (Hoth B lb)]. unfold kvof, s2. cbn [sk_els]. rewrite list_lookup_insert by (by eapply lookup_lt_Some). cbn. by rewrite Hkvq.
      + intros p Hp. rewrite Hht. by apply (inv_ht _ _ _ _ _ Hinv).
      + apply neg_asc.
      + intros r Y i Ha Hi. rewrite Hnx. assert (Hh' : hgt s2 r = hgt s1 r) by (destruct r as [p|]; [apply Hht | done]). rewrite Hh' in Hi.
        rewrite (inv_links _ _ _ _ _ Hinv r Y i Ha Hi). do 2 f_equal. apply lvl_ext. intros p _. by rewrite Hht.
    - unfold mbind_ at 1.
      assert (Esame : (match head B with None => mret_ false | Some _ => let! e := el (head B) in mret_ (cmp (e_key e) k =? 0) end) s1 = Ok (false, s1)).
      { destruct HB as [|q kv B lb Hkv HB]; [done|]. cbn [head]. destruct (el_ok _ _ _ Hkv) as (e & He & Hek & _). unfold mbind_. rewrite He, Hek. cbn in Hneq. destruct (Z.eqb_spec (cmp kv.1 k) 0); [done|]. done. }
      rewrite Esame. unfold mbind_ at 1. cbn [getmax]. unfold mbind_ at 1.
      destruct (randomLevel_ok (sk_max s1) word) as (lev & Elev & Hlev & _); [rewrite (inv_smax _ _ _ _ _ Hinv); lia | lia|]. unfold getmax. rewrite Elev.
      rewrite (inv_smax _ _ _ _ _ Hinv) in Hlev. set (h := Z.to_nat lev). assert (Hh : (1 <= h <= max)%nat) by lia.
      unfold mbind_ at 1. unfold newelem. destruct (Z.ltb_spec lev 0); [lia|]. fold h. set (e := length (sk_els s1)). set (s2 := MkSkip (sk_els s1 ++ _) _ _ _ _).
      assert (HeA : ∀ p, p ∈ A ++ B → (p < e)%nat).
      { intros p Hp. apply elem_of_list_lookup in Hp as [j Hj]. destruct (Forall2_lookup_l _ _ _ _ _ (inv_kv _ _ _ _ _ Hinv) Hj) as (kv & _ & Hkv). cbn in Hkv. by apply kvof_lt in Hkv. }
      assert (Hels : ∀ p, (p < e)%nat → sk_els s2 !! p = sk_els s1 !! p) by (intros p Hp; unfold s2; cbn; by rewrite lookup_app_l).
      assert (Hele : sk_els s2 !! e = Some (MkElem (replicate h None) k v)) by (unfold s2; cbn; by rewrite lookup_app_r, Nat.sub_diag by done).
      assert (Hht2 : ∀ p, (p < e)%nat → ht s2 p = ht s1 p) by (intros p Hp; unfold ht; by rewrite Hels).
      assert (Hhte : ht s2 e = h) by (unfold ht; rewrite Hele; cbn; apply replicate_length).
      assert (Hpe : ∀ i p, (i < max)%nat → prev i = Some p → (p < e)%nat).
      { intros i p Hi Ep. destruct (Hprev i Hi) as [_ Hp]. apply HeA, elem_of_app. left. by eapply is_prev_in. }
      assert (Hhg : ∀ i, (i < max)%nat → hgt s2 (prev i) = hgt s1 (prev i)).
      { intros i Hi. destruct (prev i) as [p|] eqn:Ep; [|done]. cbn. apply Hht2. by eapply Hpe. }
      destruct (link_loop_ok h s2 0 e prev) as (s3 & E3 & Hs3 & Hn3).
      { intros i Hi. destruct (Hprev i ltac:(lia)) as [Hci (Y & Ha & Hl & Hhi)]. split_and!; [exact Hci | | rewrite Hhg by lia; exact Hhi | rewrite Hhte; lia].
        intros Ep. specialize (Hpe i e ltac:(lia) Ep). lia. }
      unfold mbind_ at 1. change 0 with (Z.of_nat 0). rewrite E3. unfold addlen.
      destruct Hs3 as (Hs3max & Hs3len & Hs3c & Hs3els & Hs3h & Hs3kv & Hs3ht).
      eexists _, (A ++ e :: B), (la ++ (k, v) :: lb). split; [reflexivity|]. split; [|right; exists la, lb; split_and!; [done|done|done|]; intros x Hx; specialize (Hlb x Hx); destruct lb as [|kv0 lb]; [done|]; injection Hx as ->; cbn in Hneq; lia]. set (s4 := MkSkip _ _ _ _ _).
      assert (Hht4 : ∀ p, p ∈ A ++ B → ht s4 p = ht s1 p) by (intros p Hp; transitivity (ht s2 p); [apply Hs3ht | apply Hht2; by apply HeA]).
      assert (Hht4e : ht s4 e = h) by (transitivity (ht s2 e); [apply Hs3ht | done]).
      assert (Hkv4 : ∀ p, p ∈ A ++ B → kvof s4 p = kvof s1 p) by (intros p Hp; transitivity (kvof s2 p); [apply Hs3kv | unfold kvof; by rewrite Hels by (by apply HeA)]).
      assert (Hoth : ∀ C l', (∀ p, p ∈ C → p ∈ A ++ B) → Forall2 (λ p kv, kvof s1 p = Some kv) C l' → Forall2 (λ p kv, kvof s4 p = Some kv) C l').
      { intros C l' Hsub. induction 1 as [|p kv C l' Hp _ IH]; constructor; [rewrite Hkv4; [done|]; apply Hsub, elem_of_list_here | apply IH; intros q Hq; apply Hsub; by right]. }
      pose proof (inv_nodup _ _ _ _ _ Hinv) as Hnd.
      assert (HndA : NoDup A) by (by apply NoDup_app in Hnd as [? _]).
      assert (Hlvl : ∀ C i, (∀ p, p ∈ C → p ∈ A ++ B) → lvl (ht s4) i C = lvl (ht s1) i C) by (intros C i Hsub; apply lvl_ext; intros p Hp; by apply Hht4, Hsub).
      assert (Hnx4 : ∀ r i, (∀ p, r = Some p → p ∈ A ++ B) → nx s2 r i = nx s1 r i).
      { intros [p|] i Hin; [|done]. cbn. by rewrite Hels by (by apply HeA, Hin). }
      constructor; try done.
      + cbn. rewrite Hs3max. apply Hinv.
      + cbn. rewrite Hs3h. apply Hinv.
      + cbn. rewrite Hs3c. apply Hinv.
      + pose proof (inv_len _ _ _ _ _ Hinv) as HL. rewrite app_length in HL |- *. change (sk_len s3 + 1 = Z.of_nat (length la + S (length lb))). rewrite Hs3len. change (sk_len s2) with (sk_len s1). lia.
      + apply NoDup_app in Hnd as (Hn1 & Hn2 & Hn4). apply NoDup_app. split_and!; [done | | constructor; [|done]].
        * intros x Hx [->|Hy]%elem_of_cons; [assert (e < e)%nat; [|lia]; apply HeA, elem_of_app; by left | by apply (Hn2 x)].
        * intros Hx. assert (e < e)%nat; [|lia]. apply HeA, elem_of_app. by right.
      + apply Forall2_app; [apply Hoth; [|done]; intros p Hp; apply elem_of_app; by left|]. constructor; [|apply Hoth; [|done]; intros p Hp; apply elem_of_app; by right].
        transitivity (kvof s2 e); [apply Hs3kv|]. unfold kvof. by rewrite Hele.
      + intros p Hp. rewrite elem_of_app, elem_of_cons in Hp. destruct (decide (p = e)) as [->|Hne]; [rewrite Hht4e; lia|].
        assert (p ∈ A ++ B) as Hin by (apply elem_of_app; tauto). rewrite Hht4 by done. by apply (inv_ht _ _ _ _ _ Hinv).
      + apply neg_asc.
      + intros r Y i Ha Hi. change (nx s4 r i) with (nx s3 r i). rewrite Hn3.
        assert (Hi4 : (i < max)%nat).
        { destruct r as [p|]; cbn in Hi; [|rewrite Hs3h in Hi; cbn in Hi; rewrite (inv_head _ _ _ _ _ Hinv : length (sk_head s) = _) in Hi; lia].
          apply after_in with (p := p) in Ha; [|done]. rewrite elem_of_app, elem_of_cons in Ha. destruct (decide (p = e)) as [->|Hne]; [rewrite Hht4e in Hi; lia|].
          assert (p ∈ A ++ B) as Hin by (apply elem_of_app; tauto). rewrite Hht4 in Hi by done. pose proof (inv_ht _ _ _ _ _ Hinv p Hin). lia. }
        destruct (Hprev i Hi4) as [_ Hpi].
        apply after_split in Ha as [(Y0 & Ha & ->)|(p & l1 & -> & El)].
        * (* r is in A or the head *)
          assert (Hre : r ≠ Some e). { intros ->. assert (e < e)%nat; [|lia]. apply HeA, elem_of_app. left. by eapply after_in. }
          assert (Hri : (i < hgt s1 r)%nat). { destruct r as [p|]; cbn in Hi |- *; [rewrite Hht4 in Hi; [done|]; apply elem_of_app; left; by eapply after_in | by rewrite Hs3h in Hi]. }
          assert (Hrin : ∀ p, r = Some p → p ∈ A ++ B) by (intros p Ep; apply elem_of_app; left; by eapply after_in).
          rewrite (decide_False (P := r = Some e)) by done. rewrite (Hnx4 r i Hrin).
          rewrite (inv_links _ _ _ _ _ Hinv r (Y0 ++ B) i (after_app _ _ _ _ Ha) Hri). rewrite !lvl_app.
          rewrite (Hlvl Y0) by (intros p Hp; apply elem_of_app; left; by eapply after_sub).
          pose proof (is_prev_unique s1 A i (prev i) r Y0 HndA Hpi Ha Hri) as Hu.
          destruct (lvl (ht s1) i Y0) as [|q rest] eqn:EY.
          -- cbn [app]. rewrite (proj1 Hu eq_refl). rewrite (decide_True (P := prev i = prev i)) by done. unfold lvl at 2. rewrite filter_cons, Hht4e.
             destruct (decide (0 <= i < 0 + h)%nat); [by rewrite decide_True by lia|]. rewrite decide_False by lia. fold (lvl (ht s4) i B). rewrite (Hlvl B) by (intros p Hp; apply elem_of_app; by right). done.
          -- cbn [app head]. rewrite (decide_False (P := r = prev i)) by (intros E; by apply Hu in E). by destruct (decide (0 <= i < 0 + h)%nat).
        * destruct l1 as [|e' l1]; cbn in El; injection El as <- El.
          -- subst Y. change (i < ht s4 e)%nat in Hi. rewrite Hht4e in Hi. rewrite decide_True by lia. rewrite decide_True by done.
             assert (Hin : ∀ p, prev i = Some p → p ∈ A ++ B) by (intros p Ep; apply elem_of_app; left; by eapply is_prev_in).
             rewrite (Hnx4 _ _ Hin). rewrite (sprev_next s1 A B la lb max i (prev i) Hf1 Hpi). rewrite (Hlvl B) by (intros p Hp; apply elem_of_app; by right). done.
          -- assert (HpB : p ∈ B) by (rewrite El; apply elem_of_app; right; apply elem_of_list_here).
             assert (Hpin : p ∈ A ++ B) by (apply elem_of_app; by right).
             assert (Hpne : Some p ≠ Some e) by (intros [= ->]; specialize (HeA e Hpin); lia).
             assert (Hpp : Some p ≠ prev i). { intros E. apply NoDup_app in Hnd as (_ & Hd & _). apply (Hd p); [|done]. by eapply is_prev_in. }
             rewrite (decide_False (P := Some p = Some e)) by done. rewrite (decide_False (P := Some p = prev i)) by done.
             assert (E : ∀ b : bool, (if b then nx s2 (Some p) i else nx s2 (Some p) i) = nx s2 (Some p) i) by (by intros []).
             replace (if decide (0 <= i < 0 + h)%nat then nx s2 (Some p) i else nx s2 (Some p) i) with (nx s2 (Some p) i) by (by destruct (decide (0 <= i < 0 + h)%nat)).
             rewrite Hnx4 by (intros q [= <-]; done). change (i < ht s4 p)%nat in Hi. rewrite Hht4 in Hi by done.
             assert (Ha : after (A ++ B) (Some p) Y) by (exists (A ++ l1); rewrite El; by rewrite <- app_assoc).
             rewrite (inv_links _ _ _ _ _ Hinv (Some p) Y i Ha Hi). do 2 f_equal. symmetry. apply Hlvl. intros q Hq. eapply after_sub; done.
  Qed.

  (* ---------- Remove ---------- *)
  Lemma remove_skip_any (max : nat) s xs l k : sinv max s xs l → ∃ b s' xs' l', sk_Remove cmp k s = Ok (b, s') ∧ sinv max s' xs' l' ∧
    ((b = false ∧ l' = l) ∨ (b = true ∧ ∃ L kv R, l = L ++ kv :: R ∧ cmp kv.1 k = 0 ∧ l' = L ++ R)).
  Proof using.
    intros Hinv0. destruct (findPrev_any max s xs l k Hinv0) as (c & A & B & la & lb & Efind & -> & -> & Hf1 & Hprev0 & _ & _). destruct (prevs_fun s A c max Hprev0) as [prev Hprev]. clear Hprev0.
    unfold sk_Remove. unfold mbind_ at 1. rewrite Efind. set (s1 := with_cache s c) in *.
    assert (Hf1' := Hf1). destruct Hf1' as (Hinv & HA & HB). pose proof (inv_max _ _ _ _ _ Hinv) as Hmax.
    destruct (Hprev 0%nat ltac:(lia)) as [Hc0 Hp0]. unfold mbind_ at 1. change 0 with (Z.of_nat 0) at 1. rewrite (prevat_ok s1 0 (prev 0%nat) Hc0).
    assert (Hn0 := sprev_next s1 A B la lb max 0 (prev 0%nat) Hf1 Hp0). rewrite (shead_lvl0 _ _ _ _ _ _ Hf1) in Hn0.
    unfold mbind_ at 1. change 0 with (Z.of_nat 0) at 1. rewrite (nextat_ok _ _ _ _ Hn0).
    assert (Hdec : head_eq cmp k lb ∨ ¬ head_eq cmp k lb) by (destruct lb as [|kv lb]; [right; intros []|]; cbn; lia).
    destruct Hdec as [Heq|Hneq].
    - destruct HB as [|q kv B lb Hkv HB]; [by destruct Heq|]. cbn in Heq. destruct (el_ok _ _ _ Hkv) as (e & He & Hek & _ & Hlen).
      cbn [head]. unfold mbind_ at 1. rewrite He, Hek. destruct (Z.eqb_spec (cmp kv.1 k) 0); [|lia]. cbn [negb]. rewrite Hlen.
      assert (Hqh : (1 <= ht s1 q <= max)%nat) by (apply (inv_ht _ _ _ _ _ Hinv), elem_of_app; right; apply elem_of_list_here).
      pose proof (inv_nodup _ _ _ _ _ Hinv) as Hnd. assert (Hnd' := Hnd). apply NoDup_app in Hnd' as (HndA & Hd & HndB). apply NoDup_cons in HndB as [HqB HndB].
      assert (HqA : q ∉ A) by (intros Hq; apply (Hd q Hq), elem_of_list_here).
      destruct (unlink_loop_ok (ht s1 q) s1 0 q prev) as (s3 & E3 & Hs & Hn3).
      { intros i Hi. destruct (Hprev i ltac:(lia)) as [Hci Hpi]. assert (Hpi' := Hpi). destruct Hpi' as (Y & Ha & Hl & Hhi). split_and!; [exact Hci | | exact Hhi | lia].
        intros Ep. apply HqA. by eapply is_prev_in. }
      unfold mbind_ at 1. change 0 with (Z.of_nat 0) at 1. rewrite E3. unfold mbind_ at 1, addlen, mret_.
      destruct Hs as (Hs3max & Hs3len & Hs3c & Hs3els & Hs3h & Hs3kv & Hs3ht).
      eexists true, _, (A ++ B), (la ++ lb). split; [reflexivity|]. split; [|right; split; [done|]; by exists la, kv, lb]. set (s4 := MkSkip _ _ _ _ _).
      assert (Hht4 : ∀ p, ht s4 p = ht s1 p) by apply Hs3ht. assert (Hkv4 : ∀ p, kvof s4 p = kvof s1 p) by apply Hs3kv.
      assert (Hlvl : ∀ C i, lvl (ht s4) i C = lvl (ht s1) i C) by (intros C i; apply lvl_ext; intros p _; by apply Hht4).
      constructor; try done.
      + change (sk_max s3 = Z.of_nat max). rewrite Hs3max. apply Hinv.
      + change (length (sk_head s3) = max). rewrite Hs3h. apply Hinv.
      + change (length (sk_cache s3) = max). rewrite Hs3c. apply Hinv.
      + change (sk_len s3 + -1 = Z.of_nat (length (la ++ lb))). rewrite Hs3len. pose proof (inv_len _ _ _ _ _ Hinv) as HL. rewrite app_length in HL |- *. cbn [length] in HL. lia.
      + apply NoDup_app. split_and!; [done | | done]. intros x Hx Hy. apply (Hd x Hx). by right.
      + apply Forall2_app; (eapply Forall2_impl; [eassumption|]); cbn; intros p kv' Hp; by rewrite Hkv4.
      + intros p Hp. rewrite Hht4. apply (inv_ht _ _ _ _ _ Hinv). rewrite elem_of_app in Hp |- *. rewrite elem_of_cons. tauto.
      + apply neg_asc.
      + intros r Y i Ha Hi. change (nx s4 r i) with (nx s3 r i). rewrite Hn3, Hlvl.
        assert (Hri : (i < hgt s1 r)%nat). { destruct r as [p|]; [change (i < ht s4 p)%nat in Hi; by rewrite Hht4 in Hi | change (i < length (sk_head s3))%nat in Hi; by rewrite Hs3h in Hi]. }
        assert (Hi4 : (i < max)%nat).
        { destruct r as [p|]; cbn [hgt] in Hri; [|rewrite (inv_head _ _ _ _ _ Hinv) in Hri; lia].
          apply after_in with (p := p) in Ha; [|done]. assert (p ∈ A ++ q :: B) as Hin by (rewrite elem_of_app in Ha |- *; rewrite elem_of_cons; tauto). pose proof (inv_ht _ _ _ _ _ Hinv p Hin). lia. }
        destruct (Hprev i Hi4) as [_ Hpi].
        apply after_split in Ha as [(Y0 & Ha & ->)|(p & l1 & -> & El)].
        * pose proof (is_prev_unique s1 A i (prev i) r Y0 HndA Hpi Ha Hri) as Hu. rewrite lvl_app.
          pose proof (inv_links _ _ _ _ _ Hinv r (Y0 ++ q :: B) i (after_app _ _ _ _ Ha) Hri) as HL. rewrite lvl_app in HL.
          destruct (lvl (ht s1) i Y0) as [|a rest] eqn:EY.
          -- cbn [app] in *. rewrite (proj1 Hu eq_refl) in *. destruct (decide ((0 <= i < 0 + ht s1 q)%nat ∧ prev i = prev i)) as [[Hiq _]|Hiq].
             ++ apply (inv_links _ _ _ _ _ Hinv (Some q) B i); [by exists A | cbn; lia].
             ++ rewrite HL. unfold lvl. rewrite filter_cons_False; [done|]. intros Hlt. apply Hiq. split; [lia | done].
          -- rewrite decide_False; [exact HL|]. intros [_ E]. by apply Hu in E.
        * assert (HpB : p ∈ B) by (rewrite El; apply elem_of_app; right; apply elem_of_list_here).
          rewrite decide_False. 2:{ intros [_ E]. apply (Hd p); [by eapply is_prev_in | by right]. }
          apply (inv_links _ _ _ _ _ Hinv (Some p) Y i); [|done]. exists (A ++ q :: l1). rewrite El. by rewrite <- app_assoc.
    - exists false, s1, (A ++ B), (la ++ lb). split; [|split; [done|by left]].
      destruct HB as [|q kv B lb Hkv HB]; [done|]. cbn [head]. destruct (el_ok _ _ _ Hkv) as (e & He & Hek & _). unfold mbind_ at 1. rewrite He, Hek.
      cbn in Hneq. destruct (Z.eqb_spec (cmp kv.1 k) 0); [done|]. done.
  Qed.
End proofs.
