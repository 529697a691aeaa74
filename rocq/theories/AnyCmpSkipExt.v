(** Two comparison functions that agree on all keys a skip list was given make it do the same. *)
From Verif Require Import Base History ListLib RbSpec MapSpec MapProofs SkipModel SkipSpec SkipProofs SkipOps AnyCmpSpec AnyCmpExt AnyCmpSkip.
Open Scope Z_scope.
Open Scope go_scope.

Section ext.
  Context {K V W : Type} (cmp cmp' : K → K → Z) (P : K → Prop) (Hag : ∀ x y, P x → P y → cmp x y = cmp' x y).
  Notation skip := (skip K V).
  Implicit Types (s : skip) (xs A B Y : list nat) (p q : nat) (r : option nat) (l : list (K * V)).
  Notation sinv := (inv neg).
  Definition skeysP l : Prop := ∀ kv, kv ∈ l → P kv.1.
  Lemma walk_ext (max : nat) s xs l key : sinv max s xs l → skeysP l → P key → ∀ f (i : nat) r Y, after xs r Y →
    walk cmp f key (Z.of_nat i) r (head (lvl (ht s) i Y)) s = walk cmp' f key (Z.of_nat i) r (head (lvl (ht s) i Y)) s ∧
    get_walk cmp f key (Z.of_nat i) r (head (lvl (ht s) i Y)) s = get_walk cmp' f key (Z.of_nat i) r (head (lvl (ht s) i Y)) s.
  Proof using Hag.
    intros Hinv HP Hk f. induction f as [|f IH]; intros i r Y Ha; [done|]. cbn [walk get_walk]. destruct (lvl (ht s) i Y) as [|q rest] eqn:EY; cbn [head]; [done|].
    apply lvl_cons_inv in EY as (Y1 & Y2 & -> & H1 & Hq & ->). pose proof (after_step _ _ _ _ _ Ha) as Haq.
    destruct (kv_in max s xs l q Hinv) as (kv & Hkv & Hin). { destruct Haq as [l1 ->]. apply elem_of_app. right. apply elem_of_list_here. }
    destruct (el_ok _ _ _ Hkv) as (e & He & Hek & _). unfold mbind_. rewrite He, Hek. rewrite (Hag kv.1 key) by auto.
    pose proof (nextat_ok _ _ _ _ (inv_links _ _ _ _ _ Hinv (Some q) Y2 i Haq Hq)) as En. destruct (IH i (Some q) Y2 Haq) as [H2 H3]. split.
    - destruct (cmp' kv.1 key >=? 0); [done|]. by rewrite En.
    - destruct (cmp' kv.1 key =? 0); [done|]. destruct (cmp' kv.1 key >? 0); [done|]. by rewrite En.
  Qed.
  Lemma get_ext (max : nat) s xs l key : sinv max s xs l → skeysP l → P key → sk_Get cmp key s = sk_Get cmp' key s.
  Proof using Hag.
    intros Hinv HP Hk. unfold sk_Get, mbind_, getmax, walkfuel. rewrite (inv_smax _ _ _ _ _ Hinv), Nat2Z.id.
    assert (∀ lv r Y, after xs r Y → (lv <= hgt s r)%nat → get_loop cmp lv (S (length (sk_els s))) key r s = get_loop cmp' lv (S (length (sk_els s))) key r s) as H.
    { induction lv as [|lv IH]; intros r Y Ha Hh; [done|]. cbn [get_loop]. unfold mbind_. rewrite (nextat_ok _ _ _ _ (inv_links _ _ _ _ _ Hinv r Y lv Ha ltac:(lia))).
      rewrite <- (proj2 (walk_ext max s xs l key Hinv HP Hk _ lv r Y Ha)).
      destruct (get_walk_any cmp max s xs l key Hinv (S (length (sk_els s))) lv r Y Ha ltac:(lia) (fuel_ok _ _ _ _ _ _ _ Hinv Ha)) as [(kv & -> & Hq & Hkv)|(r' & Y' & -> & Ha' & Hh')]; [done|].
      apply (IH r' Y' Ha'). lia. }
    apply (H max None xs); [done|]. cbn. by rewrite (inv_head _ _ _ _ _ Hinv).
  Qed.
  Lemma prev_ext (max : nat) xs l key (lv : nat) : skeysP l → P key → ∀ s r Y, sinv max s xs l → after xs r Y → (lv <= hgt s r)%nat → (lv <= max)%nat → passed cmp s key r →
    prev_loop cmp lv (S (length (sk_els s))) key r s = prev_loop cmp' lv (S (length (sk_els s))) key r s.
  Proof using Hag.
    intros HP Hk. induction lv as [|lv IH]; intros s r Y Hinv Ha Hh Hm Hps; [done|]. cbn [prev_loop].
    assert (Hh0 : (lv < hgt s None)%nat) by (cbn; rewrite (inv_head _ _ _ _ _ Hinv); lia).
    pose proof (nextat_ok _ _ _ _ (inv_links _ _ _ _ _ Hinv None xs lv eq_refl Hh0)) as En0.
    assert (∀ r' Y', after xs r' Y' → (lv < hgt s r')%nat → passed cmp s key r' → (setprev (Z.of_nat lv) r' ;; prev_loop cmp lv (S (length (sk_els s))) key r') s = (setprev (Z.of_nat lv) r' ;; prev_loop cmp' lv (S (length (sk_els s))) key r') s) as Hgo.
    { intros r' Y' Ha' Hh' Hps'. unfold mbind_. unfold setprev. rewrite upd_nat by (rewrite (inv_cache _ _ _ _ _ Hinv); lia). fold (with_cache s (<[lv:=Some r']> (sk_cache s))).
      assert (Hinv' : sinv max (with_cache s (<[lv:=Some r']> (sk_cache s))) xs l) by (apply inv_with_cache; [done | by rewrite insert_length]).
      apply (IH _ r' Y' Hinv' Ha'); [change (lv <= hgt s r')%nat; lia|lia|done]. }
    apply bind_ext; [done|]. intros h s0. rewrite En0. intros [= <- <-].
    destruct (head (lvl (ht s) lv xs)) as [q|] eqn:Eh.
    - destruct (walk_any cmp max s xs l key Hinv (S (length (sk_els s))) lv r Y Ha ltac:(lia) Hps (fuel_ok _ _ _ _ _ _ _ Hinv Ha)) as (r' & Y1 & Y' & Ew & _ & Ha' & Hh' & Hps' & _).
      pose proof (nextat_ok _ _ _ _ (inv_links _ _ _ _ _ Hinv r Y lv Ha ltac:(lia))) as En. pose proof (proj1 (walk_ext max s xs l key Hinv HP Hk (S (length (sk_els s))) lv r Y Ha)) as Ew'.
      apply bind_ext. { unfold mbind_. by rewrite En. } intros r1 s1 E1. unfold mbind_ in E1. rewrite En, <- Ew', Ew in E1. injection E1 as <- <-. by apply (Hgo r' Y').
    - apply bind_ext; [done|]. intros r1 s1 [= <- <-]. apply (Hgo r Y); [done|lia|done].
  Qed.
  Lemma find_ext (max : nat) s xs l key : sinv max s xs l → skeysP l → P key → findPrevNodes cmp key s = findPrevNodes cmp' key s.
  Proof using Hag.
    intros Hinv HP Hk. unfold findPrevNodes, mbind_, getmax, walkfuel. rewrite (inv_smax _ _ _ _ _ Hinv), Nat2Z.id. eapply (prev_ext max xs l key max HP Hk s None xs Hinv eq_refl); [cbn; rewrite (inv_head _ _ _ _ _ Hinv); lia|lia|done].
  Qed.
  (** the element a search stops at has one of the keys *)
  Lemma stop_key (max : nat) s xs l key s1 : sinv max s xs l → skeysP l → findPrevNodes cmp key s = Ok (tt, s1) → ∀ (p c : option nat) s2 s3, prevat 0 s1 = Ok (p, s2) → nextat p 0 s2 = Ok (c, s3) →
    match c with None => True | Some q => ∃ e, el (Some q) s3 = Ok (e, s3) ∧ P (e_key e) end.
  Proof using.
    clear Hag cmp'. intros H HP E1 p c0 s2 s3 E2 E3. destruct (findPrev_any cmp max s xs l key H) as (c & A & B & la & lb & Ef & -> & -> & Hf & Hp & _). rewrite E1 in Ef. injection Ef as ->.
    destruct (Hp 0%nat ltac:(pose proof (inv_max _ _ _ _ _ H); lia)) as (r & Hc & Hpr). change 0 with (Z.of_nat 0) in E2, E3. rewrite (prevat_ok (with_cache s c) 0 r Hc) in E2. injection E2 as <- <-.
    rewrite (nextat_ok _ _ _ _ (sprev_next (with_cache s c) A B la lb max 0 r Hf Hpr)), (shead_lvl0 _ _ _ _ _ _ Hf) in E3. injection E3 as <- <-.
    destruct Hf as (_ & _ & HB). destruct HB as [|q kv B lb Hkv HB]; [done|]. cbn [head]. destruct (el_ok _ _ _ Hkv) as (e & He & Hek & _). exists e. split; [done|]. rewrite Hek. apply HP, elem_of_app. right. apply elem_of_list_here.
  Qed.
  Lemma insert_ext_skip (max : nat) s xs l w key v : sinv max s xs l → skeysP l → P key → sk_Insert cmp w key v s = sk_Insert cmp' w key v s.
  Proof using Hag.
    intros H HP Hk. unfold sk_Insert. pose proof (find_ext max s xs l key H HP Hk) as Ef. apply bind_ext; [done|]. intros [] s1 E1. rewrite <- Ef in E1. apply bind_ext; [done|]. intros p s2 E2. apply bind_ext; [done|]. intros c s3 E3.
    apply bind_ext1. pose proof (stop_key max s xs l key s1 H HP E1 p c s2 s3 E2 E3) as Hs. destruct c as [q|]; [|done]. destruct Hs as (e & He & Pe). unfold mbind_. rewrite He. by rewrite (Hag (e_key e) key).
  Qed.
  Lemma remove_ext_skip (max : nat) s xs l key : sinv max s xs l → skeysP l → P key → sk_Remove cmp key s = sk_Remove cmp' key s.
  Proof using Hag.
    intros H HP Hk. unfold sk_Remove. pose proof (find_ext max s xs l key H HP Hk) as Ef. apply bind_ext; [done|]. intros [] s1 E1. rewrite <- Ef in E1. apply bind_ext; [done|]. intros p s2 E2. apply bind_ext; [done|]. intros c s3 E3.
    pose proof (stop_key max s xs l key s1 H HP E1 p c s2 s3 E2 E3) as Hs. destruct c as [q|]; [|done]. destruct Hs as (e & He & Pe). unfold mbind_. rewrite He. by rewrite (Hag (e_key e) key).
  Qed.
End ext.
