(** The tower invariant behind the Skiplist properties. *)
From Coq Require Import Sorting.Sorted.
From Verif Require Import Base Wp RbSpec MapSpec SkipModel SkipSpec.
Open Scope Z_scope.
Open Scope go_scope.

(* ---------- randomLevel ---------- *)
Lemma u64_small x : 0 <= x < 2 ^ 64 → u64 x = x.
Proof. intros. by apply Z.mod_small. Qed.
Lemma shl64_1 k : 0 <= k < 64 → shl64 1 k = 2 ^ k.
Proof.
  intros Hk. unfold shl64. destruct (Z.ltb_spec k 64); [|lia]. rewrite Z.shiftl_mul_pow2, Z.mul_1_l by lia. apply u64_small.
  split; [apply Z.pow_nonneg; lia|]. apply Z.pow_lt_mono_r; lia.
Qed.
Lemma level_loop_ok (f : nat) : ∀ (m : nat) k level, (m < f)%nat → (m < 64)%nat → 0 <= k →
  ∃ j : nat, level_loop f (2 ^ Z.of_nat m - 1) k (2 ^ Z.of_nat m) level = Ok (level + Z.of_nat j) ∧ (j <= m)%nat ∧
    2 ^ (Z.of_nat m - Z.of_nat j) - 1 <= k ∧ (j ≠ 0%nat → k < 2 ^ (Z.of_nat m - Z.of_nat j + 1) - 1).
Proof.
  induction f as [|f IH]; intros m k level Hm H64 Hk; [lia|]. cbn [level_loop].
  rewrite Z.gtb_ltb. destruct (Z.ltb_spec k (2 ^ Z.of_nat m - 1)) as [Hlt|Hge].
  - destruct m as [|m]; [cbn in Hlt; lia|].
    assert (E : Z.shiftr (2 ^ Z.of_nat (S m)) 1 = 2 ^ Z.of_nat m).
    { rewrite Z.shiftr_div_pow2 by lia. rewrite Nat2Z.inj_succ, Z.pow_succ_r by lia. rewrite Z.mul_comm. apply Z.div_mul. lia. }
    rewrite E. assert (E2 : u64 (2 ^ Z.of_nat (S m) - 1 - 2 ^ Z.of_nat m) = 2 ^ Z.of_nat m - 1).
    { rewrite u64_small; rewrite Nat2Z.inj_succ, Z.pow_succ_r by lia; [lia|].
      assert (0 < 2 ^ Z.of_nat m) by (apply Z.pow_pos_nonneg; lia). assert (2 ^ Z.of_nat m < 2 ^ 64) by (apply Z.pow_lt_mono_r; lia). lia. }
    rewrite E2. destruct (IH m k (level + 1)) as (j & -> & Hj & Hlo & Hhi); [lia | lia | done|].
    exists (S j). split_and!; [f_equal; lia | lia | |].
    + replace (Z.of_nat (S m) - Z.of_nat (S j)) with (Z.of_nat m - Z.of_nat j) by lia. done.
    + intros _. replace (Z.of_nat (S m) - Z.of_nat (S j) + 1) with (Z.of_nat m - Z.of_nat j + 1) by lia.
      destruct (decide (j = 0%nat)) as [->|Hj0]; [|by apply Hhi]. replace (Z.of_nat m - Z.of_nat 0 + 1) with (Z.of_nat (S m)) by lia. done.
  - exists 0%nat. split_and!; [f_equal; lia | lia | replace (Z.of_nat m - Z.of_nat 0) with (Z.of_nat m) by lia; done | done].
Qed.
(** the level drawn from a word: level l takes the 2^(max-l) residues from 2^(max-l) - 1 on *)
Lemma randomLevel_ok max word : 1 <= max <= 64 → 0 <= word →
  ∃ l, randomLevel 64 max word = Ok l ∧ 1 <= l <= max ∧ 2 ^ (max - l) - 1 <= word mod (2 ^ max - 1) < 2 ^ (max - l + 1) - 1.
Proof.
  intros Hm Hw. unfold randomLevel. rewrite (u64_small max) by lia. rewrite (u64_small (max - 1)) by lia.
  assert (Hpos : 0 < 2 ^ (max - 1)) by (apply Z.pow_pos_nonneg; lia).
  assert (H2 : 2 ^ max = 2 * 2 ^ (max - 1)) by (rewrite <- Z.pow_succ_r by lia; f_equal; lia).
  assert (Htot : u64 (shl64 1 max - 1) = 2 ^ max - 1).
  { destruct (decide (max = 64)) as [->|Hne]; [done|]. rewrite shl64_1 by lia. apply u64_small.
    assert (2 ^ max < 2 ^ 64) by (apply Z.pow_lt_mono_r; lia). lia. }
  rewrite Htot. destruct (Z.eqb_spec (2 ^ max - 1) 0) as [E|_]; [lia|].
  rewrite shl64_1 by lia.
  assert (E1 : u64 (2 ^ max - 1 - 2 ^ (max - 1)) = 2 ^ Z.of_nat (Z.to_nat (max - 1)) - 1).
  { rewrite Z2Nat.id by lia. assert (2 ^ (max - 1) < 2 ^ 64) by (apply Z.pow_lt_mono_r; lia). rewrite u64_small; lia. }
  rewrite E1. replace (2 ^ (max - 1)) with (2 ^ Z.of_nat (Z.to_nat (max - 1))) by (f_equal; lia).
  assert (Hk : 0 <= word mod (2 ^ max - 1) < 2 ^ max - 1) by (apply Z.mod_pos_bound; lia).
  destruct (level_loop_ok 64 (Z.to_nat (max - 1)) (word mod (2 ^ max - 1)) 1) as (j & -> & Hj & Hlo & Hhi); [lia | lia | lia|].
  exists (1 + Z.of_nat j). split_and!; [done | lia | lia | |].
  - etransitivity; [|exact Hlo]. apply Z.eq_le_incl. do 2 f_equal. lia.
  - destruct (decide (j = 0%nat)) as [->|Hj0].
    + replace (max - (1 + Z.of_nat 0) + 1) with max by lia. lia.
    + eapply Z.lt_le_trans; [by apply Hhi|]. apply Z.eq_le_incl. do 2 f_equal. lia.
Qed.

Section proofs.
  Context {K V : Type} (cmp : K → K → Z) (OK : CmpOK cmp).
  Notation skip := (skip K V).
  Implicit Types (s : skip) (xs A B Y : list nat) (r : option nat) (p : nat).

  (* ---------- views of the state ---------- *)
  Definition ht s p : nat := match sk_els s !! p with Some e => length (e_next e) | None => 0 end.
  Definition hgt s r : nat := match r with None => length (sk_head s) | Some p => ht s p end.
  Definition nx s r (i : nat) : option (option nat) := match r with None => sk_head s !! i | Some a => sk_els s !! a ≫= λ e, e_next e !! i end.
  Definition kvof s p : option (K * V) := (λ e, (e_key e, e_val e)) <$> sk_els s !! p.
  Definition lvl (h : nat → nat) (i : nat) xs : list nat := filter (λ p, (i < h p)%nat) xs.
  (** same elements with the same pairs and towers of the same height *)
  Definition same_shape s s' : Prop := sk_max s' = sk_max s ∧ sk_len s' = sk_len s ∧ sk_cache s' = sk_cache s ∧ length (sk_els s') = length (sk_els s) ∧
    length (sk_head s') = length (sk_head s) ∧ (∀ p, kvof s' p = kvof s p) ∧ ∀ p, ht s' p = ht s p.
  Lemma same_shape_refl s : same_shape s s.
  Proof using. done. Qed.
  Lemma same_shape_trans s1 s2 s3 : same_shape s1 s2 → same_shape s2 s3 → same_shape s1 s3.
  Proof using. intros (?&?&?&?&?&Ha&Hb) (?&?&?&?&?&Hc&Hd). split_and!; try congruence; intros p; by rewrite ?Hc, ?Hd. Qed.
  Lemma nx_lt s r i : (i < hgt s r)%nat → ∃ q, nx s r i = Some q.
  Proof using.
    destruct r as [p|]; cbn; unfold ht.
    - destruct (sk_els s !! p) as [e|]; [|lia]. intros H. cbn. by apply lookup_lt_is_Some.
    - intros H. by apply lookup_lt_is_Some.
  Qed.
  Lemma nextat_ok s r i q : nx s r i = Some q → nextat r (Z.of_nat i) s = Ok (q, s).
  Proof using.
    unfold nextat. destruct r as [p|]; cbn.
    - destruct (sk_els s !! p) as [e|]; [|done]. cbn. intros H. by rewrite (idx_nat _ _ _ H).
    - intros H. by rewrite (idx_nat _ _ _ H).
  Qed.
  Lemma setnext_ok s r i q : (i < hgt s r)%nat → ∃ s', setnext r (Z.of_nat i) q s = Ok (tt, s') ∧ same_shape s s' ∧
    ∀ r' i', nx s' r' i' = if decide (r' = r ∧ i' = i) then Some q else nx s r' i'.
  Proof using.
    unfold setnext. destruct r as [p|]; cbn; unfold ht.
    - destruct (sk_els s !! p) as [e|] eqn:E; [|lia]. intros H. rewrite upd_nat by done. eexists. split; [done|]. split.
      + split_and!; cbn; try done; [by rewrite insert_length | |]; intros p'; unfold kvof, ht; cbn.
        * destruct (decide (p' = p)) as [->|Hne]; [|by rewrite list_lookup_insert_ne]. rewrite list_lookup_insert by (by eapply lookup_lt_Some). by rewrite E.
        * destruct (decide (p' = p)) as [->|Hne]; [|by rewrite list_lookup_insert_ne]. rewrite list_lookup_insert by (by eapply lookup_lt_Some). rewrite E. cbn. by rewrite insert_length.
      + intros [p'|] i'; cbn; [|by rewrite decide_False by naive_solver]. destruct (decide (p' = p)) as [->|Hne].
        * rewrite list_lookup_insert by (by eapply lookup_lt_Some). cbn. rewrite E. cbn. destruct (decide (i' = i)) as [->|Hi].
          -- rewrite decide_True by done. by rewrite list_lookup_insert.
          -- rewrite decide_False by naive_solver. by rewrite list_lookup_insert_ne.
        * rewrite decide_False by naive_solver. by rewrite list_lookup_insert_ne.
    - intros H. rewrite upd_nat by done. eexists. split; [done|]. split.
      + split_and!; cbn; try done. by rewrite insert_length.
      + intros [p'|] i'; cbn; [by rewrite decide_False by naive_solver|]. destruct (decide (i' = i)) as [->|Hi].
        * rewrite decide_True by done. by rewrite list_lookup_insert.
        * rewrite decide_False by naive_solver. by rewrite list_lookup_insert_ne.
  Qed.
  Lemma prevat_ok s i r : sk_cache s !! i = Some (Some r) → prevat (Z.of_nat i) s = Ok (r, s).
  Proof using. unfold prevat. intros H. by rewrite (idx_nat _ _ _ H). Qed.

  (* ---------- positions ---------- *)
  (** Y is what follows r in A; the head precedes everything *)
  Definition after A r Y : Prop := match r with None => Y = A | Some p => ∃ l1, A = l1 ++ p :: Y end.
  Lemma after_app A B r Y : after A r Y → after (A ++ B) r (Y ++ B).
  Proof using. destruct r as [p|]; cbn; [intros [l1 ->]; exists l1; by rewrite <- app_assoc | by intros ->]. Qed.
  Lemma after_unique A r Y Y' : NoDup A → after A r Y → after A r Y' → Y = Y'.
  Proof using.
    destruct r as [p|]; cbn; [|congruence]. intros Hn [l1 ->] [l2 E].
    revert l2 E Hn. induction l1 as [|a l1 IH]; intros [|b l2] E Hn; cbn in *.
    - by injection E.
    - injection E as -> ->. apply NoDup_cons in Hn as [Hn _]. exfalso. apply Hn. apply elem_of_app. right. apply elem_of_list_here.
    - injection E as <- <-. apply NoDup_cons in Hn as [Hn _]. exfalso. apply Hn. apply elem_of_app. right. apply elem_of_list_here.
    - injection E as -> E. apply NoDup_cons in Hn as [_ Hn]. by eapply IH.
  Qed.
  Lemma after_elem A p Y q : after A (Some p) Y → q ∈ Y → q ∈ A.
  Proof using. intros [l1 ->] Hq. apply elem_of_app. right. by right. Qed.
  Lemma lvl_app h i A B : lvl h i (A ++ B) = lvl h i A ++ lvl h i B.
  Proof using. apply filter_app. Qed.
  Lemma lvl_nil h i Y : lvl h i Y = [] ↔ ∀ p, p ∈ Y → ¬ (i < h p)%nat.
  Proof using.
    unfold lvl. split.
    - intros E p Hp Hi. apply (not_elem_of_nil p). rewrite <- E. by apply elem_of_list_filter.
    - intros H. destruct (filter _ Y) as [|q l'] eqn:E; [done|]. exfalso. assert (Hq : q ∈ filter (λ p, (i < h p)%nat) Y) by (rewrite E; apply elem_of_list_here).
      apply elem_of_list_filter in Hq as [Hi Hq]. by apply (H q).
  Qed.
  Lemma lvl_cons_inv h i Y q rest : lvl h i Y = q :: rest → ∃ Y1 Y2, Y = Y1 ++ q :: Y2 ∧ lvl h i Y1 = [] ∧ (i < h q)%nat ∧ rest = lvl h i Y2.
  Proof using.
    induction Y as [|a Y IH]; [done|]. unfold lvl. rewrite filter_cons. case_decide as Ha.
    - intros [= -> <-]. exists [], Y. done.
    - intros E. destruct (IH E) as (Y1 & Y2 & -> & H1 & Hq & ->). exists (a :: Y1), Y2. split_and!; [done | | done | done].
      unfold lvl. rewrite filter_cons_False by done. exact H1.
  Qed.
  Lemma lvl_ext h h' i Y : (∀ p, p ∈ Y → h p = h' p) → lvl h i Y = lvl h' i Y.
  Proof using.
    unfold lvl. induction Y as [|a Y IH]; intros H; [done|]. rewrite !filter_cons, (H a) by apply elem_of_list_here.
    rewrite IH; [done|]. intros p Hp. apply H. by right.
  Qed.
  (** the last node of A that is taller than i *)
  Definition is_prev s A (i : nat) r : Prop := ∃ Y, after A r Y ∧ lvl (ht s) i Y = [] ∧ (i < hgt s r)%nat.
  Lemma is_prev_unique s A i r r' Y : NoDup A → is_prev s A i r → after A r' Y → (i < hgt s r')%nat → (lvl (ht s) i Y = [] ↔ r' = r).
  Proof using.
    intros Hn (Y0 & Ha & Hl & Hh) Ha' Hh'. split.
    - intros Hl'. destruct r as [p|], r' as [p'|]; cbn in Ha, Ha'; [| | |done].
      + destruct (decide (p' = p)) as [->|Hne]; [done|]. exfalso. destruct Ha as [l1 ->]. destruct Ha' as [l1' E].
        assert (Hsplit : p ∈ Y ∨ p' ∈ Y0).
        { clear - E Hne. revert l1' E. induction l1 as [|a l1 IH]; intros [|b l1'] E; cbn in E.
          - injection E as <- <-. done.
          - injection E as <- ->. right. apply elem_of_app. right. apply elem_of_list_here.
          - injection E as <- <-. left. apply elem_of_app. right. apply elem_of_list_here.
          - injection E as <- E. by eapply IH. }
        destruct Hsplit as [Hp|Hp]; [by apply (proj1 (lvl_nil _ _ _) Hl' p Hp) | by apply (proj1 (lvl_nil _ _ _) Hl p' Hp)].
      + exfalso. subst Y. destruct Ha as [l1 ->]. apply (proj1 (lvl_nil _ _ _) Hl' p); [apply elem_of_app; right; apply elem_of_list_here | done].
      + exfalso. subst Y0. destruct Ha' as [l1 ->]. apply (proj1 (lvl_nil _ _ _) Hl p'); [apply elem_of_app; right; apply elem_of_list_here | done].
    - intros ->. by rewrite (after_unique _ _ _ _ Hn Ha' Ha).
  Qed.

  (* ---------- the invariant ---------- *)
  Definition links s xs : Prop := ∀ r Y i, after xs r Y → (i < hgt s r)%nat → nx s r i = Some (head (lvl (ht s) i Y)).
  Record inv (max : nat) s xs (l : list (K * V)) : Prop := {
    inv_max : (1 <= max <= 64)%nat;
    inv_smax : sk_max s = Z.of_nat max;
    inv_head : length (sk_head s) = max;
    inv_cache : length (sk_cache s) = max;
    inv_len : sk_len s = Z.of_nat (length l);
    inv_nodup : NoDup xs;
    inv_kv : Forall2 (λ p kv, kvof s p = Some kv) xs l;
    inv_ht : ∀ p, p ∈ xs → (1 <= ht s p <= max)%nat;
    inv_asc : ascending cmp l;
    inv_links : links s xs;
  }.
  Lemma kvof_lt s p kv : kvof s p = Some kv → (p < length (sk_els s))%nat.
  Proof using. unfold kvof. destruct (sk_els s !! p) eqn:E; [|done]. intros _. by eapply lookup_lt_Some. Qed.
  Lemma el_ok s p kv : kvof s p = Some kv → ∃ e, el (Some p) s = Ok (e, s) ∧ e_key e = kv.1 ∧ e_val e = kv.2 ∧ length (e_next e) = ht s p.
  Proof using. unfold kvof, el, ht. destruct (sk_els s !! p) as [e|]; [|done]. intros [= <-]. by exists e. Qed.
  Lemma inv_length max s xs l : inv max s xs l → (length xs <= length (sk_els s))%nat.
  Proof using.
    intros H. rewrite <- (seq_length (length (sk_els s)) 0). apply submseteq_length, NoDup_submseteq; [apply H|].
    intros p Hp. apply elem_of_seq. split; [lia|]. apply elem_of_list_lookup in Hp as [i Hi]. destruct (Forall2_lookup_l _ _ _ _ _ (inv_kv _ _ _ _ H) Hi) as (kv & _ & Hkv). cbn in Hkv. apply kvof_lt in Hkv. lia.
  Qed.
  Lemma head_app_nil {X} (a b : list X) : a = [] → head (a ++ b) = head b.
  Proof using. by intros ->. Qed.

  (* ---------- walking ---------- *)
  Section walk.
    Context (max : nat) s A B la lb (key : K) (Hinv : inv max s (A ++ B) (la ++ lb))
            (HA : Forall2 (λ p kv, kvof s p = Some kv) A la) (HB : Forall2 (λ p kv, kvof s p = Some kv) B lb)
            (Hla : Forall (λ kv, cmp kv.1 key < 0) la) (Hlb : Forall (λ kv, 0 <= cmp kv.1 key) lb).
    Lemma kv_A p : p ∈ A → ∃ kv, kvof s p = Some kv ∧ cmp kv.1 key < 0.
    Proof using HA Hla. intros Hp. apply elem_of_list_lookup in Hp as [i Hi]. destruct (Forall2_lookup_l _ _ _ _ _ HA Hi) as (kv & Hk & E). exists kv. split; [done|]. rewrite Forall_lookup in Hla. by eapply Hla. Qed.
    Lemma kv_B p : p ∈ B → ∃ kv, kvof s p = Some kv ∧ 0 <= cmp kv.1 key.
    Proof using HB Hlb. intros Hp. apply elem_of_list_lookup in Hp as [i Hi]. destruct (Forall2_lookup_l _ _ _ _ _ HB Hi) as (kv & Hk & E). exists kv. split; [done|]. rewrite Forall_lookup in Hlb. by eapply Hlb. Qed.
    Lemma head_lvl_elem h i C q : head (lvl h i C) = Some q → q ∈ C.
    Proof using. destruct (lvl h i C) as [|a c] eqn:E; [done|]. intros [= ->]. assert (q ∈ lvl h i C) as Hq by (rewrite E; apply elem_of_list_here). by apply elem_of_list_filter in Hq as [_ ?]. Qed.
    Lemma walk_ok f : ∀ (i : nat) r Y, after A r Y → (i < hgt s r)%nat → (length (lvl (ht s) i Y) < f)%nat →
      ∃ r', walk cmp f key (Z.of_nat i) r (head (lvl (ht s) i (Y ++ B))) s = Ok (r', s) ∧ is_prev s A i r'.
    Proof using HA HB Hinv Hla Hlb.
      induction f as [|f IH]; intros i r Y Ha Hh Hf; [lia|]. cbn [walk]. rewrite lvl_app.
      destruct (lvl (ht s) i Y) as [|q rest] eqn:EY.
      - cbn [app]. destruct (head (lvl (ht s) i B)) as [q|] eqn:E.
        + destruct (kv_B q) as (kv & Hkv & Hge); [by eapply head_lvl_elem|]. destruct (el_ok _ _ _ Hkv) as (e & He & Hek & _).
          unfold mbind_. rewrite He, Hek. rewrite Z.geb_leb. destruct (Z.leb_spec 0 (cmp kv.1 key)); [|lia]. exists r. split; [done|]. by exists Y.
        + exists r. split; [done|]. by exists Y.
      - cbn [app head]. apply lvl_cons_inv in EY as (Y1 & Y2 & -> & H1 & Hq & ->).
        assert (HqA : q ∈ A). { destruct r as [p|]; [|cbn in Ha; rewrite <- Ha; apply elem_of_app; right; apply elem_of_list_here]. eapply after_elem; [exact Ha|]. apply elem_of_app; right; apply elem_of_list_here. }
        destruct (kv_A q HqA) as (kv & Hkv & Hlt). destruct (el_ok _ _ _ Hkv) as (e & He & Hek & _).
        assert (Haq : after A (Some q) Y2).
        { destruct r as [p|]; cbn in Ha |- *; [destruct Ha as [l1 ->]; exists (l1 ++ p :: Y1); by rewrite <- app_assoc | exists Y1; congruence]. }
        unfold mbind_. rewrite He, Hek. rewrite Z.geb_leb. destruct (Z.leb_spec 0 (cmp kv.1 key)); [lia|].
        rewrite (nextat_ok _ _ _ _ (inv_links _ _ _ _ Hinv (Some q) (Y2 ++ B) i (after_app _ _ _ _ Haq) Hq)).
        apply IH; [done | done|]. cbn [length] in Hf. lia.
    Qed.
    Lemma get_walk_ok f : ∀ (i : nat) r Y, after A r Y → (i < hgt s r)%nat → (length (lvl (ht s) i Y) < f)%nat →
      (∃ q kv, get_walk cmp f key (Z.of_nat i) r (head (lvl (ht s) i (Y ++ B))) s = Ok (inl kv.2, s) ∧ q ∈ B ∧ kvof s q = Some kv ∧ cmp kv.1 key = 0) ∨
      (∃ r', get_walk cmp f key (Z.of_nat i) r (head (lvl (ht s) i (Y ++ B))) s = Ok (inr r', s) ∧ is_prev s A i r' ∧
         match head (lvl (ht s) i B) with None => True | Some q => ∃ kv, kvof s q = Some kv ∧ cmp kv.1 key ≠ 0 end).
    Proof using HA HB Hinv Hla Hlb.
      induction f as [|f IH]; intros i r Y Ha Hh Hf; [lia|]. cbn [get_walk]. rewrite lvl_app.
      destruct (lvl (ht s) i Y) as [|q rest] eqn:EY.
      - cbn [app]. destruct (head (lvl (ht s) i B)) as [q|] eqn:E.
        + assert (HqB : q ∈ B) by (by eapply head_lvl_elem). destruct (kv_B q HqB) as (kv & Hkv & Hge). destruct (el_ok _ _ _ Hkv) as (e & He & Hek & Hev & _).
          unfold mbind_. rewrite He, Hek. destruct (Z.eqb_spec (cmp kv.1 key) 0) as [E0|E0].
          * left. exists q, kv. rewrite Hev. done.
          * right. rewrite Z.gtb_ltb. destruct (Z.ltb_spec 0 (cmp kv.1 key)); [|lia]. exists r. split_and!; [done | by exists Y | by exists kv].
        + right. exists r. split_and!; [done | by exists Y | done].
      - cbn [app head]. apply lvl_cons_inv in EY as (Y1 & Y2 & -> & H1 & Hq & ->).
        assert (HqA : q ∈ A). { destruct r as [p|]; [|cbn in Ha; rewrite <- Ha; apply elem_of_app; right; apply elem_of_list_here]. eapply after_elem; [exact Ha|]. apply elem_of_app; right; apply elem_of_list_here. }
        destruct (kv_A q HqA) as (kv & Hkv & Hlt). destruct (el_ok _ _ _ Hkv) as (e & He & Hek & _).
        assert (Haq : after A (Some q) Y2).
        { destruct r as [p|]; cbn in Ha |- *; [destruct Ha as [l1 ->]; exists (l1 ++ p :: Y1); by rewrite <- app_assoc | exists Y1; congruence]. }
        unfold mbind_. rewrite He, Hek. rewrite Z.gtb_ltb. destruct (Z.eqb_spec (cmp kv.1 key) 0); [lia|]. destruct (Z.ltb_spec 0 (cmp kv.1 key)); [lia|].
        rewrite (nextat_ok _ _ _ _ (inv_links _ _ _ _ Hinv (Some q) (Y2 ++ B) i (after_app _ _ _ _ Haq) Hq)).
        apply IH; [done | done|]. cbn [length] in Hf. lia.
    Qed.

    Definition with_cache s (c : list (option (option nat))) : skip := MkSkip (sk_els s) (sk_head s) (sk_max s) (sk_len s) c.
    Lemma lvl_fuel (i : nat) Y r : after A r Y → (length (lvl (ht s) i Y) < S (length (sk_els s)))%nat.
    Proof using Hinv.
      clear HA HB Hla Hlb. intros Ha. apply Nat.lt_succ_r. etransitivity; [|exact (inv_length _ _ _ _ Hinv)]. etransitivity; [apply filter_length|]. rewrite app_length.
      destruct r as [p|]; cbn in Ha; [destruct Ha as [l1 ->]; rewrite app_length; cbn; lia | subst; lia].
    Qed.
    Lemma get_loop_ok (lv : nat) : ∀ r Y, after A r Y → (lv <= hgt s r)%nat →
      match get_loop cmp lv (S (length (sk_els s))) key r s with
      | Ok (Some v, s') => s' = s ∧ ∃ q kv, q ∈ B ∧ kvof s q = Some kv ∧ cmp kv.1 key = 0 ∧ v = kv.2
      | Ok (None, s') => s' = s ∧ (lv ≠ 0%nat → match head (lvl (ht s) 0 B) with None => True | Some q => ∃ kv, kvof s q = Some kv ∧ cmp kv.1 key ≠ 0 end)
      | _ => False end.
    Proof using HA HB Hinv Hla Hlb.
      induction lv as [|lv IH]; intros r Y Ha Hh; [done|]. cbn [get_loop]. unfold mbind_.
      rewrite (nextat_ok _ _ _ _ (inv_links _ _ _ _ Hinv r (Y ++ B) lv (after_app _ _ _ _ Ha) ltac:(lia))).
      destruct (get_walk_ok (S (length (sk_els s))) lv r Y Ha ltac:(lia) (lvl_fuel _ _ _ Ha)) as [(q & kv & -> & Hq & Hkv & E0)|(r' & -> & (Y' & Ha' & _ & Hh') & Hne)].
      - split; [done|]. by exists q, kv.
      - specialize (IH r' Y' Ha' ltac:(lia)). destruct (get_loop _ _ _ _ _ _) as [[[v|] s']| |]; [done | | done | done].
        destruct IH as [-> IH]. split; [done|]. intros _. destruct lv as [|lv]; [exact Hne | by apply IH].
    Qed.
  End walk.

  Lemma inv_with_cache max s xs l c : inv max s xs l → length c = length (sk_cache s) → inv max (with_cache s c) xs l.
  Proof using. intros [] E. constructor; try done. cbn. by rewrite E. Qed.
  Lemma prev_loop_ok max A B la lb key (lv : nat) : ∀ s r Y, inv max s (A ++ B) (la ++ lb) →
    Forall2 (λ p kv, kvof s p = Some kv) A la → Forall2 (λ p kv, kvof s p = Some kv) B lb →
    Forall (λ kv, cmp kv.1 key < 0) la → Forall (λ kv, 0 <= cmp kv.1 key) lb →
    after A r Y → (lv <= hgt s r)%nat → (lv <= max)%nat →
    ∃ c, prev_loop cmp lv (S (length (sk_els s))) key r s = Ok (tt, with_cache s c) ∧ length c = length (sk_cache s) ∧
      (∀ i, (i < lv)%nat → ∃ r', c !! i = Some (Some r') ∧ is_prev s A i r') ∧ ∀ i, (lv <= i)%nat → c !! i = sk_cache s !! i.
  Proof using.
    induction lv as [|lv IH]; intros s r Y Hinv HA HB Hla Hlb Ha Hh Hm.
    { exists (sk_cache s). split_and!; [by destruct s | done | lia | done]. }
    cbn [prev_loop]. unfold mbind_ at 1.
    assert (Hh0 : (lv < hgt s None)%nat) by (cbn; rewrite (inv_head _ _ _ _ Hinv); lia).
    rewrite (nextat_ok _ _ _ _ (inv_links _ _ _ _ Hinv None (A ++ B) lv eq_refl Hh0)).
    assert (∃ r', is_prev s A lv r' ∧ (match head (lvl (ht s) lv (A ++ B)) with Some _ => let! next := nextat r (Z.of_nat lv) in walk cmp (S (length (sk_els s))) key (Z.of_nat lv) r next | None => mret_ r end) s = Ok (r', s)) as (r' & Hp & E).
    { destruct (head (lvl (ht s) lv (A ++ B))) as [q|] eqn:Eh.
      - destruct (walk_ok max s A B la lb key Hinv HA HB Hla Hlb (S (length (sk_els s))) lv r Y) as (r' & Ew & Hp); [done | lia | by eapply lvl_fuel|]. exists r'. split; [done|].
        unfold mbind_. rewrite (nextat_ok _ _ _ _ (inv_links _ _ _ _ Hinv r (Y ++ B) lv (after_app _ _ _ _ Ha) ltac:(lia))). exact Ew.
      - exists r. split; [|done]. exists Y. split_and!; [done | | lia]. destruct (lvl (ht s) lv (A ++ B)) as [|q rest] eqn:El; [|done].
        rewrite lvl_app in El. apply app_eq_nil in El as [El _]. apply lvl_nil. intros p Hp. apply (proj1 (lvl_nil _ _ _) El).
        destruct r as [a|]; [by eapply after_elem | cbn in Ha; by rewrite <- Ha]. }
    unfold mbind_ at 1. rewrite E. unfold mbind_ at 1. unfold setprev. rewrite upd_nat by (rewrite (inv_cache _ _ _ _ Hinv); lia).
    fold (with_cache s (<[lv:=Some r']> (sk_cache s))). destruct Hp as (Y' & Ha' & Hl' & Hh').
    assert (Hinv' : inv max (with_cache s (<[lv:=Some r']> (sk_cache s))) (A ++ B) (la ++ lb)) by (apply inv_with_cache; [done | by rewrite insert_length]).
    destruct (IH (with_cache s (<[lv:=Some r']> (sk_cache s))) r' Y' Hinv' HA HB Hla Hlb Ha' ltac:(change (lv <= hgt s r')%nat; lia) ltac:(lia)) as (c & Ec & Hlen & Hc & Hk).
    exists c. cbn [with_cache sk_els] in Ec. split_and!; [exact Ec | rewrite Hlen; cbn; by rewrite insert_length | |].
    - intros i Hi. destruct (decide (i = lv)) as [->|Hne]; [|apply Hc; lia]. exists r'. split; [|by exists Y']. rewrite Hk by lia. cbn. rewrite list_lookup_insert; [done|]. rewrite (inv_cache _ _ _ _ Hinv); lia.
    - intros i Hi. rewrite Hk by lia. cbn. by rewrite list_lookup_insert_ne by lia.
  Qed.
  (** every ascending list splits at a key *)
  Lemma split_at (l : list (K * V)) key : ascending cmp l → ∃ la lb, l = la ++ lb ∧ Forall (λ kv, cmp kv.1 key < 0) la ∧ Forall (λ kv, 0 <= cmp kv.1 key) lb.
  Proof using OK.
    induction l as [|kv l IH]; intros Hs; [by exists [], []|]. apply StronglySorted_inv in Hs as [Hs Hf].
    destruct (Z.ltb_spec (cmp kv.1 key) 0) as [Hlt|Hge].
    - destruct (IH Hs) as (la & lb & -> & H1 & H2). exists (kv :: la), lb. split_and!; [done | by constructor | done].
    - exists [], (kv :: l). split_and!; [done | done|]. constructor; [done|]. eapply Forall_impl; [exact Hf|]. cbn. intros kv' Hlt.
      destruct (Z.ltb_spec (cmp kv'.1 key) 0) as [Hlt'|]; [|done]. pose proof (cmp_lt_trans _ OK _ _ _ Hlt Hlt'). lia.
  Qed.
  Definition found s A B (la lb : list (K * V)) key (max : nat) : Prop := inv max s (A ++ B) (la ++ lb) ∧ Forall2 (λ p kv, kvof s p = Some kv) A la ∧ Forall2 (λ p kv, kvof s p = Some kv) B lb ∧
    Forall (λ kv, cmp kv.1 key < 0) la ∧ Forall (λ kv, 0 <= cmp kv.1 key) lb.
  Lemma found_exists max s xs l key : inv max s xs l → ∃ A B la lb, xs = A ++ B ∧ l = la ++ lb ∧ found s A B la lb key max.
  Proof using OK.
    intros H. destruct (split_at l key (inv_asc _ _ _ _ H)) as (la & lb & -> & Hla & Hlb).
    destruct (proj1 (Forall2_app_inv_r _ _ _ _) (inv_kv _ _ _ _ H)) as (A & B & HA & HB & ->). by exists A, B, la, lb.
  Qed.
  Lemma findPrevNodes_ok max s A B la lb key : found s A B la lb key max → ∃ c, findPrevNodes cmp key s = Ok (tt, with_cache s c) ∧ found (with_cache s c) A B la lb key max ∧
    ∀ i, (i < max)%nat → ∃ r, c !! i = Some (Some r) ∧ is_prev s A i r.
  Proof using.
    intros (Hinv & HA & HB & Hla & Hlb). unfold findPrevNodes, mbind_, getmax, walkfuel. rewrite (inv_smax _ _ _ _ Hinv), Nat2Z.id.
    destruct (prev_loop_ok max A B la lb key max s None A Hinv HA HB Hla Hlb eq_refl) as (c & E & Hlen & Hc & _); [cbn; rewrite (inv_head _ _ _ _ Hinv); lia | lia|].
    exists c. split_and!; [exact E | | exact Hc]. split_and!; try done. by apply inv_with_cache.
  Qed.
  Lemma lvl_0 s B : (∀ p, p ∈ B → (1 <= ht s p)%nat) → lvl (ht s) 0 B = B.
  Proof using. induction B as [|b B IH]; intros H; [done|]. unfold lvl. rewrite filter_cons_True; [|specialize (H b (elem_of_list_here _ _)); lia]. f_equal. apply IH. intros p Hp. apply H. by right. Qed.
  Lemma prev_next s A B la lb key max i r : found s A B la lb key max → is_prev s A i r → nx s r i = Some (head (lvl (ht s) i B)).
  Proof using.
    intros (Hinv & _) (Y & Ha & Hl & Hh). rewrite (inv_links _ _ _ _ Hinv r (Y ++ B) i (after_app _ _ _ _ Ha) Hh). by rewrite lvl_app, Hl.
  Qed.

  (* ---------- relinking ---------- *)
  Lemma link_loop_ok (n : nat) : ∀ s (j : nat) (e : nat) (prev : nat → option nat),
    (∀ i, (j <= i < j + n)%nat → sk_cache s !! i = Some (Some (prev i)) ∧ prev i ≠ Some e ∧ (i < hgt s (prev i))%nat ∧ (i < ht s e)%nat) →
    ∃ s', link_loop n (Z.of_nat j) e s = Ok (tt, s') ∧ same_shape s s' ∧
      ∀ r i, nx s' r i = if decide (j <= i < j + n)%nat then (if decide (r = Some e) then nx s (prev i) i else if decide (r = prev i) then Some (Some e) else nx s r i) else nx s r i.
  Proof using.
    induction n as [|n IH]; intros s j e prev Hp; cbn [link_loop].
    { exists s. split_and!; [done | apply same_shape_refl|]. intros r i. by rewrite decide_False by lia. }
    destruct (Hp j ltac:(lia)) as (Hc & Hne & Hh & He). unfold mbind_ at 1. rewrite (prevat_ok _ _ _ Hc).
    destruct (nx_lt _ _ _ Hh) as [q Hq]. unfold mbind_ at 1. rewrite (nextat_ok _ _ _ _ Hq).
    destruct (setnext_ok s (Some e) j q He) as (s1 & E1 & Hs1 & Hn1). unfold mbind_ at 1. rewrite E1.
    assert (Hs1' := Hs1). destruct Hs1' as (_ & _ & Hca & _ & Hhd & _ & Hht). unfold mbind_ at 1. rewrite (prevat_ok s1 j (prev j)) by (by rewrite Hca).
    assert (Hhg : ∀ r, hgt s1 r = hgt s r) by (intros [p|]; [apply Hht | apply Hhd]).
    destruct (setnext_ok s1 (prev j) j (Some e)) as (s2 & E2 & Hs2 & Hn2); [by rewrite Hhg|]. unfold mbind_ at 1. rewrite E2.
    replace (Z.of_nat j + 1) with (Z.of_nat (S j)) by lia.
    assert (Hs2' := Hs2). destruct Hs2' as (_ & _ & Hca2 & _ & Hhd2 & _ & Hht2).
    assert (Hhg2 : ∀ r, hgt s2 r = hgt s r) by (intros [p|]; [cbn; rewrite Hht2; apply Hht | cbn; rewrite Hhd2; apply Hhd]).
    destruct (IH s2 (S j) e prev) as (s3 & E3 & Hs3 & Hn3).
    { intros i Hi. destruct (Hp i ltac:(lia)) as (H1 & H2 & H3 & H4). rewrite Hca2, Hca, Hhg2. rewrite Hht2, Hht. done. }
    exists s3. split_and!; [exact E3 | eapply same_shape_trans; [|exact Hs3]; by eapply same_shape_trans |].
    intros r i. rewrite Hn3. destruct (decide (S j <= i < S j + n)%nat) as [Hi|Hi].
    - rewrite (decide_True (P := (j <= i < j + S n)%nat)) by lia. rewrite !Hn2, !Hn1. rewrite !(decide_False (P := _ ∧ i = j)) by (intros [_ ?]; lia). done.
    - rewrite Hn2, Hn1. destruct (decide (i = j)) as [->|Hij].
      + rewrite (decide_True (P := (j <= j < j + S n)%nat)) by lia. destruct (decide (r = Some e)) as [->|Hre].
        * rewrite decide_False by (intros [? _]; congruence). rewrite decide_True by done. by rewrite Hq.
        * destruct (decide (r = prev j)) as [->|Hrp]; [by rewrite decide_True by done|]. rewrite !decide_False by (intros [? _]; congruence). done.
      + rewrite (decide_False (P := (j <= i < j + S n)%nat)) by lia. by rewrite !decide_False by (intros [_ ?]; lia).
  Qed.
  Lemma unlink_loop_ok (n : nat) : ∀ s (j : nat) (e : nat) (prev : nat → option nat),
    (∀ i, (j <= i < j + n)%nat → sk_cache s !! i = Some (Some (prev i)) ∧ prev i ≠ Some e ∧ (i < hgt s (prev i))%nat ∧ (i < ht s e)%nat) →
    ∃ s', unlink_loop n (Z.of_nat j) (Some e) s = Ok (tt, s') ∧ same_shape s s' ∧
      ∀ r i, nx s' r i = if decide ((j <= i < j + n)%nat ∧ r = prev i) then nx s (Some e) i else nx s r i.
  Proof using.
    induction n as [|n IH]; intros s j e prev Hp; cbn [unlink_loop].
    { exists s. split_and!; [done | apply same_shape_refl|]. intros r i. by rewrite decide_False by (intros [? _]; lia). }
    destruct (Hp j ltac:(lia)) as (Hc & Hne & Hh & He).
    destruct (nx_lt s (Some e) j He) as [q Hq]. unfold mbind_ at 1. rewrite (nextat_ok _ _ _ _ Hq).
    unfold mbind_ at 1. rewrite (prevat_ok _ _ _ Hc).
    destruct (setnext_ok s (prev j) j q Hh) as (s1 & E1 & Hs1 & Hn1). unfold mbind_ at 1. rewrite E1.
    assert (Hs1' := Hs1). destruct Hs1' as (_ & _ & Hca & _ & Hhd & _ & Hht).
    assert (Hhg : ∀ r, hgt s1 r = hgt s r) by (intros [p|]; [apply Hht | apply Hhd]).
    replace (Z.of_nat j + 1) with (Z.of_nat (S j)) by lia.
    destruct (IH s1 (S j) e prev) as (s3 & E3 & Hs3 & Hn3).
    { intros i Hi. destruct (Hp i ltac:(lia)) as (H1 & H2 & H3 & H4). rewrite Hca, Hhg, Hht. done. }
    exists s3. split_and!; [exact E3 | by eapply same_shape_trans |].
    intros r i. rewrite Hn3, !Hn1. destruct (decide (i = j)) as [->|Hij].
    - rewrite (decide_False (P := _ ∧ r = prev j)) by (intros [? _]; lia). destruct (decide (r = prev j)) as [->|Hr].
      + rewrite !decide_True by (split; [lia || done | done]). by rewrite Hq.
      + rewrite !decide_False by (intros [? ?]; done). done.
    - rewrite !(decide_False (P := _ ∧ i = j)) by (intros [_ ?]; lia).
      destruct (decide ((S j <= i < S j + n)%nat ∧ r = prev i)) as [[? ?]|Hn].
      + rewrite decide_True by (split; [lia | done]). done.
      + rewrite decide_False; [done|]. intros [? ?]. apply Hn. split; [lia | done].
  Qed.
End proofs.
