(** The ketama code maintains the ring. *)
From Verif Require Import Base Wp History RbModel RbTree RbRot RbIns RbIns2 RbDel RbNav RbDel2 RbSpec RbFind RbProps RbApi MapModel MapSpec MapProofs MapProps ComparatorModel ComparatorProps BloomModel BloomProofs KetamaModel KetamaSpec.
Open Scope Z_scope.
Open Scope go_scope.

Local Notation u64 := BinNums.N.
Lemma u64_ok : CmpOK u64cmp.
Proof. assert (CmpOK Uint64Comparator) as [H1 H2] by apply builtin_comparators_ok. unfold u64cmp. constructor; intros; eauto. Qed.
Lemma u64_eq a b : u64cmp a b = 0 ↔ a = b. Proof. unfold u64cmp, Uint64Comparator. destruct (Z.eqb_spec (Z.of_N a) (Z.of_N b)); [split; [lia|done]|]. destruct (_ <? _); split; try done; intros ->; lia. Qed.
Lemma u64_lt a b : u64cmp a b < 0 ↔ (a < b)%N. Proof. unfold u64cmp, Uint64Comparator. destruct (Z.eqb_spec (Z.of_N a) (Z.of_N b)); [lia|]. destruct (Z.ltb_spec (Z.of_N a) (Z.of_N b)); lia. Qed.
Lemma u64_le a b : u64cmp a b <= 0 ↔ (a <= b)%N. Proof. unfold u64cmp, Uint64Comparator. destruct (Z.eqb_spec (Z.of_N a) (Z.of_N b)); [lia|]. destruct (Z.ltb_spec (Z.of_N a) (Z.of_N b)); lia. Qed.

Lemma foldl_left {A B} (f : A → B → A) a l : fold_left f l a = foldl f a l. Proof. revert a. induction l as [|x l IH]; intros a; cbn; [done|]. apply IH. Qed.
Section proofs.
  Context (h : bytes → bytes) (Hh : ∀ d, length (h d) = 64%nat) (replicas : Z) (Hr : 0 <= replicas).
  Implicit Types (s : rb u64 bytes) (r : ring) (l : list (u64 * bytes)).
  Definition kholds s r : Prop := ∃ l, mholds u64cmp s l ∧ ∀ p, r !! p = lookup_k u64cmp p l.
  Lemma in_lookup l p n : ascending u64cmp l → (p, n) ∈ l ↔ lookup_k u64cmp p l = Some n.
  Proof using.
    clear. unfold lookup_k. induction l as [|[p' n'] l IH]; cbn; intros Ha. { split; [by intros ?%elem_of_nil|done]. } apply asc_inv in Ha as [Ha Hlt]. rewrite elem_of_cons. unfold is_k at 1. cbn [fst]. destruct (Z.eqb_spec (u64cmp p p') 0) as [He|Hne].
    - apply u64_eq in He as ->. cbn. split; [|intros [= ->]; by left]. intros [[= ->]|Hi]; [done|]. specialize (Hlt _ Hi). cbn in Hlt. apply u64_lt in Hlt. lia.
    - rewrite IH by done. split; [|by right]. intros [[= -> ->]|?]; [|done]. by destruct Hne; apply u64_eq.
  Qed.
  (** single map operations *)
  Lemma k_contains s r p : kholds s r → map_Contains u64cmp p s = Ok (bool_decide (is_Some (r !! p)), s).
  Proof using.
    clear. intros (l & [(t & Ht & <-) Ha] & Hl). unfold map_Contains, mbind_. rewrite (hd_find u64cmp u64_ok s t p Ht). unfold mret_. rewrite Hl. unfold lookup_k, is_k. do 2 f_equal. by destruct (head _).
  Qed.
  Lemma k_insert s r p n : kholds s r → ∃ s', map_Insert u64cmp p n s = Ok (tt, s') ∧ kholds s' (<[p := n]> r).
  Proof using.
    clear. intros (l & Hm & Hl). pose proof (map_agrees (W := unit) u64cmp u64_ok (MInsert p n) s l Hm) as H. cbn [map_spec agrees map_step] in H. destruct H as (s' & E1 & H'). unfold mbind_ in E1. destruct (map_Insert u64cmp p n s) as [[[] s1]| |]; try done. unfold mret_ in E1. injection E1 as ->. exists s'. split; [done|].
    exists (upsert u64cmp p n l). split; [done|]. intros q. rewrite (lookup_upsert u64cmp u64_ok) by by destruct Hm. rewrite <-Hl. destruct (Z.eqb_spec (u64cmp q p) 0) as [He|Hne]; [apply u64_eq in He as ->; apply lookup_insert|]. rewrite lookup_insert_ne; [done|]. intros ->. by destruct Hne; apply u64_eq.
  Qed.
  Lemma k_find s r p : kholds s r → ∃ it, map_Find u64cmp p s = Ok (it, s) ∧ mi_IsValid it = bool_decide (is_Some (r !! p)) ∧ (∀ n, r !! p = Some n → mi_Value it s = Ok (n, s)) ∧ ∃ s', map_EraseIter it s = Ok (tt, s') ∧ kholds s' (delete p r).
  Proof using.
    clear. intros (l & Hm & Hl). pose proof Hm as [(t & Ht & <-) Ha]. destruct (hd_search_eq u64cmp u64_ok s t p Ht) as (L & R & E1 & E2 & E3 & _). exists (hd R). split_and!; [done| | |].
    - rewrite Hl. unfold lookup_k, is_k. rewrite <-E3. by destruct R as [|[a [k v]] R].
    - intros n. rewrite Hl. unfold lookup_k, is_k. rewrite <-E3. unfold mi_Value. rewrite (hd_value s t L R (tinv_rep _ _ _ Ht) E2). destruct R as [|[a [k v]] R]; cbn; [done|]. by intros [= ->].
    - pose proof (map_agrees (W := unit) u64cmp u64_ok (MEraseFound p) s _ Hm) as H. cbn [map_spec agrees map_step] in H. destruct H as (s' & E4 & H'). unfold map_Find, mbind_ in E4. rewrite E1 in E4. destruct (map_EraseIter (hd R) s) as [[[] s1]| |]; try done. unfold mret_ in E4. injection E4 as ->. exists s'. split; [done|].
      exists (erase_k u64cmp p (io t).*2). split; [done|]. intros q. rewrite (lookup_erase u64cmp u64_ok), <-Hl. destruct (Z.eqb_spec (u64cmp q p) 0) as [He|Hne]; [apply u64_eq in He as ->; apply lookup_delete|]. rewrite lookup_delete_ne; [done|]. intros ->. by destruct Hne; apply u64_eq.
  Qed.
  Lemma ring_length r l : ascending u64cmp l → (∀ p, r !! p = lookup_k u64cmp p l) → length l = size r.
  Proof using.
    clear. revert r. induction l as [|[p n] l IH]; intros r Ha Hl.
    - assert (r = ∅) as ->; [|done]. apply map_empty. intros p. by rewrite Hl.
    - pose proof Ha as [Ha' Hlt]%asc_inv. assert (r !! p = Some n) as Ep. { rewrite Hl. apply in_lookup; [done|by left]. }
      rewrite <-(insert_delete r p n Ep), map_size_insert_None by apply lookup_delete. cbn [length]. f_equal. apply IH; [done|]. intros q. destruct (decide (q = p)) as [->|Hne].
      + rewrite lookup_delete. symmetry. destruct (lookup_k u64cmp p l) as [m|] eqn:E; [|done]. apply in_lookup in E; [|done]. specialize (Hlt _ E). cbn in Hlt. apply u64_lt in Hlt. lia.
      + rewrite lookup_delete_ne by done. rewrite Hl. unfold lookup_k. cbn. unfold is_k at 1. cbn [fst]. destruct (Z.eqb_spec (u64cmp q p) 0) as [He|]; [by apply u64_eq in He|done].
  Qed.
  Lemma k_size_exact s r : kholds s r → map_Size s = Ok (Z.of_nat (size r), s).
  Proof using.
    clear. intros (l & [(t & Ht & <-) Ha] & Hl). unfold map_Size. rewrite (tinv_size _ _ _ Ht). by rewrite (ring_length r _ Ha Hl).
  Qed.
  Lemma k_size s r : kholds s r → ∃ n, map_Size s = Ok (n, s) ∧ (n = 0 ↔ r = ∅).
  Proof using. clear. intros Hk. rewrite (k_size_exact s r Hk). eexists. split; [done|]. rewrite <-(map_size_empty_iff r). lia. Qed.
  Lemma points_lookup node i x : points h replicas node !! i = Some x ↔ (i < Z.to_nat replicas)%nat ∧ x = point h node i.
  Proof using. clear Hh Hr. unfold points. rewrite list_lookup_fmap. destruct (decide (i < Z.to_nat replicas)%nat) as [Hi|Hi]; [rewrite lookup_seq_lt by done|rewrite lookup_seq_ge by lia]; cbn; naive_solver. Qed.
  Lemma ints_ok seed n s : 0 <= n → ∃ l : list u64, ints h (ksalt ++ seed) n s = Ok (l, s) ∧ length l = Z.to_nat n ∧ ∀ i, (i < Z.to_nat n)%nat → l !! i = Some (point h seed i).
  Proof using Hh. intros Hn. unfold ints. destruct (gen_hash_ints_ok h Hh (ksalt ++ seed) n Hn) as (l & -> & H1 & H2). exists l. split_and!; [done|done|]. intros i Hi. rewrite H2 by done. f_equal. unfold word_at, point, number, be_word. apply foldl_left. Qed.
  Lemma points_hashs (l : list u64) node : length l = Z.to_nat replicas → (∀ i, (i < Z.to_nat replicas)%nat → l !! i = Some (point h node i)) → l = points h replicas node.
  Proof using.
    clear Hh Hr. intros H1 H2. apply list_eq. intros i. destruct (decide (i < Z.to_nat replicas)%nat) as [Hi|Hi].
    - rewrite H2 by done. symmetry. by apply points_lookup.
    - rewrite !lookup_ge_None_2; [done| |lia]. unfold points. rewrite fmap_length, seq_length. lia.
  Qed.
  Lemma add_points_ok node hs s r c i : kholds s r → (i + c = length hs)%nat → ∃ s', add_points c i hs node s = Ok (tt, s') ∧ kholds s' (foldl (take_point node) r (drop i hs)).
  Proof using.
    clear. revert s r i. induction c as [|c IH]; intros s r i Hk Hi; cbn [add_points].
    - exists s. rewrite drop_ge by lia. done.
    - unfold mbind_ at 1. unfold nth_int. destruct (lookup_lt_is_Some_2 hs i ltac:(lia)) as [p Hp]. rewrite Hp. cbn [mret_]. unfold mbind_ at 1. rewrite (k_contains s r p Hk). rewrite (drop_S _ _ _ Hp). cbn [foldl]. unfold take_point at 2. unfold mbind_.
      destruct (r !! p) as [n0|] eqn:Ep; cbn.
      + apply IH; [done|lia].
      + destruct (k_insert s r p node Hk) as (s1 & -> & H1). apply IH; [done|lia].
  Qed.
  Lemma remove_points_ok node hs s r c i : kholds s r → (i + c = length hs)%nat → ∃ s', remove_points c i hs node s = Ok (tt, s') ∧ kholds s' (foldl (drop_point node) r (drop i hs)).
  Proof using.
    clear. revert s r i. induction c as [|c IH]; intros s r i Hk Hi; cbn [remove_points].
    - exists s. rewrite drop_ge by lia. done.
    - unfold mbind_ at 1. unfold nth_int. destruct (lookup_lt_is_Some_2 hs i ltac:(lia)) as [p Hp]. rewrite Hp. cbn [mret_]. unfold mbind_ at 1. destruct (k_find s r p Hk) as (it & -> & E2 & E3 & s1 & E4 & H1). rewrite (drop_S _ _ _ Hp). cbn [foldl]. unfold drop_point at 2. rewrite E2. unfold mbind_.
      destruct (r !! p) as [n0|] eqn:Ep; cbn.
      + rewrite (E3 n0 eq_refl). destruct (decide (Some n0 = Some node)) as [[= ->]|Hn].
        * rewrite bool_decide_true by done. rewrite E4. apply IH; [done|lia].
        * rewrite bool_decide_false by congruence. apply IH; [done|lia].
      + apply IH; [done|lia].
  Qed.
  Lemma add_ok nodes s r : kholds s r → ∃ s', kt_Add h replicas nodes s = Ok (tt, s') ∧ kholds s' (foldl (add_node h replicas) r nodes).
  Proof using Hh Hr.
    revert s r. induction nodes as [|node nodes IH]; intros s r Hk; cbn [kt_Add foldl]; [by exists s|]. unfold mbind_ at 1. destruct (ints_ok node replicas s Hr) as (l & -> & H1 & H2). unfold mbind_. destruct (add_points_ok node l s r (Z.to_nat replicas) 0 Hk ltac:(lia)) as (s1 & -> & Hk1). rewrite drop_0 in Hk1.
    apply IH. unfold add_node. by rewrite <-(points_hashs l node H1 H2).
  Qed.
  Lemma remove_ok nodes s r : kholds s r → ∃ s', kt_Remove h replicas nodes s = Ok (tt, s') ∧ kholds s' (foldl (remove_node h replicas) r nodes).
  Proof using Hh Hr.
    revert s r. induction nodes as [|node nodes IH]; intros s r Hk; cbn [kt_Remove foldl]; [by exists s|]. unfold mbind_ at 1. destruct (ints_ok node replicas s Hr) as (l & -> & H1 & H2). unfold mbind_. destruct (remove_points_ok node l s r (Z.to_nat replicas) 0 Hk ltac:(lia)) as (s1 & -> & Hk1). rewrite drop_0 in Hk1.
    apply IH. unfold remove_node. by rewrite <-(points_hashs l node H1 H2).
  Qed.
  Lemma suffix_split (P : u64 * bytes → bool) l : ∃ L, l = L ++ suffix P l ∧ (∀ x, x ∈ L → P x = false) ∧ ∀ x, head (suffix P l) = Some x → P x = true.
  Proof using. clear. induction l as [|x l (L & E1 & E2 & E3)]; cbn. { exists []. split_and!; try done. intros x Hx. by apply elem_of_nil in Hx. } destruct (P x) eqn:Ex. { exists []. split_and!; try done. - intros y Hy. by apply elem_of_nil in Hy. - by intros y [= ->]. } exists (x :: L). split_and!; [by rewrite E1 at 1|intros y [->|Hy]%elem_of_cons; auto|done]. Qed.
  Lemma get_ok s r q : kholds s r → r ≠ ∅ → ∃ n, kt_get_locked q s = Ok (Some n, s) ∧ owner r q n.
  Proof using.
    clear. intros (l & [(t & Ht & <-) Ha] & Hl) Hne. pose proof (tinv_rep _ _ _ Ht) as Hp. unfold kt_get_locked, map_LowerBound. unfold mbind_ at 1. destruct (hd_search_lower u64cmp u64_ok s t q Ht) as (L & R & -> & E2 & E3).
    assert (∀ p, is_Some (r !! p) ↔ ∃ n, (p, n) ∈ (io t).*2) as Hdom. { intros p. rewrite Hl. split; intros [n Hn]; exists n; [by apply in_lookup|by apply in_lookup in Hn]. }
    destruct (suffix_split (λ kv, u64cmp q kv.1 <=? 0) (io t).*2) as (L' & E4 & E5 & E6). rewrite <-E3 in E4, E6.
    destruct R as [|[a [k v]] R]; cbn [hd head fmap option_fmap option_map fst mi_IsValid].
    - cbn in E4. rewrite app_nil_r in E4. unfold map_First, mbind_, mi_Value. rewrite (hd_first _ _ Hp). rewrite (hd_value s t [] (io t) Hp eq_refl). destruct (io t).*2 as [|[p n] l] eqn:El.
      { destruct Hne. apply map_empty. intros p. by rewrite Hl. }
      exists n. split; [done|]. exists p. apply asc_inv in Ha as [Ha Hlt]. split; [rewrite Hl; apply in_lookup; [by apply SS_cons|by left]|]. right. split.
      + intros p' [n' Hn']%Hdom. rewrite E4 in Hn'. specialize (E5 _ Hn'). cbn in E5. assert (¬ u64cmp q p' <= 0) as Hn by lia. rewrite u64_le in Hn. lia.
      + intros p' [n' Hn']%Hdom. apply elem_of_cons in Hn' as [[= -> ->]|Hn']; [lia|]. specialize (Hlt _ Hn'). cbn in Hlt. apply u64_lt in Hlt. lia.
    - unfold mbind_, mi_Value. rewrite (value_ok _ _ _ _ _ _ _ Hp E2). exists v. split; [done|]. exists k. cbn in E4, E6. specialize (E6 _ eq_refl). cbn in E6. rewrite E4 in Ha. pose proof Ha as (A1 & A2 & _)%asc_mid. split.
      + rewrite Hl, E4. apply in_lookup; [done|]. apply elem_of_app. right. by left.
      + left. split. { apply u64_le. lia. } intros p' [n' Hn']%Hdom Hq. rewrite E4 in Hn'. apply elem_of_app in Hn' as [Hn'|[[= -> ->]|Hn']%elem_of_cons]; [|lia|].
        * specialize (E5 _ Hn'). cbn in E5. assert (¬ u64cmp q p' <= 0) as Hn by lia. rewrite u64_le in Hn. lia.
        * specialize (A2 _ Hn'). cbn in A2. apply u64_lt in A2. lia.
  Qed.
  Lemma step_ok o s r : kholds s r → ∃ a s', kt_step h replicas o s = Ok (a, s') ∧ answer h r o a ∧ kholds s' (after h replicas r o).
  Proof using Hh Hr.
    intros Hk. destruct o as [nodes|nodes|key|]; cbn [kt_step after answer].
    - unfold mbind_. destruct (add_ok nodes s r Hk) as (s' & -> & H'). by exists KUnit, s'.
    - unfold mbind_. destruct (remove_ok nodes s r Hk) as (s' & -> & H'). by exists KUnit, s'.
    - unfold mbind_ at 1. unfold kt_Get, kt_Empty. unfold mbind_ at 1. unfold mbind_ at 1. destruct (k_size s r Hk) as (n & -> & Hn). cbn [mret_]. destruct (Z.eqb_spec n 0) as [H0|H0].
      + exists (KNode None), s. split_and!; [done| |done]. exists None. split; [done|]. by apply Hn.
      + unfold mbind_ at 1. destruct (ints_ok key 1 s ltac:(lia)) as (l & -> & H1 & H2). unfold mbind_ at 1. unfold nth_int. rewrite (H2 0%nat) by lia. cbn [mret_]. destruct (get_ok s r (point h key 0) Hk) as (nd & -> & Ho); [by rewrite <-Hn|]. exists (KNode (Some nd)), s. split_and!; [done| |done]. by exists (Some nd).
    - unfold mbind_ at 1. unfold kt_Empty, mbind_. destruct (k_size s r Hk) as (n & -> & Hn). exists (KBool (n =? 0)), s. split_and!; [done| |done]. exists (n =? 0). split; [done|]. rewrite <-Hn. lia.
  Qed.
  Lemma kholds_new : kholds kt_new ∅.
  Proof using. clear. exists []. split; [split; [apply (holds_new u64cmp u64_ok)|constructor]|done]. Qed.
  Lemma owner_unique r q n1 n2 : owner r q n1 → owner r q n2 → n1 = n2.
  Proof using.
    clear. intros (p1 & E1 & H1) (p2 & E2 & H2). assert (p1 = p2) as ->; [|congruence]. assert (is_Some (r !! p1)) as D1 by eauto. assert (is_Some (r !! p2)) as D2 by eauto.
    destruct H1 as [[H1 H1']|[H1 H1']], H2 as [[H2 H2']|[H2 H2']].
    - specialize (H1' _ D2 H2). specialize (H2' _ D1 H1). lia.
    - specialize (H2 _ D1). lia.
    - specialize (H1 _ D2). lia.
    - specialize (H1' _ D2). specialize (H2' _ D1). lia.
  Qed.
End proofs.
