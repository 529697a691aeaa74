(** Counting for C106: the descending end of an arrangement, summed over all arrangements. *)
From Verif Require Import Base Wp ListLib IterModel IterSpec SortModel SortSpec SortProofs StableProofs PermProofs CountSpec SortCostProofs TreeWalkCostProofs.
From Coq Require Import Sorted Factorial.
Open Scope nat_scope.
Open Scope go_scope.

Section dsuf.
  Context {T : Type} (cmp : T → T → Z).
  Fixpoint descb (s : list T) : bool := match s with [] => true | x :: t => forallb (λ y, Z.leb (cmp y x) 0) t && descb t end.
  Lemma descb_spec s : descb s = true ↔ descending cmp s.
  Proof.
    unfold descending. induction s as [|x t IH]; cbn [descb]; [split; [constructor|done]|]. rewrite andb_true_iff, IH, forallb_forall. split.
    - intros [H1 H2]. constructor; [done|]. apply Forall_forall. intros y Hy. apply Z.leb_le, H1. by apply elem_of_list_In.
    - intros H. apply StronglySorted_inv in H as [H1 H2]. split; [|done]. intros y Hy. apply Z.leb_le. rewrite Forall_forall in H2. apply H2. by apply elem_of_list_In.
  Qed.
  (** length of the longest descending end *)
  Fixpoint dsuf (s : list T) : nat := match s with [] => 0 | x :: t => if descb s then length s else dsuf t end.
  Lemma dsuf_desc s : descb s = true → dsuf s = length s.
  Proof. destruct s as [|x t]; [done|]. cbn [dsuf]. by intros ->. Qed.
  Lemma dsuf_app s1 s2 : descending cmp s2 → length s2 <= dsuf (s1 ++ s2).
  Proof.
    intros H. apply descb_spec in H. induction s1 as [|x t IH]; [by change ([] ++ s2) with s2; rewrite dsuf_desc|]. cbn [app dsuf]. destruct (descb (x :: t ++ s2)); [cbn [length]; rewrite app_length; lia|done].
  Qed.
  Lemma dsuf_cons x t : dsuf (x :: t) <= dsuf t + (if descb (x :: t) then 1 else 0).
  Proof.
    cbn [dsuf]. destruct (descb (x :: t)) eqn:E; [|lia]. cbn [descb] in E. apply andb_true_iff in E as [_ E]. rewrite (dsuf_desc t E). cbn [length]. lia.
  Qed.

End dsuf.
Section perms.
  Context {T : Type}.
  (** all arrangements *)
  Fixpoint perms (n : nat) (s : list T) : list (list T) :=
    match n with 0 => [[]] | S n => flat_map (λ i, match s !! i with Some x => cons x <$> perms n (delete i s) | None => [] end) (seq 0 (length s)) end.
  Lemma delete_perm (s : list T) i x : s !! i = Some x → s ≡ₚ x :: delete i s.
  Proof. intros H. apply delete_Permutation. done. Qed.
  Lemma perms_spec n s : length s = n → ∀ t, t ∈ perms n s ↔ t ≡ₚ s.
  Proof.
    revert s. induction n as [|n IH]; intros s Hs t; cbn [perms].
    { destruct s; [|done]. rewrite elem_of_list_singleton. split; [by intros ->|]. intros H. by apply Permutation_nil_r in H. }
    rewrite elem_of_list_In, in_flat_map. split.
    - intros (i & Hi & Ht). apply elem_of_list_In in Ht. destruct (s !! i) as [x|] eqn:E; [|by apply elem_of_nil in Ht]. apply elem_of_list_fmap in Ht as (t' & -> & Ht').
      apply IH in Ht'; [|rewrite length_delete by eauto; lia]. rewrite Ht'. symmetry. by apply delete_perm.
    - intros H. destruct t as [|x t']. { apply Permutation_length in H. cbn in H. lia. } assert (x ∈ s) as Hx. { rewrite <-H. left. } apply elem_of_list_lookup in Hx as [i Hi].
      exists i. split; [apply in_seq; apply lookup_lt_Some in Hi; lia|]. rewrite Hi. apply elem_of_list_In, elem_of_list_fmap. exists t'. split; [done|].
      apply IH; [rewrite length_delete by eauto; lia|]. rewrite (delete_perm s i x Hi) in H. by apply Permutation_cons_inv in H.
  Qed.
  Lemma perms_length n s : length s = n → length (perms n s) = fact n.
  Proof.
    revert s. induction n as [|n IH]; intros s Hs; [done|]. cbn [perms]. rewrite flat_map_concat_map. rewrite Hs.
    assert (∀ k, k <= S n → length (concat (map (λ i, match s !! i with Some x => cons x <$> perms n (delete i s) | None => [] end) (seq 0 k))) = k * fact n) as H.
    { intros k. induction k as [|k IHk]; intros Hk; [done|]. rewrite seq_S, map_app, concat_app, app_length, IHk by lia. cbn [map concat Nat.add]. destruct (lookup_lt_is_Some_2 s k ltac:(lia)) as [x Hx]. rewrite Hx, app_nil_r, fmap_length, IH; [lia|]. rewrite length_delete by eauto. lia. }
    rewrite H by done. cbn [fact]. lia.
  Qed.
  Lemma delete_in (s : list T) i x : x ∈ delete i s → x ∈ s.
  Proof. revert i. induction s as [|y s IH]; intros i Hx; [done|]. destruct i as [|i]; cbn in Hx; [by right|]. apply elem_of_cons in Hx as [-> | Hx]; [left|right; by eapply IH]. Qed.
  Lemma delete_nodup (s : list T) i : NoDup s → NoDup (delete i s).
  Proof.
    revert i. induction s as [|x s IH]; intros i H; [done|]. apply NoDup_cons in H as [H1 H2]. destruct i as [|i]; [done|]. cbn. apply NoDup_cons. split; [|by apply IH]. intros Hx. apply H1. by apply delete_in in Hx.
  Qed.
  Lemma perms_nodup n s : length s = n → NoDup s → NoDup (perms n s).
  Proof.
    revert s. induction n as [|n IH]; intros s Hs Hnd; cbn [perms]; [apply NoDup_singleton|].
    assert (∀ k, k <= length s → NoDup (flat_map (λ i, match s !! i with Some x => cons x <$> perms n (delete i s) | None => [] end) (seq 0 k))) as H; [|by apply H].
    intros k. induction k as [|k IHk]; intros Hk; [constructor|]. rewrite seq_S, flat_map_app. cbn [flat_map Nat.add]. rewrite app_nil_r. destruct (lookup_lt_is_Some_2 s k ltac:(lia)) as [x Hx]. rewrite Hx. apply NoDup_app. split_and!; [by apply IHk; lia| |].
    - intros t Ht Ht'. apply elem_of_list_fmap in Ht' as (t' & -> & _). apply elem_of_list_In, in_flat_map in Ht as (i & Hi & Ht). apply elem_of_list_In in Ht. apply in_seq in Hi. destruct (s !! i) as [y|] eqn:E; [|by apply elem_of_nil in Ht]. apply elem_of_list_fmap in Ht as (t2 & [= -> ->] & _). rewrite NoDup_alt in Hnd. specialize (Hnd _ _ _ E Hx). lia.
    - apply (NoDup_fmap_2 _). apply IH; [rewrite length_delete by eauto; lia|by apply delete_nodup].
  Qed.
  Definition ssum (f : list T → nat) (p : list (list T)) : nat := sum_list_with f p.
  Lemma ssum_perm f p q : p ≡ₚ q → ssum f p = ssum f q.
  Proof. unfold ssum. induction 1; cbn; lia. Qed.
  Lemma ssum_app f p q : ssum f (p ++ q) = ssum f p + ssum f q.
  Proof. unfold ssum. induction p; cbn; lia. Qed.
  Lemma ssum_le f g p : (∀ s, s ∈ p → f s <= g s) → ssum f p <= ssum g p.
  Proof. unfold ssum. induction p as [|s p IH]; intros H; cbn; [lia|]. pose proof (H s ltac:(left)). specialize (IH ltac:(intros; apply H; by right)). lia. Qed.
  Lemma ssum_plus f g p : ssum (λ s, f s + g s) p = ssum f p + ssum g p.
  Proof. unfold ssum. induction p; cbn; lia. Qed.
  Lemma ssum_once (P : list T → bool) p : NoDup p → (∀ s t, s ∈ p → t ∈ p → P s = true → P t = true → s = t) → ssum (λ s, if P s then 1 else 0) p <= 1.
  Proof.
    unfold ssum. induction 1 as [|s p Hs Hp IH]; intros H; cbn; [lia|]. destruct (P s) eqn:E; [|apply IH; intros; apply H; by try right].
    enough (sum_list_with (λ s, if P s then 1 else 0) p = 0) as -> by done. assert (∀ t, t ∈ p → P t = false) as Hf.
    { intros t Ht. destruct (P t) eqn:Et; [|done]. exfalso. apply Hs. by rewrite (H s t ltac:(left) ltac:(by right) E Et). }
    clear -Hf. induction p as [|t p IH]; cbn; [done|]. rewrite (Hf t) by left. apply IH. intros u Hu. apply Hf. by right.
  Qed.
End perms.

Section count.
  Context {T : Type} (cmp : T → T → Z) (OK : CmpOK cmp).
  (** no two places hold elements that compare equal *)
  Definition apart (s : list T) : Prop := ∀ i j x y, s !! i = Some x → s !! j = Some y → cmp x y = 0%Z → i = j.
  Lemma apart_nodup s : apart s → NoDup s.
  Proof using OK. intros H. apply NoDup_alt. intros i j x Hi Hj. eapply H; [done|done|apply (cmp_refl _ OK)]. Qed.
  Definition once (s : list T) : Prop := NoDup s ∧ ∀ x y, x ∈ s → y ∈ s → cmp x y = 0%Z → x = y.
  Lemma apart_once s : apart s → once s.
  Proof using OK.
    intros H. split; [by apply apart_nodup|]. intros x y Hx Hy E. apply elem_of_list_lookup in Hx as [i Hi]. apply elem_of_list_lookup in Hy as [j Hj]. assert (i = j) as -> by (by eapply H). congruence.
  Qed.
  Lemma once_delete s i : once s → once (delete i s).
  Proof using. clear OK.
    intros [H1 H2]. split; [by apply delete_nodup|]. assert (∀ x, x ∈ delete i s → x ∈ s) as Hs. { intros x Hx. by apply delete_in in Hx. } intros x y Hx Hy. apply H2; auto.
  Qed.
  Lemma desc_unique s t : descending cmp s → descending cmp t → s ≡ₚ t → (∀ x y, x ∈ s → y ∈ s → cmp x y = 0%Z → x = y) → s = t.
  Proof using OK.
    intros Hs. revert t. induction Hs as [|x s Hs IH Hx]; intros t Ht Hp He. { by apply Permutation_nil_l in Hp. }
    destruct t as [|y t]. { by apply Permutation_length in Hp. } apply StronglySorted_inv in Ht as [Ht Hy]. rewrite Forall_forall in Hx, Hy.
    assert (x = y) as ->.
    { assert (y ∈ x :: s) as H1 by (rewrite Hp; left). assert (x ∈ y :: t) as H2 by (rewrite <-Hp; left). apply elem_of_cons in H1 as [->|H1]; [done|]. apply elem_of_cons in H2 as [->|H2]; [done|].
      apply He; [left|by right|]. specialize (Hx _ H1). specialize (Hy _ H2). cbv beta in Hx, Hy. pose proof (cmp_flip _ OK x y). lia. }
    f_equal. apply IH; [done|by apply Permutation_cons_inv in Hp|]. intros u v Hu Hv. apply He; by right.
  Qed.
  (** summed over all n! arrangements of n > 0 distinct elements the descending ends have at most 2 n! - 1 elements *)
  Lemma dsuf_total n s : length s = S n → once s → S (ssum (dsuf cmp) (perms (S n) s)) <= 2 * fact (S n).
  Proof using OK.
    revert s. induction n as [|n IH]; intros s Hs Ho. { destruct s as [|x [|y s]]; [done| |done]. vm_compute. lia. }
    assert (ssum (dsuf cmp) (perms (S (S n)) s) <= ssum (λ t, dsuf cmp (tail t)) (perms (S (S n)) s) + ssum (λ t, if descb cmp t then 1 else 0) (perms (S (S n)) s)) as H1.
    { etransitivity; [apply ssum_le|by rewrite ssum_plus]. intros t Ht. apply (perms_spec (S (S n)) s Hs) in Ht. apply Permutation_length in Ht. destruct t as [|x t]; [cbn in *; lia|]. apply dsuf_cons. }
    assert (ssum (λ t, if descb cmp t then 1 else 0) (perms (S (S n)) s) <= 1) as H2.
    { apply ssum_once; [by apply perms_nodup; [|apply Ho]|]. intros u v Hu Hv Du Dv. apply (perms_spec (S (S n)) s Hs) in Hu, Hv. apply descb_spec in Du, Dv. apply desc_unique; [done|done|by rewrite Hu, Hv|]. intros x y Hx Hy. rewrite Hu in Hx, Hy. by apply (proj2 Ho). }
    assert (∀ k, k <= length s → k + ssum (λ t, dsuf cmp (tail t)) (flat_map (λ i, match s !! i with Some x => cons x <$> perms (S n) (delete i s) | None => [] end) (seq 0 k)) <= k * (2 * fact (S n))) as H3.
    { intros k. induction k as [|k IHk]; intros Hk; [cbn; lia|]. rewrite seq_S, flat_map_app. change ([0 + k]) with ([k]). cbn [flat_map]. rewrite app_nil_r, ssum_app. destruct (lookup_lt_is_Some_2 s k Hk) as [x Hx]. rewrite Hx.
      assert (ssum (λ t, dsuf cmp (tail t)) (cons x <$> perms (S n) (delete k s)) = ssum (dsuf cmp) (perms (S n) (delete k s))) as ->. { generalize (perms (S n) (delete k s)). clear. intros p. unfold ssum. induction p as [|t p IHp]; [done|]. rewrite fmap_cons. cbn [sum_list_with tail]. by rewrite IHp. }
      specialize (IHk ltac:(lia)). specialize (IH (delete k s)). rewrite length_delete in IH by eauto. specialize (IH ltac:(lia) (once_delete _ _ Ho)). generalize dependent (fact (S n)). intros; nia. }
    specialize (H3 (length s) ltac:(done)). change (flat_map _ _) with (perms (S (S n)) s) in H3. rewrite Hs in H3. change (fact (S (S n))) with (S (S n) * fact (S n)). generalize dependent (fact (S n)). intros. nia.
  Qed.
End count.

Section cost.
  Context {W T : Type} (csize : nat → M W Z) (cat : nat → Z → M W T) (cset : nat → Z → T → M W unit).
  Context (o : nat) (R : W → list T → Prop) (L : ra_law csize cat cset o R) (cmp : T → T → Z) (OK : CmpOK cmp).
  Notation csz := (csize_c csize). Notation ct := (cat_c cat). Notation cs := (cset_c cset).
  Notation it p := (MkIter o p).
  Notation at_ p := (MkIter o (Z.of_nat p)).
  Lemma sim_scan fuel i pre cur w r w' : np_scan cat cmp fuel i pre cur w = Ok (r, w') → sim (2 * Z.to_nat (cur - snd r) + 2) (np_scan cat cmp fuel i pre cur) (np_scan ct cmp fuel i pre cur) w ∧ (snd r <= cur)%Z.
  Proof using.
    revert pre cur w. induction fuel as [|f IH]; intros pre cur w; cbn [np_scan]; (destruct (_ <? _)%Z; [|intros [= <- <-]; split; [eapply sim_mono; [apply sim_ret|lia]|cbn; lia]]).
    all: unfold mbind_ at 1; destruct (it_value cat (it_at i pre) w) as [[x w1]| |] eqn:E1; try done; unfold mbind_ at 1; destruct (it_value cat (it_at i cur) w1) as [[y w2]| |] eqn:E2; try done; destruct (Z.leb_spec 0 (cmp x y)) as [Hc|Hc].
    - done.
    - intros [= <- <-]. split; [|cbn; lia]. cbn [snd]. replace (2 * Z.to_nat (cur - cur) + 2) with (1 + (1 + 0)) by lia. apply sim_bind; [apply sim_value|]. intros x' w1' E1'. rewrite E1 in E1'. injection E1' as <- <-. apply sim_bind; [apply sim_value|]. intros y' w2' E2'. rewrite E2 in E2'. injection E2' as <- <-. destruct (Z.leb_spec 0 (cmp x y)); [lia|]. apply sim_ret.
    - intros E. destruct (IH _ _ _ E) as [Hs Hle]. split; [|lia]. eapply sim_mono; [apply (sim_bind 1 (1 + (2 * Z.to_nat (cur - 1 - snd r) + 2))); [apply sim_value|]|lia]. intros x' w1' E1'. rewrite E1 in E1'. injection E1' as <- <-. apply sim_bind; [apply sim_value|]. intros y' w2' E2'. rewrite E2 in E2'. injection E2' as <- <-. destruct (Z.leb_spec 0 (cmp x y)); [|lia]. apply Hs.
    - intros [= <- <-]. split; [|cbn; lia]. cbn [snd]. replace (2 * Z.to_nat (cur - cur) + 2) with (1 + (1 + 0)) by lia. apply sim_bind; [apply sim_value|]. intros x' w1' E1'. rewrite E1 in E1'. injection E1' as <- <-. apply sim_bind; [apply sim_value|]. intros y' w2' E2'. rewrite E2 in E2'. injection E2' as <- <-. destruct (Z.leb_spec 0 (cmp x y)); [lia|]. apply sim_ret.
  Qed.
  Lemma sim_find fuel i pre cur w r w' : np_find cat cmp fuel i pre cur w = Ok (r, w') → sim (2 * Z.to_nat (cur - r) + 2) (np_find cat cmp fuel i pre cur) (np_find ct cmp fuel i pre cur) w ∧ (r <= cur)%Z.
  Proof using.
    revert cur w. induction fuel as [|f IH]; intros cur w; cbn [np_find].
    all: unfold mbind_ at 1; destruct (it_value cat (it_at i cur) w) as [[x w1]| |] eqn:E1; try done; unfold mbind_ at 1; destruct (it_value cat (it_at i pre) w1) as [[y w2]| |] eqn:E2; try done; destruct (Z.leb_spec (cmp x y) 0) as [Hc|Hc].
    - done.
    - intros [= <- <-]. split; [|lia]. replace (2 * Z.to_nat (cur - cur) + 2) with (1 + (1 + 0)) by lia. apply sim_bind; [apply sim_value|]. intros x' w1' E1'. rewrite E1 in E1'. injection E1' as <- <-. apply sim_bind; [apply sim_value|]. intros y' w2' E2'. rewrite E2 in E2'. injection E2' as <- <-. destruct (Z.leb_spec (cmp x y) 0); [lia|]. apply sim_ret.
    - intros E. destruct (IH _ _ E) as [Hs Hle]. split; [|lia]. eapply sim_mono; [apply (sim_bind 1 (1 + (2 * Z.to_nat (cur - 1 - r) + 2))); [apply sim_value|]|lia]. intros x' w1' E1'. rewrite E1 in E1'. injection E1' as <- <-. apply sim_bind; [apply sim_value|]. intros y' w2' E2'. rewrite E2 in E2'. injection E2' as <- <-. destruct (Z.leb_spec (cmp x y) 0); [|lia]. apply Hs.
    - intros [= <- <-]. split; [|lia]. replace (2 * Z.to_nat (cur - cur) + 2) with (1 + (1 + 0)) by lia. apply sim_bind; [apply sim_value|]. intros x' w1' E1'. rewrite E1 in E1'. injection E1' as <- <-. apply sim_bind; [apply sim_value|]. intros y' w2' E2'. rewrite E2 in E2'. injection E2' as <- <-. destruct (Z.leb_spec (cmp x y) 0); [lia|]. apply sim_ret.
  Qed.
  Lemma sim_reverse fuel w l s e : R w l → e <= length l → sim (2 * (e - s)) (np_reverse csize cat cset fuel (at_ s) (it (Z.of_nat e - 1))) (np_reverse csz ct cs fuel (at_ s) (it (Z.of_nat e - 1))) w.
  Proof using L.
    revert w l s e. induction fuel as [|f IH]; intros w l s e HR He; cbn [np_reverse]; unfold it_position; cbn [it_pos]; destruct (Z.ltb_spec (Z.of_nat s) (Z.of_nat e - 1)); try (eapply sim_mono; [apply sim_ret || apply sim_fuel|lia]).
    replace (Z.of_nat e - 1)%Z with (Z.of_nat (e - 1)) by lia. eapply sim_mono; [apply (sim_bind 4 (2 * (e - 1 - S s))); [apply sim_swap|]|lia]. intros u w1 E1.
    destruct (swap_ok _ _ _ o R L w l s (e - 1) HR ltac:(lia) ltac:(lia)) as (w1' & E1' & HR1). rewrite E1 in E1'. injection E1' as -> <-.
    assert (length (swapl l s (e - 1)) = length l) as Hl by apply swapl_length.
    apply (sim_bind 0); [apply sim_next|]. intros s' w2 E2. rewrite (SortProofs.next_ok _ _ _ o R L w1 _ s HR1 ltac:(lia)) in E2. injection E2 as <- <-. apply (sim_bind 0); [apply sim_prev|]. intros e' w3 E3. rewrite (prev_ok (W := W) o w1 (e - 1)) in E3. injection E3 as <- <-. apply (IH w1 _ (S s) (e - 1) HR1). lia.
  Qed.
  Lemma sim_next_permutation w l a b : R w l → a <= b <= length l →
    sim (10 * dsuf cmp (seg a b l)) (next_permutation csize cat cset cmp (at_ a) (at_ b)) (next_permutation csz ct cs cmp (at_ a) (at_ b)) w.
  Proof using L OK.
    intros HR Hab. unfold next_permutation, it_position, it_at. cbn [it_pos it_obj]. replace (Z.of_nat a + (Z.of_nat b - Z.of_nat a) - 1)%Z with (Z.of_nat b - 1)%Z by lia.
    destruct (decide (a = b)) as [->|Hne].
    { assert (∀ W' (cat' : nat → Z → M W' T) w', np_scan cat' cmp (Z.to_nat (Z.of_nat b - Z.of_nat b)) (at_ b) (Z.of_nat b - 1 - 1) (Z.of_nat b - 1) w' = Ok ((Z.of_nat b - 1 - 1, Z.of_nat b - 1)%Z, w')) as E.
      { intros W' cat' w'. replace (Z.of_nat b - Z.of_nat b)%Z with 0%Z by lia. change (Z.to_nat 0) with 0; cbn [np_scan]. unfold it_position; cbn [it_pos]. destruct (Z.ltb_spec (Z.of_nat b) (Z.of_nat b - 1)); [lia|done]. }
      intros c. unfold mbind_ at 1. rewrite E. unfold mbind_ at 4. rewrite E. destruct (Z.leb_spec (Z.of_nat b - 1) (Z.of_nat b)); [|lia]. exists 0. rewrite Nat.add_0_r. split; [done|lia]. }
    replace (Z.of_nat b - 1)%Z with (Z.of_nat (b - 1)) by lia.
    pose proof (np_scan_ok csize cat cset o R L cmp OK (Z.to_nat (Z.of_nat b - Z.of_nat a)) w l a b (b - 1) HR ltac:(lia) ltac:(lia) ltac:(lia)) as Hsc. specialize (Hsc ltac:(intros i j x y ? ? ? ?; lia)).
    apply wp_Ok in Hsc as (r & w0 & E1 & -> & c & -> & Hc & Hd & Hcase). destruct (sim_scan _ _ _ _ _ _ _ E1) as [Hs1 _]. cbn [snd] in Hs1.
    assert (b - c <= dsuf cmp (seg a b l)) as Hds. { rewrite (seg_app a c b) by lia. etransitivity; [|apply dsuf_app; eapply desc_in_seg; [lia|done]]. rewrite seg_length by lia. done. }
    eapply (sim_mono (2 * (b - c) + (2 * (b - c) + (4 + (2 * (b - c) + 0))))); [|lia]. apply sim_bind; [eapply sim_mono; [exact Hs1|lia]|]. intros r w' E. rewrite E1 in E. injection E as <- <-. cbv beta iota.
    destruct (Z.leb_spec (Z.of_nat c) (Z.of_nat a)); [eapply sim_mono; [apply sim_ret|lia]|]. destruct Hcase as [->|(x & y & Hac & Hx & Hy & Hxy)]; [lia|].
    replace (Z.of_nat c - 1)%Z with (Z.of_nat (c - 1)) by lia.
    pose proof (np_find_ok csize cat cset o R L cmp OK (Z.to_nat (Z.of_nat b - Z.of_nat a)) w l a b (c - 1) (b - 1) c x y HR ltac:(lia) ltac:(lia) ltac:(lia) ltac:(lia) Hx Hy Hxy ltac:(intros; lia)) as Hf.
    apply wp_Ok in Hf as (k' & w0 & E2 & -> & k & z & -> & Hk & Hz & _). destruct (sim_find _ _ _ _ _ _ _ E2) as [Hs2 _].
    apply sim_bind; [eapply sim_mono; [exact Hs2|lia]|]. intros r w' E. rewrite E2 in E. injection E as <- <-.
    apply sim_bind; [apply sim_swap|]. intros u w1 E. destruct (swap_ok _ _ _ o R L w l k (c - 1) HR ltac:(lia) ltac:(lia)) as (w1' & E1' & HR1). rewrite E in E1'. injection E1' as -> <-.
    assert (length (swapl l k (c - 1)) = length l) as Hl by apply swapl_length.
    apply sim_bind; [|intros; apply sim_ret]. replace (Z.of_nat (c - 1) + 1)%Z with (Z.of_nat c) by lia. replace (Z.of_nat (b - 1)) with (Z.of_nat b - 1)%Z by lia. eapply sim_mono; [apply (sim_reverse _ w1 _ c b HR1); lia|lia].
  Qed.
End cost.
