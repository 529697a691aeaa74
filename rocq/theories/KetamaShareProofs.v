(** C103: sums over all words, digests drawn, exchanging the digests of two nodes. *)
From Verif Require Import Base History RbModel KetamaModel KetamaSpec KetamaProofs KetamaProps SkipCostSpec SkipCostAvg KetamaShareSpec.
Open Scope Z_scope.

(* ---------- totals ---------- *)
Definition zsum (l : list Z) : Z := foldr Z.add 0 l.
Lemma zsum_app l k : zsum (l ++ k) = zsum l + zsum k. Proof. unfold zsum. induction l as [|x l IH]; cbn; [done|]. rewrite IH. lia. Qed.
Lemma zsum_perm l k : l ≡ₚ k → zsum l = zsum k.
Proof. unfold zsum. induction 1; cbn; lia. Qed.
Section total.
  Context (D : nat).
  Lemma sum_enum : ∀ n, ∃ E : list Z, NoDup E ∧ (∀ w, w ∈ E ↔ 0 <= w < Z.of_nat n) ∧ ∀ f, sum_below n f = zsum (f <$> E).
  Proof using.
    induction n as [|n (E & H1 & H2 & H3)]. { exists []. split_and!; [constructor| |done]. intros w. rewrite elem_of_nil. lia. }
    exists (Z.of_nat n :: E). split_and!.
    - constructor; [|done]. rewrite H2. lia.
    - intros w. rewrite elem_of_cons, H2. lia.
    - intros f. cbn [sum_below]. rewrite H3. rewrite fmap_cons. cbn. unfold zsum. lia.
  Qed.
  Lemma total_enum n : ∃ E : list (list Z), NoDup E ∧ (∀ ws, ws ∈ E ↔ draws D n ws) ∧ ∀ f, total D n f = zsum (f <$> E).
  Proof using.
    induction n as [|n (E & H1 & H2 & H3)].
    { exists [[]]. split_and!; [apply NoDup_singleton| |intros f; cbn; unfold zsum; cbn; lia]. intros ws. rewrite elem_of_list_singleton. split; [intros ->; by split|]. intros [Hl _]. by apply nil_length_inv. }
    destruct (sum_enum D) as (W & W1 & W2 & W3). exists (W ≫= λ w, (λ ws, w :: ws) <$> E). split_and!.
    - clear W2 W3. induction W as [|w W IH]; [constructor|]. apply NoDup_cons in W1 as [Hw W1]. cbn. apply NoDup_app. split_and!.
      + apply NoDup_fmap_2; [|done]. by intros ? ? [= ->].
      + intros ws (ws' & -> & _)%elem_of_list_fmap. intros (w' & (ws'' & E' & _)%elem_of_list_fmap & Hw')%elem_of_list_bind. by injection E' as -> ->.
      + by apply IH.
    - intros ws. rewrite elem_of_list_bind. split.
      + intros (w & (ws' & -> & Hws)%elem_of_list_fmap & Hw). apply draws_cons; [by apply W2|by apply H2].
      + intros [Hl Hf]. destruct ws as [|w ws]; [done|]. apply Forall_cons in Hf as [Hw Hf]. exists w. split; [|by apply W2]. apply elem_of_list_fmap. exists ws. split; [done|]. apply H2. split; [cbn in Hl; lia|done].
    - intros f. cbn [total]. rewrite W3. clear W1 W2 W3. induction W as [|w W IH]; [done|]. cbn. rewrite fmap_app, zsum_app. unfold zsum at 1. cbn. fold (zsum ((λ w0, total D n (λ ws, f (w0 :: ws))) <$> W)). rewrite IH. f_equal. rewrite H3. f_equal. by rewrite <-list_fmap_compose.
  Qed.
  (** summing in another order *)
  Lemma total_reorder n f σ : (∀ ws, draws D n ws → draws D n (σ ws) ∧ σ (σ ws) = ws) → total D n (λ ws, f (σ ws)) = total D n f.
  Proof using.
    intros H. destruct (total_enum n) as (E & H1 & H2 & H3). rewrite !H3. assert (E ≡ₚ σ <$> E) as P.
    { apply NoDup_Permutation; [done| |].
      - apply NoDup_fmap_2_strong; [|done]. intros x y Hx Hy Hxy. apply H2 in Hx, Hy. rewrite <-(proj2 (H x Hx)), <-(proj2 (H y Hy)). by rewrite Hxy.
      - intros ws. rewrite elem_of_list_fmap. split.
        + intros Hw. exists (σ ws). apply H2 in Hw. destruct (H ws Hw) as [Hd Hi]. split; [done|]. by apply H2.
        + intros (x & -> & Hx). apply H2. apply H2 in Hx. by apply H. }
    rewrite (zsum_perm (f <$> E) (f <$> (σ <$> E))); [by rewrite <-list_fmap_compose|]. by apply fmap_Permutation.
  Qed.
  Lemma draws_insert n j w ws : 0 <= w < Z.of_nat D → draws D n ws → draws D n (<[j := w]> ws).
  Proof using. intros Hw [Hl Hf]. split; [by rewrite insert_length|]. by apply Forall_insert. Qed.
  (** drawing one word anew *)
  Lemma total_redraw n : ∀ j G, (j < n)%nat → total D n G * Z.of_nat D = total D n (λ ws, sum_below D (λ w, G (<[j := w]> ws))).
  Proof using.
    induction n as [|n IH]; intros j G Hj; [lia|]. cbn [total]. destruct j as [|j].
    - cbn [insert list_insert]. set (T := sum_below D (λ w, total D n (λ ws, G (w :: ws)))).
      assert (∀ w0 : Z, total D n (λ ws, sum_below D (λ w, G (w :: ws))) = T) as E.
      { intros _. unfold T. clear. destruct (sum_enum D) as (W & W1 & W2 & W3). rewrite W3. erewrite total_ext; [|intros ws _; apply W3]. clear W1 W2 W3.
        induction W as [|w W IH]; [unfold zsum; cbn; by rewrite total_const, Z.mul_0_r|]. cbn. unfold zsum. cbn. rewrite total_plus. f_equal. exact IH. }
      erewrite (sum_ext D (λ w, _)); [|intros w _; exact (E w)]. rewrite sum_const. lia.
    - rewrite <-sum_scale_r. apply sum_ext. intros w _. rewrite (IH j) by lia. done.
  Qed.
  Lemma sum_point x : 0 <= x < Z.of_nat D → sum_below D (λ w, if decide (w = x) then 1 else 0) = 1.
  Proof using.
    revert x. induction D as [|n IH]; intros x Hx; [lia|]. cbn [sum_below]. destruct (decide (Z.of_nat n = x)) as [<-|Hne].
    - rewrite (sum_ext n _ (λ _, 0)); [rewrite sum_const; lia|]. intros w Hw. rewrite decide_False; [done|lia].
    - rewrite IH; lia.
  Qed.
  (** two words are equal for one in D draws *)
  Lemma total_equal n x y : (x < n)%nat → (y < n)%nat → x ≠ y → total D n (λ ws, if decide (ws !!! x = ws !!! y) then 1 else 0) * Z.of_nat D = Z.of_nat D ^ Z.of_nat n.
  Proof using.
    intros Hx Hy Hne. rewrite (total_redraw n x) by done. rewrite <-(Z.mul_1_r (_ ^ _)), <-total_const. apply total_ext. intros ws [Hl Hf].
    destruct (lookup_lt_is_Some_2 ws y) as [v Hv]; [lia|]. assert (0 <= v < Z.of_nat D) as Hv' by exact (proj1 (Forall_lookup _ _) Hf _ _ Hv). etransitivity; [|exact (sum_point v Hv')]. apply sum_ext. intros w _.
    rewrite list_lookup_total_insert by lia. rewrite list_lookup_total_insert_ne by done. by rewrite (list_lookup_total_correct _ _ _ Hv).
  Qed.
End total.

(* ---------- digests ---------- *)
Lemma be8_length w : length (be8 w) = 8%nat. Proof. done. Qed.
Lemma number_be8 w : 0 <= w < 2 ^ 64 → number (be8 w) = Z.to_N w.
Proof.
  intros Hw. unfold number, be8. cbn [fmap list_fmap foldl].
  assert (∀ a, 0 <= a → a = 256 * (a / 256) + a mod 256 ∧ 0 <= a mod 256 < 256 ∧ 0 <= a / 256) as Hd. { intros a Ha. pose proof (Z.div_mod a 256). pose proof (Z.mod_pos_bound a 256). pose proof (Z.div_pos a 256). lia. }
  assert (∀ k, 0 <= k → w / 256 ^ (k + 1) = w / 256 ^ k / 256) as Hs. { intros k Hk. rewrite Z.pow_add_r by lia. rewrite Z.div_div by lia. done. }
  pose proof (Hs 6 ltac:(lia)) as E7. pose proof (Hs 5 ltac:(lia)) as E6. pose proof (Hs 4 ltac:(lia)) as E5. pose proof (Hs 3 ltac:(lia)) as E4. pose proof (Hs 2 ltac:(lia)) as E3. pose proof (Hs 1 ltac:(lia)) as E2. pose proof (Hs 0 ltac:(lia)) as E1.
  change (6 + 1) with 7 in E7. change (5 + 1) with 6 in E6. change (4 + 1) with 5 in E5. change (3 + 1) with 4 in E4. change (2 + 1) with 3 in E3. change (1 + 1) with 2 in E2. change (0 + 1) with 1 in E1. change (256 ^ 0) with 1 in *. rewrite Z.div_1_r in *.
  set (a1 := w / 256 ^ 1) in *. set (a2 := w / 256 ^ 2) in *. set (a3 := w / 256 ^ 3) in *. set (a4 := w / 256 ^ 4) in *. set (a5 := w / 256 ^ 5) in *. set (a6 := w / 256 ^ 6) in *. set (a7 := w / 256 ^ 7) in *.
  assert (a7 < 256) as H7. { unfold a7. apply Z.div_lt_upper_bound; [lia|]. change (256 ^ 7 * 256) with (2 ^ 64). lia. }
  clearbody a1 a2 a3 a4 a5 a6 a7.
  destruct (Hd w) as (F0 & G0 & P0); [clear -Hw ; lia|]. rewrite <-E1 in F0, P0.
  destruct (Hd a1) as (F1 & G1 & P1); [clear -Hw P0; lia|]. rewrite <-E2 in F1, P1.
  destruct (Hd a2) as (F2 & G2 & P2); [clear -Hw P1; lia|]. rewrite <-E3 in F2, P2.
  destruct (Hd a3) as (F3 & G3 & P3); [clear -Hw P2; lia|]. rewrite <-E4 in F3, P3.
  destruct (Hd a4) as (F4 & G4 & P4); [clear -Hw P3; lia|]. rewrite <-E5 in F4, P4.
  destruct (Hd a5) as (F5 & G5 & P5); [clear -Hw P4; lia|]. rewrite <-E6 in F5, P5.
  destruct (Hd a6) as (F6 & G6 & P6); [clear -Hw P5; lia|]. rewrite <-E7 in F6, P6.
  rewrite (Z.mod_small a7 256) by lia. clear Hd Hs E1 E2 E3 E4 E5 E6 E7.
  set (b0 := w mod 256) in *. set (b1 := a1 mod 256) in *. set (b2 := a2 mod 256) in *. set (b3 := a3 mod 256) in *. set (b4 := a4 mod 256) in *. set (b5 := a5 mod 256) in *. set (b6 := a6 mod 256) in *. clearbody b0 b1 b2 b3 b4 b5 b6. lia.
Qed.
Lemma concat_chunk {A B} (f : A → list B) k : (∀ a, length (f a) = k) → ∀ (l : list A) j a, l !! j = Some a → take k (drop (k * j) (concat (f <$> l))) = f a.
Proof.
  intros Hf l. induction l as [|x l IH]; intros j a; [by rewrite lookup_nil|]. destruct j as [|j]; cbn [lookup list_lookup fmap list_fmap concat].
  - intros [= ->]. rewrite Nat.mul_0_r. rewrite drop_0. apply take_app_alt. by rewrite Hf.
  - intros H. rewrite drop_app_ge by (rewrite Hf; lia). replace (k * S j - length (f x))%nat with (k * j)%nat by (rewrite Hf; lia). by apply IH.
Qed.
Lemma concat_length {A B} (f : A → list B) k (l : list A) : (∀ a, length (f a) = k) → length (concat (f <$> l)) = (k * length l)%nat.
Proof. intros Hf. induction l as [|x l IH]; cbn; [lia|]. rewrite app_length, Hf. rewrite IH. lia. Qed.

Section hash.
  Context (D : nat) (HD : Z.of_nat D = 2 ^ 64) (h : bytes → bytes) (Hh : ∀ d, length (h d) = 64%nat) (ns : list bytes) (Hns : NoDup ns).
  Notation n8 := (8 * length ns)%nat.
  Notation H := (drawn_hash h ns).
  Lemma drawn_length ws d : draws D n8 ws → length (H ws d) = 64%nat.
  Proof using Hh.
    intros [Hl _]. unfold drawn_hash. destruct (list_find (λ n, d = ksalt ++ n) ns) as [[i n]|] eqn:E; [|done]. apply list_find_Some in E as (E & _). apply lookup_lt_Some in E. unfold digest.
    etransitivity; [exact (concat_length be8 8 (take 8 (drop (8 * i) ws)) be8_length)|]. rewrite take_length, drop_length. unfold bytes in *. lia.
  Qed.
  Lemma drawn_node ws i n : ns !! i = Some n → H ws (ksalt ++ n) = digest ws i.
  Proof using Hns.
    intros Hi. unfold drawn_hash. lazymatch goal with |- context [match ?x with _ => _ end] => destruct x as [[j m]|] eqn:E end.
    - apply list_find_Some in E as (E & E' & _). apply app_inv_head in E'. subst m. rewrite (NoDup_lookup ns i j n Hns Hi E). reflexivity.
    - apply list_find_None in E. rewrite Forall_forall in E. exfalso. by eapply E; [eapply elem_of_list_lookup_2|].
  Qed.
  Lemma drawn_other ws n : n ∉ ns → H ws (ksalt ++ n) = h (ksalt ++ n).
  Proof using.
    intros Hn. unfold drawn_hash. lazymatch goal with |- context [match ?x with _ => _ end] => destruct x as [[j m]|] eqn:E end; [|done]. apply list_find_Some in E as (E & E' & _). apply app_inv_head in E'. subst m. exfalso. by eapply Hn, elem_of_list_lookup_2.
  Qed.
  Lemma point_node ws i n a : draws D n8 ws → ns !! i = Some n → point (H ws) n a = Z.to_N (ws !!! (8 * i + a mod 8)%nat).
  Proof using HD Hns Hh.
    intros [Hl Hf] Hi. unfold point. rewrite (drawn_node ws i n Hi). unfold digest. assert (a mod 8 < 8)%nat as Ha by (apply Nat.mod_upper_bound; lia). apply lookup_lt_Some in Hi as Hlt.
    destruct (lookup_lt_is_Some_2 ws (8 * i + a mod 8)%nat) as [w Hw]; [lia|].
    assert (take 8 (drop (8 * i) ws) !! (a mod 8)%nat = Some w) as Hw' by (rewrite lookup_take, lookup_drop by done; done).
    etransitivity; [apply f_equal; exact (concat_chunk be8 8 be8_length (take 8 (drop (8 * i) ws)) (a mod 8) w Hw')|]. rewrite (list_lookup_total_correct _ _ _ Hw). rewrite number_be8; [done|].
    rewrite <-HD. exact (proj1 (Forall_lookup _ _) Hf _ _ Hw).
  Qed.
End hash.
