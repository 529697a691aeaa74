(** Every deque operation refines the sequence operation and keeps the invariant. *)
From Verif Require Import Base Wp DequeModel SegmentProofs DequeLists DequeProofs.
Open Scope nat_scope.

Section ops.
  Context {T : Type} (zero : T).
  Implicit Types (d : deque T) (ls : list (list T)) (l : list T).
  Notation ring d ps := (ring_ok (dq_segs d) (dq_begin d) (dq_end d) ps).
  Notation store d ps ls := (store_ok (dq_heap d) (dq_pool d) ps ls).
  Record dinv_at d (ps : list nat) ls l : Prop := {
    di_ring : ring d ps;
    di_store : store d ps ls;
    di_shape : shape ls;
    di_concat : concat ls = l;
    di_size : dq_size d = Z.of_nat (length l);
    di_geo : geo (length (dq_segs d)) (length ps);
    di_room : length ps < length (dq_segs d) ∨ length (dq_segs d) = 0;
    di_pool : pool_lim (length (dq_pool d)) (S (length ps));
  }.
  Definition dinv d l : Prop := ∃ ps ls, dinv_at d ps ls l.

  Lemma dinv_new : dinv dq_new [].
  Proof using.
    exists [], []. split; cbn [dq_new dq_heap dq_pool dq_segs dq_begin dq_end dq_size concat length]; try done; try lia.
    - by left.
    - split; [constructor|constructor|constructor].
    - split; cbn; intros; lia.
    - split; [by left|lia].
    - by right.
  Qed.
  Lemma shape_nonempty ls : shape ls → ls ≠ [] → concat ls ≠ [].
  Proof using.
    intros [H _] Hn Hc. destruct ls as [|a ls]; [done|]. specialize (H 0 ltac:(cbn; lia)). pose proof (off_le (a :: ls) 1). rewrite Hc in *. cbn [length] in *. lia.
  Qed.
  Lemma pool_lim_mono n m u v : n <= m → u <= v → pool_lim m u → pool_lim n v.
  Proof using. unfold pool_lim. intros Hn Hu H. etrans; [apply Nat.div_le_mono; [lia|]; apply Nat.mul_le_mono_r; exact Hn|]. lia. Qed.
  Lemma geo_mono n u v : u <= v → geo n u → geo n v.
  Proof using. intros H [H1 H2]. split; [done|]. etrans; [exact H2|]. apply Nat.max_le_compat_l, Nat.div_le_mono; lia. Qed.
  Lemma lookup_off ls i a : ls !! i = Some a → length a = off ls (S i) - off ls i.
  Proof using. intros H. rewrite (off_S _ _ _ H). lia. Qed.

  (** locating a position *)
  Lemma off_interior ls i : shape ls → 1 <= i → i < length ls → off ls i = off ls 1 + C * (i - 1).
  Proof using.
    intros [_ H] H1. induction i as [|i IH]; [lia|]. intros Hi. destruct (decide (i = 0)) as [->|]; [lia|].
    rewrite (H i) by lia. rewrite IH by lia. replace (S i - 1) with (S (i - 1)) by lia. lia.
  Qed.
  Lemma d_pos_ok d ps ls k : ring d ps → store d ps ls → shape ls → k < length (concat ls) →
    ∃ i p a, d_pos (Z.of_nat k) d = Ok ((Z.of_nat i, Z.of_nat p), d) ∧ ls !! i = Some a ∧ p < length a ∧ k = off ls i + p.
  Proof using.
    intros Hr Hs Hsh Hk. pose proof (store_ok_len _ _ _ _ Hs) as Hlen.
    assert (0 < length ls) as Hpos. { destruct ls; cbn in *; lia. }
    destruct (lookup_lt_is_Some_2 ps 0) as [p0 Hp0]; [lia|]. destruct (lookup_lt_is_Some_2 ls 0) as [a0 Ha0]; [lia|].
    pose proof (off_S ls 0 a0 Ha0) as Ho1. rewrite off_0, Nat.add_0_l in Ho1.
    unfold d_pos, mbind_. rewrite (first_segment_ok d ps Hr), Hp0.
    rewrite (ask_ok s_size d ps ls 0 p0 a0 (Z.of_nat (length a0)) Hs Hp0 Ha0) by (intros s Hrep; by apply rep_size in Hrep as [-> _]).
    destruct (Z.leb_spec (Z.of_nat k) (Z.of_nat (length a0) - 1)).
    - exists 0, k, a0. split_and!; [done|done|lia|by rewrite off_0].
    - unfold mret_. set (q := k - length a0). pose proof C_pos as HC.
      replace (Z.of_nat k - Z.of_nat (length a0))%Z with (Z.of_nat q) by lia.
      rewrite Z.quot_div_nonneg, Z.rem_mod_nonneg by lia. rewrite <-Nat2Z.inj_div, <-Nat2Z.inj_mod.
      pose proof (Nat.div_mod q C ltac:(lia)) as Hdm. pose proof (Nat.mod_upper_bound q C ltac:(lia)) as Hmb.
      set (qd := q / C) in *. set (qm := q mod C) in *. clearbody qd qm.
      assert (qd + 1 < length ls) as Hi.
      { destruct (decide (qd + 1 < length ls)) as [|Hge]; [done|]. exfalso.
        rewrite <-(off_all ls (length ls)) in Hk by lia.
        destruct (decide (length ls = 1)) as [E1|].
        - rewrite E1 in Hk. lia.
        - pose proof (off_interior ls (length ls - 1) Hsh ltac:(lia) ltac:(lia)) as Ho. destruct Hsh as [Hsh _].
          specialize (Hsh (length ls - 1) ltac:(lia)). replace (S (length ls - 1)) with (length ls) in Hsh by lia.
          assert (C * (length ls - 1 - 1) + C <= C * (qd)); [|lia].
          replace (C * (length ls - 1 - 1) + C) with (C * (length ls - 1 - 1 + 1)) by lia. apply Nat.mul_le_mono_l. lia. }
      destruct (lookup_lt_is_Some_2 ls (qd + 1) Hi) as [a Ha].
      exists (qd + 1), (qm), a. pose proof (off_interior ls (qd + 1) Hsh ltac:(lia) Hi) as Ho.
      replace (qd + 1 - 1) with (qd) in Ho by lia.
      split_and!; [by rewrite Nat2Z.inj_add|done| |lia].
      rewrite (lookup_off _ _ _ Ha). destruct (decide (S (qd + 1) < length ls)).
      + destruct Hsh as [_ Hsh]. rewrite (Hsh (qd + 1)) by lia. lia.
      + rewrite (off_all ls (S (qd + 1))) by lia. lia.
  Qed.

  (** the loops moving one item across each boundary *)
  Lemma pull_front_ok d ps ls i a x c : ring d ps → store d ps ls → ls !! i = Some a → length a < C → ls !! S i = Some (x :: c) →
    wp (pull_front (Z.of_nat i)) (λ _ d', ∃ h', d' = wh d h' ∧ store_ok h' (dq_pool d) ps (<[i := a ++ [x]]> (<[S i := c]> ls))) d.
  Proof using.
    intros Hr Hs Ha Hl Hc. pose proof (store_ok_len _ _ _ _ Hs) as Hlen.
    destruct (lookup_lt_is_Some_2 ps i) as [p Hp]. { rewrite Hlen. by eapply lookup_lt_Some. }
    destruct (lookup_lt_is_Some_2 ps (S i)) as [q Hq]. { rewrite Hlen. by eapply lookup_lt_Some. }
    unfold pull_front. wp_step (segment_at_ok d ps i p Hr Hp). replace (Z.of_nat i + 1)%Z with (Z.of_nat (S i)) by lia.
    wp_step (segment_at_ok d ps (S i) q Hr Hq). apply wp_bind.
    eapply wp_mono; [apply (call_ok _ (λ y l', y = x ∧ l' = c) d ps ls (S i) q (x :: c) Hs Hq Hc)|].
    { intros s Hrep. eapply wp_mono; [by apply pop_front_ok|]. cbv beta. intros y s' [-> ?]. eauto. }
    cbv beta. intros ? d' (l' & h' & [-> ->] & -> & Hs').
    eapply wp_mono; [apply (call_ok _ (λ _ l', l' = a ++ [x]) (wh d h') ps (<[S i := c]> ls) i p a Hs' Hp)|].
    { by rewrite list_lookup_insert_ne by lia. }
    { intros s Hrep. eapply wp_mono; [by apply push_back_ok|]. cbv beta. eauto. }
    cbv beta. intros _ d' (l' & h'' & -> & -> & Hs''). by exists h''.
  Qed.
  Lemma pull_back_ok d ps ls i a x c : ring d ps → store d ps ls → ls !! i = Some (a ++ [x]) → length c < C → ls !! S i = Some c →
    wp (pull_back (Z.of_nat (S i))) (λ _ d', ∃ h', d' = wh d h' ∧ store_ok h' (dq_pool d) ps (<[S i := x :: c]> (<[i := a]> ls))) d.
  Proof using.
    intros Hr Hs Ha Hl Hc. pose proof (store_ok_len _ _ _ _ Hs) as Hlen.
    destruct (lookup_lt_is_Some_2 ps i) as [p Hp]. { rewrite Hlen. by eapply lookup_lt_Some. }
    destruct (lookup_lt_is_Some_2 ps (S i)) as [q Hq]. { rewrite Hlen. by eapply lookup_lt_Some. }
    unfold pull_back. wp_step (segment_at_ok d ps (S i) q Hr Hq). replace (Z.of_nat (S i) - 1)%Z with (Z.of_nat i) by lia.
    wp_step (segment_at_ok d ps i p Hr Hp). apply wp_bind.
    eapply wp_mono; [apply (call_ok _ (λ y l', y = x ∧ l' = a) d ps ls i p (a ++ [x]) Hs Hp Ha)|].
    { intros s Hrep. eapply wp_mono; [by apply pop_back_ok|]. cbv beta. intros y s' [-> ?]. eauto. }
    cbv beta. intros ? d' (l' & h' & [-> ->] & -> & Hs').
    eapply wp_mono; [apply (call_ok _ (λ _ l', l' = x :: c) (wh d h') ps (<[i := a]> ls) (S i) q c Hs' Hq)|].
    { by rewrite list_lookup_insert_ne by lia. }
    { intros s Hrep. eapply wp_mono; [by apply push_front_ok|]. cbv beta. eauto. }
    cbv beta. intros _ d' (l' & h'' & -> & -> & Hs''). by exists h''.
  Qed.
  Lemma pull_front_loop n : ∀ d ps ls i, ring d ps → store d ps ls → i + n < length ls →
    (0 < n → off ls (S i) < off ls i + C) → (∀ j, i < j <= i + n → off ls j < off ls (S j)) →
    wp (for_up n (Z.of_nat i) pull_front) (λ _ d', ∃ h' ls', d' = wh d h' ∧ store_ok h' (dq_pool d) ps ls' ∧
      concat ls' = concat ls ∧ length ls' = length ls ∧
      ∀ j, off ls' j = off ls j + (if decide (i < j <= i + n) then 1 else 0)) d.
  Proof using.
    induction n as [|n IH]; intros d ps ls i Hr Hs Hi Hroom Hne; cbn [for_up].
    - apply wp_ret. exists (dq_heap d), ls. split_and!; try done; [by destruct d|]. intros j. rewrite decide_False by lia. lia.
    - destruct (lookup_lt_is_Some_2 ls i) as [a Ha]; [lia|]. destruct (lookup_lt_is_Some_2 ls (S i)) as [c' Hc]; [lia|].
      pose proof (lookup_off _ _ _ Ha) as La. pose proof (lookup_off _ _ _ Hc) as Lc.
      pose proof (Hne (S i) ltac:(lia)). destruct c' as [|x c]; [cbn in Lc; lia|]. pose proof (off_S _ _ _ Ha).
      apply wp_bind. eapply wp_mono; [apply (pull_front_ok d ps ls i a x c); try done; lia|]. cbv beta.
      intros _ d1 (h1 & -> & Hs1). set (ls1 := <[i := a ++ [x]]> (<[S i := c]> ls)) in *.
      destruct (concat_pull ls i a x c Ha Hc) as [Hc1 Ho1]. fold ls1 in Hc1, Ho1.
      assert (length ls1 = length ls) as Hl1 by (unfold ls1; by rewrite !insert_length).
      replace (Z.of_nat i + 1)%Z with (Z.of_nat (S i)) by lia.
      pose proof (store_ok_room _ _ _ _ _ _ Hs Hc) as Hrc. cbn in Hrc. cbn in Lc.
      eapply wp_mono; [apply (IH (wh d h1) ps ls1 (S i)); try done; try lia|].
      + intros _. rewrite !Ho1. repeat destruct (decide _); lia.
      + intros j Hj. rewrite !Ho1. pose proof (Hne j ltac:(lia)). repeat destruct (decide _); lia.
      + cbv beta. intros _ d2 (h2 & ls2 & -> & Hs2 & Hc2 & Hl2 & Ho2). exists h2, ls2. split_and!; try done; [congruence|lia|].
        intros j. rewrite Ho2, Ho1. repeat destruct (decide _); lia.
  Qed.
  Lemma pull_back_loop n : ∀ d ps ls i, ring d ps → store d ps ls → n <= i → i < length ls →
    (0 < n → off ls (S i) < off ls i + C) → (∀ j, i - n <= j < i → off ls j < off ls (S j)) →
    wp (for_down n (Z.of_nat i) pull_back) (λ _ d', ∃ h' ls', d' = wh d h' ∧ store_ok h' (dq_pool d) ps ls' ∧
      concat ls' = concat ls ∧ length ls' = length ls ∧
      ∀ j, off ls' j + (if decide (i - n < j <= i) then 1 else 0) = off ls j) d.
  Proof using.
    induction n as [|n IH]; intros d ps ls i Hr Hs Hn Hi Hroom Hne; cbn [for_down].
    - apply wp_ret. exists (dq_heap d), ls. split_and!; try done; [by destruct d|]. intros j. rewrite decide_False by lia. lia.
    - destruct i as [|i]; [lia|].
      destruct (lookup_lt_is_Some_2 ls i) as [a' Ha]; [lia|]. destruct (lookup_lt_is_Some_2 ls (S i)) as [c Hc]; [lia|].
      pose proof (lookup_off _ _ _ Ha) as La. pose proof (lookup_off _ _ _ Hc) as Lc. pose proof (off_S _ _ _ Hc).
      pose proof (Hne i ltac:(lia)). destruct a' as [|x a _] using rev_ind; [cbn in La; lia|].
      apply wp_bind. eapply wp_mono; [apply (pull_back_ok d ps ls i a x c); try done; lia|]. cbv beta.
      intros _ d1 (h1 & -> & Hs1). set (ls1 := <[S i := x :: c]> (<[i := a]> ls)) in *.
      destruct (concat_pull_back ls i a x c Ha Hc) as [Hc1 Ho1]. fold ls1 in Hc1, Ho1.
      assert (length ls1 = length ls) as Hl1 by (unfold ls1; by rewrite !insert_length).
      replace (Z.of_nat (S i) - 1)%Z with (Z.of_nat i) by lia.
      pose proof (store_ok_room _ _ _ _ _ _ Hs Ha) as Hrc. rewrite app_length in Hrc, La. cbn in Hrc, La.
      assert (∀ j, off ls1 j = off ls j - (if decide (i < j <= S i) then 1 else 0)) as Ho1' by (intros j; specialize (Ho1 j); lia).
      pose proof (off_mono ls 0 (S i)). 
      eapply wp_mono; [apply (IH (wh d h1) ps ls1 i); try done; try lia|].
      + intros _. rewrite !Ho1'. repeat destruct (decide _); lia.
      + intros j Hj. rewrite !Ho1'. pose proof (Hne j ltac:(lia)). repeat destruct (decide _); lia.
      + cbv beta. intros _ d2 (h2 & ls2 & -> & Hs2 & Hc2 & Hl2 & Ho2). exists h2, ls2. split_and!; try done; [congruence|lia|].
        intros j. specialize (Ho2 j). specialize (Ho1 j). repeat destruct (decide _); lia.
  Qed.

  (** inserting into one segment *)
  Lemma seg_insert_ok d ps ls k p a x : ring d ps → store d ps ls → ls !! k = Some a → length a < C → p < C →
    wp (let! s := segment_at (Z.of_nat k) in call s (s_insert (Z.of_nat p) x))%go (λ _ d', ∃ h' ls', d' = wh d h' ∧
      store_ok h' (dq_pool d) ps ls' ∧ length ls' = length ls ∧
      (let K := off ls k + p `min` length a in concat ls' = take K (concat ls) ++ x :: drop K (concat ls)) ∧
      ∀ j, off ls' j = off ls j + (if decide (k < j) then 1 else 0)) d.
  Proof using.
    intros Hr Hs Ha Hl Hp. pose proof (store_ok_len _ _ _ _ Hs) as Hlen.
    destruct (lookup_lt_is_Some_2 ps k) as [q Hq]. { rewrite Hlen. by eapply lookup_lt_Some. }
    wp_step (segment_at_ok d ps k q Hr Hq).
    eapply wp_mono; [apply (call_ok _ (λ _ l', l' = take p a ++ x :: drop p a) d ps ls k q a Hs Hq Ha)|].
    { intros s Hrep. eapply wp_mono; [by apply insert_ok|]. cbv beta. eauto. }
    cbv beta. intros _ d' (l' & h' & -> & -> & Hs'). eexists h', _. split; [done|]. split; [done|]. rewrite insert_length. split; [done|]. split.
    - cbv zeta. rewrite <-(concat_ins ls k a (p `min` length a) x Ha ltac:(lia)). f_equal. f_equal.
      destruct (decide (p <= length a)); [by replace (p `min` length a) with p by lia|].
      replace (p `min` length a) with (length a) by lia. rewrite !take_ge, !drop_ge by lia. done.
    - intros j. pose proof (off_insert ls k a (take p a ++ x :: drop p a) j Ha) as Ho. rewrite app_length in Ho. cbn [length] in Ho.
      rewrite take_length, drop_length in Ho. destruct (decide (k < j)); lia.
  Qed.

  (** after the item was stored *)
  Lemma finish_insert d ps ls : ring d ps → store d ps ls → shape ls → ls ≠ [] →
    dq_size d = (Z.of_nat (length (concat ls)) - 1)%Z → geo (length (dq_segs d)) (length ps) →
    pool_lim (length (dq_pool d)) (S (length ps)) →
    wp (size_add 1 ;; expand_if_full)%go (λ _ d', dinv d' (concat ls)) d.
  Proof using.
    intros Hr Hs Hsh Hne Hsz Hg Hpl. wp_go. pose proof (shape_nonempty ls Hsh Hne) as Hc.
    assert (0 < length (concat ls)) by (destruct (concat ls); [done|cbn; lia]).
    pose proof (store_ok_len _ _ _ _ Hs) as Hlen.
    eapply wp_mono; [apply (expand_if_full_ok _ ps); cbn [dq_segs dq_begin dq_end dq_size]; try done; try lia|].
    { intros ->. destruct ls; [done|]. done. }
    cbv beta. cbn [dq_heap dq_pool dq_segs dq_begin dq_end dq_size].
    intros _ d' (_ & Hr' & Hlt & Hg' & E1 & E2 & E3). exists ps, ls. split; try done.
    - by rewrite E1, E2.
    - rewrite E3. lia.
    - by left.
    - by rewrite E2.
  Qed.

  Lemma lookup_off_bounds ls k : k < length ls → ∃ a, ls !! k = Some a ∧ length a = off ls (S k) - off ls k ∧ off ls (S k) = off ls k + length a.
  Proof using.
    intros H. destruct (lookup_lt_is_Some_2 ls k H) as [a Ha]. exists a. pose proof (off_S _ _ _ Ha). split_and!; [done|lia|done].
  Qed.

  Lemma push_back_dq d l x : dinv d l → wp (dq_push_back zero x) (λ _ d', dinv d' (l ++ [x])) d.
  Proof using.
    intros (ps & ls & [Hr Hs Hsh Hc Hsz Hg Hroom Hpl]). pose proof (store_ok_len _ _ _ _ Hs) as Hlen. unfold dq_push_back.
    (* the segment that receives x *)
    assert (wp (last_available zero) (λ s d', ∃ p ps' ls' a, s = Some p ∧ ring d' (ps' ++ [p]) ∧ store d' (ps' ++ [p]) (ls' ++ [a]) ∧
       length a < C ∧ concat (ls' ++ [a]) = l ∧ dq_size d' = dq_size d ∧ geo (length (dq_segs d')) (length (ps' ++ [p])) ∧
       pool_lim (length (dq_pool d')) (S (length (ps' ++ [p]))) ∧ (shape (ls' ++ [a ++ [x]]))) d) as Hla.
    { unfold last_available. wp_step (last_segment_ok d ps Hr).
      destruct ps as [|p ps' _] using rev_ind.
      - (* empty deque *)
        destruct ls; [|done]. cbn in Hc. subst l. cbn [last]. wp_go. apply wp_bind.
        eapply wp_mono; [apply expand_if_full_0; done|]. cbv beta. intros _ d1 (Hr1 & Hn1 & Hg1 & E1 & E2 & E3).
        wp_step (last_segment_ok d1 [] Hr1). cbn [last]. wp_go.
        eapply wp_mono; [apply (grow_back_ok zero d1 [] []); [done|by rewrite E1, E2|done]|]. cbv beta.
        intros r d2 (p & -> & Hr2 & Hs2 & Hp2 & Hn2 & Hz2). exists p, [], [], []. cbn [app] in *. split_and!; try done.
        + cbn. apply C_pos.
        + by rewrite Hz2.
        + rewrite Hn2. eapply geo_mono; [|done]. lia.
        + eapply pool_lim_mono; [exact Hp2|..]; [|by rewrite E2]. cbn. lia.
        + pose proof C_pos. split; cbn [length app]; intros j; [|lia]. intros Hj. assert (j = 0) as -> by lia. rewrite (off_S _ 0 [x]) by done. rewrite off_0. cbn. lia.
      - destruct ls as [|a ls' _] using rev_ind; [rewrite app_length in Hlen; cbn in Hlen; lia|].
        rewrite last_snoc. rewrite !app_length in Hlen. cbn in Hlen.
        assert ((ps' ++ [p]) !! length ps' = Some p) as Hp by (by rewrite list_lookup_middle).
        assert ((ls' ++ [a]) !! length ps' = Some a) as Ha by (rewrite list_lookup_middle; [done|lia]).
        assert (dq_size d ≠ 0%Z) as Hz. { pose proof (shape_nonempty _ Hsh ltac:(by destruct ls')). rewrite Hsz, <-Hc. destruct (concat (ls' ++ [a])); [done|cbn; lia]. }
        assert (Hfull : ask (Some p) s_full d = Ok (bool_decide (length a = C), d)).
        { apply (ask_ok s_full d _ _ (length ps') p a _ Hs Hp Ha). intros s Hrep. by apply rep_full. }
        pose proof (store_ok_room _ _ _ _ _ _ Hs Ha) as Hroom_a.
        apply wp_bind. apply wp_bind. eapply wp_eq; [exact Hfull|]. apply wp_ret. case_bool_decide as Hfa; cbn [negb].
        + (* full: a new segment *)
          wp_step (expand_if_room d _ Hr Hz ltac:(by destruct ps') ltac:(destruct Hroom as [?|Hz0]; [done|pose proof (ring_len _ _ _ _ Hr); rewrite app_length in *; cbn in *; lia])).
          wp_step (last_segment_ok d _ Hr). rewrite last_snoc. wp_step Hfull. rewrite ?bool_decide_eq_true_2 by done.
          eapply wp_mono; [apply (grow_back_ok zero d _ _ Hr Hs); destruct Hroom as [?|Hz0]; [done|pose proof (ring_len _ _ _ _ Hr); rewrite app_length in *; cbn in *; lia]|]. cbv beta.
          intros r d2 (q & -> & Hr2 & Hs2 & Hp2 & Hn2 & Hz2). exists q, (ps' ++ [p]), (ls' ++ [a]), []. split_and!; try done.
          * cbn. apply C_pos.
          * rewrite concat_app, Hc. cbn. by rewrite app_nil_r.
          * rewrite Hn2. eapply geo_mono; [|done]. rewrite (app_length (ps' ++ [p])). lia.
          * eapply pool_lim_mono; [exact Hp2| |exact Hpl]. rewrite (app_length (ps' ++ [p])). lia.
          * cbn [app]. destruct Hsh as [Hs1 Hs2']. rewrite !app_length in *. cbn in *.
            assert (∀ j, j <= length ls' + 1 → off ((ls' ++ [a]) ++ [[x]]) j = off (ls' ++ [a]) j) as Ho.
            { intros j Hj. apply off_app1. rewrite app_length. cbn. lia. }
            assert (off ((ls' ++ [a]) ++ [[x]]) (S (length ls' + 1)) = off (ls' ++ [a]) (length ls' + 1) + 1) as Ho'.
            { rewrite (off_S _ _ [x]); [rewrite Ho by lia; done|]. rewrite list_lookup_middle; [done|]. rewrite app_length. cbn. lia. }
            pose proof C_pos. split; rewrite !app_length; cbn [length].
            -- intros j Hj. destruct (decide (j = length ls' + 1)) as [->|].
               ++ rewrite Ho', Ho by lia. lia.
               ++ rewrite !Ho by lia. apply Hs1. lia.
            -- intros j Hj1 Hj2. rewrite !Ho by lia. destruct (decide (j = length ls')) as [->|]; [|apply Hs2'; lia].
               rewrite (off_S _ (length ls') a); [lia|]. by rewrite list_lookup_middle.
        + (* room in the last segment *)
          eapply wp_eq; [by apply (last_segment_ok d _ Hr)|]. rewrite last_snoc. exists p, ps', ls', a.
          split_and!; try done.
          * lia.
          * destruct Hsh as [Hs1 Hs2']. rewrite !app_length in *. cbn in *.
            assert (∀ b j, j <= length ls' → off (ls' ++ [b]) j = off ls' j) as Ho by (intros; by apply off_app1).
            split; rewrite !app_length; cbn [length].
            -- intros j Hj. specialize (Hs1 j Hj). destruct (decide (j = length ls')) as [->|].
               ++ rewrite (off_S _ _ (a ++ [x])), Ho by (try lia; by rewrite list_lookup_middle). rewrite app_length. cbn. lia.
               ++ rewrite !Ho by lia. rewrite !Ho in Hs1 by lia. done.
            -- intros j Hj1 Hj2. specialize (Hs2' j Hj1 Hj2). rewrite !Ho by lia. rewrite !Ho in Hs2' by lia. done. }
    apply wp_bind. eapply wp_mono; [exact Hla|]. cbv beta.
    intros r d1 (p & ps' & ls' & a & -> & Hr1 & Hs1 & Hla1 & Hc1 & Hz1 & Hg1 & Hp1 & Hsh1).
    pose proof (store_ok_len _ _ _ _ Hs1) as Hlen1. rewrite !app_length in Hlen1. cbn in Hlen1.
    apply wp_bind. eapply wp_mono; [apply (call_ok _ (λ _ l', l' = a ++ [x]) d1 _ _ (length ps') p a Hs1)|].
    { by rewrite list_lookup_middle. } { rewrite list_lookup_middle; [done|lia]. }
    { intros s Hrep. eapply wp_mono; [by apply push_back_ok|]. cbv beta. eauto. }
    cbv beta. intros _ d2 (l' & h' & -> & -> & Hs2).
    assert (<[length ps' := a ++ [x]]> (ls' ++ [a]) = ls' ++ [a ++ [x]]) as El.
    { replace (length ps') with (length ls' + 0) by lia. by rewrite insert_app_r. }
    rewrite El in Hs2.
    assert (concat (ls' ++ [a ++ [x]]) = l ++ [x]) as Ec.
    { rewrite <-Hc1. rewrite !concat_app. cbn. rewrite !app_nil_r. by rewrite app_assoc. }
    rewrite <-Ec. apply (finish_insert (wh d1 h') (ps' ++ [p]) (ls' ++ [a ++ [x]])); try done.
    - by destruct ls'.
    - cbn [wh dq_size]. rewrite Hz1, Hsz, Ec, app_length. cbn. lia.
  Qed.
End ops.
