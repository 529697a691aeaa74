(** Deque operations: PopBack, EraseAt, EraseRange, Clear. *)
From Verif Require Import Base Wp DequeModel SegmentProofs DequeLists DequeProofs DequeOps DequeOps2 DequeOps3.
Open Scope nat_scope.

Section ops.
  Context {T : Type} (zero : T).
  Implicit Types (d : deque T) (ls : list (list T)) (l : list T).
  Notation ring d ps := (ring_ok (dq_segs d) (dq_begin d) (dq_end d) ps).
  Notation store d ps ls := (store_ok (dq_heap d) (dq_pool d) ps ls).

  Lemma shape_back a b ls : shape (ls ++ [a]) → b ≠ [] → length b <= C → shape (ls ++ [b]).
  Proof using.
    intros [H1 H2] Hb Hl. assert (0 < length b) by (destruct b; [done|cbn; lia]).
    rewrite !app_length in *. cbn [length] in *. split; rewrite !app_length; cbn [length]; intros j.
    - intros Hj. destruct (decide (j = length ls)) as [->|].
      + rewrite (off_S _ _ b) by (by rewrite list_lookup_middle). lia.
      + specialize (H1 j Hj). rewrite !off_app1 in * by lia. done.
    - intros Hj Hj'. specialize (H2 j Hj Hj'). rewrite !off_app1 in * by lia. done.
  Qed.
  Lemma shape_drop_back a ls : shape (ls ++ [a]) → shape ls.
  Proof using.
    intros [H1 H2]. rewrite !app_length in *. cbn [length] in *. split; intros j.
    - intros Hj. specialize (H1 j ltac:(lia)). rewrite !off_app1 in H1 by lia. done.
    - intros Hj Hj'. specialize (H2 j Hj ltac:(lia)). rewrite !off_app1 in H2 by lia. done.
  Qed.
  Lemma pop_back_dq d x l : dinv d (l ++ [x]) → wp dq_pop_back (λ y d', y = x ∧ dinv d' l) d.
  Proof using.
    intros (ps & ls & Hinv). pose proof (dinv_pos _ _ _ _ Hinv) as Hpos. destruct Hinv as [Hr Hs Hsh Hc Hsz Hg Hroom Hpl].
    pose proof (store_ok_len _ _ _ _ Hs) as Hlen.
    destruct ls as [|a ls _] using rev_ind; [by destruct l|]. destruct ps as [|p ps _] using rev_ind; [by destruct ls|].
    destruct (Hpos ltac:(by destruct ps)) as (Hz & Hlt & _). clear Hpos. rewrite !app_length in Hlen. cbn in Hlen.
    assert (length ls = length ps) as Hlen' by lia.
    destruct a as [|y a _] using rev_ind.
    { destruct Hsh as [Hsh _]. specialize (Hsh (length ls) ltac:(rewrite app_length; cbn; lia)). rewrite (off_S _ (length ls) []) in Hsh by (by rewrite list_lookup_middle). cbn in Hsh. lia. }
    rewrite concat_app in Hc. cbn [concat] in Hc. rewrite app_nil_r, app_assoc in Hc. apply app_inj_tail in Hc as [Hc ->].
    destruct (ring_back_pop _ _ _ _ _ Hr) as (e & He & Hel & Hpe & Hse & Hr').
    unfold dq_pop_back. wp_go. destruct (Z.eqb_spec (dq_size d) 0); [done|].
    apply wp_bind. rewrite He. eapply wp_eq. { unfold d_pre, d_len, dget, mbind_, mret_. apply gomod_pre. done. }
    apply wp_bind. eapply wp_eq; [by apply seg_get_ok|]. apply wp_bind.
    assert ((ps ++ [p]) !! length ps = Some p) as Hp1 by (by rewrite list_lookup_middle).
    assert (∀ z : list T, (ls ++ [z]) !! length ps = Some z) as Ha1 by (intros z; rewrite list_lookup_middle; [done|lia]).
    eapply wp_mono; [apply (call_ok _ (λ y l', y = x ∧ l' = a) d _ _ (length ps) p (a ++ [x]) Hs); [done|done|]|].
    { intros s Hrep. eapply wp_mono; [by apply pop_back_ok|]. cbv beta. intros ? ? [-> ?]. eauto. }
    cbv beta. intros ? d1 (l' & h1 & [-> ->] & -> & Hs1).
    rewrite <-Hlen' in Hs1 at 1. rewrite <-(Nat.add_0_r (length ls)), insert_app_r in Hs1. change (<[0:=a]> [a ++ [x]]) with [a] in Hs1.
    wp_step (ask_ok s_size (wh d h1) _ _ (length ps) p a (Z.of_nat (length a)) Hs1 ltac:(done) ltac:(done) ltac:(intros s Hrep; by apply rep_size in Hrep as [-> _])).
    assert (length (l ++ [x]) = S (length (concat (ls ++ [a])))) as Hll. { rewrite concat_app. cbn [concat]. rewrite app_nil_r, Hc, app_length. cbn. lia. }
    destruct (Z.eqb_spec (Z.of_nat (length a)) 0) as [Hea|Hea].
    - assert (a = []) as -> by (destruct a; [done|cbn in Hea; lia]). rewrite app_nil_r in Hc. apply wp_bind.
      apply wp_bind. eapply wp_mono; [apply (put_to_pool_ok (wh d h1) p (ps ++ [p]) (ls ++ [[]]) ps ls (length ps) (length (ps ++ [p])) Hs1); [done|done| |]|].
      { intros h pool. apply store_ok_pool_back. } { apply (seg_used_ok (wh d h1) (ps ++ [p])); [done|done|by destruct ps]. }
      cbv beta. cbn [wh dq_heap dq_pool dq_segs dq_begin dq_end dq_size]. intros _ d2 (Hs2 & E1 & E2 & E3 & E4 & Hp2).
      apply wp_bind. unfold seg_put. eapply wp_eq. { rewrite E1, upd_nat by done. reflexivity. }
      eapply wp_eq; [reflexivity|]. cbn [dq_heap dq_pool dq_segs dq_begin dq_end dq_size].
      match goal with |- wp _ _ ?dd => set (d3 := dd) end. rewrite app_length in Hp2, Hg, Hlt. cbn [length] in Hp2, Hg, Hlt. rewrite Nat.add_1_r in *.
      assert (wp (size_add (-1) ;; shrink_if_needed)%go (λ _ d', dinv d' (concat ls)) d3) as Hfin.
      { apply (dinv_dec d3 ps ls); unfold d3; cbn [dq_heap dq_pool dq_segs dq_begin dq_end dq_size]; rewrite ?insert_length, ?E2, ?E4; try done.
        - by eapply shape_drop_back.
        - rewrite Hsz, Hll, concat_app. cbn [concat]. rewrite !app_nil_r. lia.
        - apply Hg.
        - apply Hg.
        - left. lia. }
      apply wp_Ok in Hfin as (? & d4 & E & Hd4). unfold mbind_ at 1 in E. 
      apply wp_bind. destruct (size_add (-1) d3) as [[? d5]| |] eqn:E5; try done. eapply wp_eq; [exact E5|].
      apply wp_bind. eapply wp_eq; [exact E|]. apply wp_ret. split; [done|]. by rewrite <-Hc.
    - wp_go. 
      assert (wp (size_add (-1) ;; shrink_if_needed)%go (λ _ d', dinv d' (concat (ls ++ [a]))) (wh d h1)) as Hfin.
      { apply (dinv_dec (wh d h1) (ps ++ [p]) (ls ++ [a])); cbn [wh dq_heap dq_pool dq_segs dq_begin dq_end dq_size]; try done.
        - apply (shape_back (a ++ [x])); [done|by destruct a|]. by eapply (store_ok_room _ _ _ _ (length ps) a Hs1).
        - rewrite Hsz, Hll. lia.
        - apply Hg.
        - destruct Hg as [_ Hg]. etrans; [exact Hg|]. apply Nat.max_le_compat_l, Nat.div_le_mono; lia. }
      apply wp_Ok in Hfin as (? & d4 & E & Hd4). unfold mbind_ at 1 in E. 
      apply wp_bind. destruct (size_add (-1) (wh d h1)) as [[? d5]| |] eqn:E5; try done. eapply wp_eq; [exact E5|].
      apply wp_bind. eapply wp_eq; [exact E|]. apply wp_ret. split; [done|].
      rewrite concat_app in Hd4. cbn [concat] in Hd4. rewrite app_nil_r in Hd4. by rewrite <-Hc.
  Qed.
  Lemma pop_front_dq_0 d : dinv d [] → dq_pop_front d = Panic.
  Proof using. intros (ps & ls & [_ _ _ _ Hsz _ _ _]). unfold dq_pop_front, dget, mbind_. by rewrite Hsz. Qed.
  Lemma pop_back_dq_0 d : dinv d [] → dq_pop_back d = Panic.
  Proof using. intros (ps & ls & [_ _ _ _ Hsz _ _ _]). unfold dq_pop_back, dget, mbind_. by rewrite Hsz. Qed.

  (** the state after the table lost a segment and before the size is decremented *)
  Definition almost d (ps : list nat) ls (z : Z) : Prop :=
    ring d ps ∧ store d ps ls ∧ dq_size d = z ∧ geo (length (dq_segs d)) (length ps) ∧
    (length ps < length (dq_segs d) ∨ length (dq_segs d) = 0) ∧ pool_lim (length (dq_pool d)) (S (length ps)).
  Lemma almost_done d ps ls z : almost d ps ls z → shape ls → z = (Z.of_nat (length (concat ls)) + 1)%Z →
    wp (size_add (-1)) (λ _ d', dinv d' (concat ls)) d.
  Proof using.
    intros (Hr & Hs & Hz & Hg & Hroom & Hpl) Hsh ->. eapply wp_eq; [reflexivity|]. exists ps, ls.
    split; cbn [dq_heap dq_pool dq_segs dq_begin dq_end dq_size]; try done. rewrite Hz. lia.
  Qed.
  (** shrinking while the size is not yet decremented *)
  Lemma shrink_almost d ps ls z : ring d ps → store d ps ls → dq_size d = z → z ≠ 0%Z →
    length ps < length (dq_segs d) → geo (length (dq_segs d)) (S (length ps)) → pool_lim (length (dq_pool d)) (S (length ps)) →
    wp shrink_if_needed (λ _ d', almost d' ps ls z) d.
  Proof using.
    intros Hr Hs Hz Hz0 Hlt [Hg1 Hg2] Hpl. destruct ps as [|p ps].
    - (* begin = end: segUsed() yields the length of the table *)
      destruct Hr as [(E & _)|Hr]; [rewrite E in Hlt; cbn in Hlt; lia|]. 
      assert (seg_used d = Ok (Z.of_nat (length (dq_segs d)), d)) as Hu.
      { destruct Hr as (b & Hb & _ & Hbz & He & _). cbn [length] in He. replace (ri _ b 0) with b in He by ring_lia.
        unfold seg_used, dget, mbind_, mret_. destruct (Z.eqb_spec (dq_size d) 0); [congruence|]. rewrite Hbz, He, Z.ltb_irrefl. do 2 f_equal. lia. }
      unfold shrink_if_needed. wp_step Hu. wp_go.
      assert (Z.of_nat (length (dq_segs d)) <= shrink_bound (Z.of_nat (length (dq_segs d))))%Z as Hb.
      { unfold shrink_bound. apply Z.div_le_lower_bound; lia. }
      destruct (Z.ltb_spec (shrink_bound (Z.of_nat (length (dq_segs d)))) (Z.of_nat (length (dq_segs d)))); [lia|].
      apply wp_ret. split_and!; try done; try (by left); try (by right).
    - eapply wp_mono; [apply (shrink_ok d (p :: ps)); try done|].
      + apply seg_used_ok; [done|congruence|done].
      + by left.
      + cbv beta. intros _ d' (Hr' & Hroom' & Hg' & E1 & E2 & E3). split_and!; try done; [by rewrite E1, E2|congruence|by rewrite E2].
  Qed.
  Lemma drop_first d p ps ls z : ring d (p :: ps) → store d (p :: ps) ([] :: ls) → dq_size d = z → z ≠ 0%Z →
    length (p :: ps) < length (dq_segs d) → geo (length (dq_segs d)) (length (p :: ps)) →
    wp (put_to_pool (Some p) ;; let! d := dget in seg_put (dq_begin d) None ;;
           let! b := d_next (dq_begin d) in put_begin b ;; shrink_if_needed)%go (λ _ d', almost d' ps ls z) d.
  Proof using.
    intros Hr Hs Hz Hz0 Hlt Hg. destruct (ring_front_pop _ _ _ _ _ Hr) as (b & Hb & Hbl & Hsb & Hr').
    apply wp_bind. eapply wp_mono; [apply (put_to_pool_ok d p (p :: ps) ([] :: ls) ps ls 0 (length (p :: ps)) Hs); [done|done| |]|].
    { intros h pool. apply store_ok_pool. } { apply (seg_used_ok d (p :: ps)); [done|congruence|done]. }
    cbv beta. intros _ d2 (Hs2 & E1 & E2 & E3 & E4 & Hp2). wp_go. apply wp_bind.
    unfold seg_put. eapply wp_eq. { rewrite E1, E2, Hb, upd_nat by done. reflexivity. }
    apply wp_bind. eapply wp_eq. { unfold d_next, d_len, dget, mbind_, mret_. cbn [dq_segs]. rewrite insert_length, E2, Hb. by apply gomod_next. }
    wp_go. cbn [dq_heap dq_pool dq_segs dq_begin dq_end dq_size].
    apply (shrink_almost _ ps ls z); cbn [dq_heap dq_pool dq_segs dq_begin dq_end dq_size]; rewrite ?insert_length, ?E3, ?E4; try done. cbn in Hlt. lia.
  Qed.
  Lemma drop_last d p ps ls z : ring d (ps ++ [p]) → store d (ps ++ [p]) (ls ++ [[]]) → dq_size d = z → z ≠ 0%Z →
    length (ps ++ [p]) < length (dq_segs d) → geo (length (dq_segs d)) (length (ps ++ [p])) →
    wp (put_to_pool (Some p) ;; let! d := dget in let! k := d_pre (dq_end d) in seg_put k None ;;
           let! k := d_pre (dq_end d) in put_end k ;; shrink_if_needed)%go (λ _ d', almost d' ps ls z) d.
  Proof using.
    intros Hr Hs Hz Hz0 Hlt Hg. destruct (ring_back_pop _ _ _ _ _ Hr) as (e & He & Hel & Hpe & Hse & Hr').
    assert (length (ps ++ [p]) = S (length ps)) as Hlp by (rewrite app_length; cbn; lia).
    assert (length ls = length ps) as Hlen. { apply store_ok_len in Hs. rewrite !app_length in Hs. cbn in Hs. lia. }
    apply wp_bind. eapply wp_mono; [apply (put_to_pool_ok d p (ps ++ [p]) (ls ++ [[]]) ps ls (length ps) (length (ps ++ [p])) Hs); [by rewrite list_lookup_middle|by rewrite list_lookup_middle| |]|].
    { intros h pool. apply store_ok_pool_back. } { apply (seg_used_ok d (ps ++ [p])); [done|congruence|by destruct ps]. }
    cbv beta. intros _ d2 (Hs2 & E1 & E2 & E3 & E4 & Hp2). wp_go. apply wp_bind.
    eapply wp_eq. { unfold d_pre, d_len, dget, mbind_, mret_. rewrite E1, E3, He. by apply gomod_pre. }
    apply wp_bind. unfold seg_put. eapply wp_eq. { rewrite E1, upd_nat by done. reflexivity. }
    apply wp_bind. eapply wp_eq. { unfold d_pre, d_len, dget, mbind_, mret_. cbn [dq_segs]. rewrite insert_length, E3, He. by apply gomod_pre. }
    wp_go. cbn [dq_heap dq_pool dq_segs dq_begin dq_end dq_size].
    apply (shrink_almost _ ps ls z); cbn [dq_heap dq_pool dq_segs dq_begin dq_end dq_size]; rewrite ?insert_length, ?E2, ?E4; try done; rewrite Hlp in *; try done. lia.
  Qed.

  Lemma erase_at_dq d l k : dinv d l → k < length l → wp (dq_erase_at (Z.of_nat k)) (λ _ d', dinv d' (take k l ++ drop (S k) l)) d.
  Proof using.
    intros (ps & ls & Hinv) Hk. pose proof (dinv_pos _ _ _ _ Hinv) as Hpos. destruct Hinv as [Hr Hs Hsh Hc Hsz Hg Hroom Hpl].
    pose proof (store_ok_len _ _ _ _ Hs) as Hlen.
    assert (ps ≠ []) as Hps. { intros ->. destruct ls; [|done]. cbn in Hc. subst l. cbn in Hk. lia. }
    destruct (Hpos Hps) as (Hz & Hlt & Hls). clear Hpos. unfold dq_erase_at. wp_go. rewrite Hsz.
    destruct (Z.ltb_spec (Z.of_nat k) 0), (Z.leb_spec (Z.of_nat (length l)) (Z.of_nat k)); cbn [orb]; try lia.
    destruct (d_pos_ok d ps ls k Hr Hs Hsh ltac:(by rewrite Hc)) as (i & p & a & Ed & Ha & Hp & Hki). wp_step Ed. cbn [fst snd].
    pose proof (lookup_lt_Some _ _ _ Ha) as Hi. destruct (lookup_lt_is_Some_2 ps i) as [q Hq]; [lia|].
    wp_step (segment_at_ok d ps i q Hr Hq). apply wp_bind.
    eapply wp_mono; [apply (call_ok _ (λ _ l', l' = take p a ++ drop (S p) a) d ps ls i q a Hs Hq Ha)|].
    { intros s Hrep. eapply wp_mono; [by apply erase_ok|]. cbv beta. eauto. }
    cbv beta. intros _ d1 (l' & h1 & -> & -> & Hs1). set (ls1 := <[i:=_]> ls) in *.
    assert (concat ls1 = take k l ++ drop (S k) l) as Hc1. { unfold ls1. rewrite (concat_del ls i a p Ha Hp). by rewrite <-Hki, Hc. }
    assert (∀ j, off ls1 j + (if decide (i < j) then 1 else 0) = off ls j) as Ho1.
    { intros j. pose proof (off_insert ls i a (take p a ++ drop (S p) a) j Ha) as Ho. fold ls1 in Ho. rewrite app_length, take_length, drop_length in Ho. destruct (decide (i < j)); lia. }
    assert (length ls1 = length ls) as Hl1 by (unfold ls1; by rewrite insert_length). clearbody ls1.
    assert (Z.of_nat (length l) = Z.of_nat (length (concat ls1)) + 1)%Z as Hll. { rewrite Hc1, app_length, take_length, drop_length. lia. }
    pose proof (off_S _ _ _ Ha) as Hoa. pose proof (store_ok_room _ _ _ _ _ _ Hs Ha) as Hac. pose proof C_pos as HC. pose proof Hsh as [Hsh1 Hsh2].
    rewrite <-Hc1. apply wp_bind.
    match goal with |- wp _ ?Q _ => set (QQ := Q) end.
    assert (∀ d' ls2 ps2, concat ls2 = concat ls1 → almost d' ps2 ls2 (Z.of_nat (length l)) → shape ls2 → QQ tt d') as HQ.
    { intros d' ls2 ps2 Hcc Hal Hsh'. unfold QQ. rewrite <-Hcc. apply (almost_done d' ps2 ls2 _ Hal Hsh'). by rewrite Hcc. }
    destruct (Z.ltb_spec (Z.of_nat i) (Z.of_nat (length l) - Z.of_nat i - 1)) as [Hb|Hb].
    - rewrite Nat2Z.id. apply wp_bind. eapply wp_mono; [apply (pull_back_loop i (wh d h1) ps ls1 i Hr Hs1)|]; try lia.
      { intros _. pose proof (Ho1 i) as X1. pose proof (Ho1 (S i)) as X2. repeat destruct (decide _); try lia. }
      { intros j Hj. pose proof (Ho1 j) as X1. pose proof (Ho1 (S j)) as X2. pose proof (Hsh1 j ltac:(lia)). repeat destruct (decide _); try lia. }
      cbv beta. intros _ d2 (h2 & ls2 & -> & Hs2 & Hc2 & Hl2 & Ho2). set (d2 := wh (wh d h1) h2) in *.
      assert (∀ j, off ls2 j + (if decide (0 < j) then 1 else 0) = off ls j) as Ho.
      { intros j. specialize (Ho2 j). specialize (Ho1 j). repeat destruct (decide _); lia. }
      destruct ps as [|p0 ps]; [done|]. destruct ls2 as [|a0 ls2]; [cbn in Hl2; lia|].
      wp_step (first_segment_ok d2 (p0 :: ps) Hr). change ((p0 :: ps) !! 0) with (Some p0).
      wp_step (ask_ok s_empty d2 (p0 :: ps) _ 0 p0 a0 (bool_decide (a0 = [])) Hs2 ltac:(done) ltac:(done) ltac:(intros; by apply rep_empty)).
      pose proof (Ho 1) as X1. rewrite off_cons, off_0 in X1. rewrite decide_True in X1 by lia. pose proof (Hsh1 0 ltac:(cbn in Hlen; lia)) as X0. rewrite off_0 in X0.
      case_bool_decide as Hem.
      + subst a0. eapply wp_mono; [apply (drop_first d2 p0 ps ls2 (Z.of_nat (length l)))|]; try done; try lia.
        cbv beta. intros [] d3 Hal. eapply (HQ _ ls2); [done|done|].
        assert (∀ j, off ls2 j + 1 = off ls (S j)) as Hoo. { intros j. specialize (Ho (S j)). rewrite off_cons in Ho. cbn [length] in Ho. rewrite decide_True in Ho by lia. lia. }
        cbn in Hl2. split; intros j.
        * intros Hj. pose proof (Hoo j). pose proof (Hoo (S j)). pose proof (Hsh1 (S j) ltac:(lia)). lia.
        * intros Hj Hj'. pose proof (Hoo j). pose proof (Hoo (S j)). pose proof (Hsh2 (S j) ltac:(lia) ltac:(lia)). lia.
      + apply wp_ret. assert (0 < length a0) by (destruct a0; [done|cbn; lia]). apply (HQ _ (a0 :: ls2) (p0 :: ps)); [done| |].
        { split_and!; try done. }
        split; intros j.
        * intros Hj. pose proof (Ho j). pose proof (Ho (S j)). pose proof (Hsh1 j ltac:(lia)). destruct (decide (j = 0)) as [->|].
          { rewrite (off_cons a0 ls2 0), !off_0. rewrite off_0 in *. pose proof (store_ok_room _ _ _ _ 0 a0 Hs2 ltac:(done)). lia. }
          repeat destruct (decide _); lia.
        * intros Hj Hj'. pose proof (Ho j). pose proof (Ho (S j)). pose proof (Hsh2 j ltac:(lia) ltac:(lia)). repeat destruct (decide _); lia.
    - apply wp_bind. eapply wp_eq; [apply (seg_used_ok (wh d h1) ps); done|].
      apply wp_bind. replace (Z.to_nat (Z.of_nat (length ps) - 1 - Z.of_nat i)) with (length ps - 1 - i) by lia.
      eapply wp_mono; [apply (pull_front_loop (length ps - 1 - i) (wh d h1) ps ls1 i Hr Hs1)|]; try lia.
      { intros _. pose proof (Ho1 i) as X1. pose proof (Ho1 (S i)) as X2. repeat destruct (decide _); try lia. }
      { intros j Hj. pose proof (Ho1 j) as X1. pose proof (Ho1 (S j)) as X2. pose proof (Hsh1 j ltac:(lia)). repeat destruct (decide _); try lia. }
      cbv beta. intros _ d2 (h2 & ls2 & -> & Hs2 & Hc2 & Hl2 & Ho2). set (d2 := wh (wh d h1) h2) in *.
      assert (∀ j, off ls2 j + (if decide (length ls <= j) then 1 else 0) = off ls j) as Ho.
      { intros j. specialize (Ho2 j). specialize (Ho1 j). repeat destruct (decide _); lia. }
      destruct ps as [|p0 ps _] using rev_ind; [done|]. destruct ls2 as [|a0 ls2 _] using rev_ind; [cbn in Hl2; lia|].
      assert (length (ps ++ [p0]) = S (length ps)) as Hlps by (rewrite app_length; cbn; lia).
      assert (length (ls2 ++ [a0]) = S (length ls2)) as Hlls by (rewrite app_length; cbn; lia).
      assert (length ps = length ls2) as Hpl2 by lia.
      wp_step (last_segment_ok d2 (ps ++ [p0]) Hr). rewrite last_snoc.
      assert ((ps ++ [p0]) !! length ps = Some p0) as Hp1 by (by rewrite list_lookup_middle).
      assert ((ls2 ++ [a0]) !! length ps = Some a0) as Ha1 by (rewrite list_lookup_middle; [done|lia]).
      wp_step (ask_ok s_empty d2 (ps ++ [p0]) _ (length ps) p0 a0 (bool_decide (a0 = [])) Hs2 Hp1 Ha1 ltac:(intros; by apply rep_empty)).
      pose proof (off_S _ _ _ Ha1) as X0.
      case_bool_decide as Hem.
      + subst a0. eapply wp_mono; [apply (drop_last d2 p0 ps ls2 (Z.of_nat (length l)))|]; try done; try lia.
        cbv beta. intros [] d3 Hal. eapply (HQ _ ls2); [|done|].
        { rewrite concat_app in Hc2. cbn in Hc2. by rewrite app_nil_r in Hc2. }
        split; intros j.
        * intros Hj. pose proof (Ho j) as Y. pose proof (Ho (S j)) as Y'. pose proof (Hsh1 j ltac:(lia)). rewrite off_app1 in Y by lia. rewrite off_app1 in Y' by lia. repeat destruct (decide _); lia.
        * intros Hj Hj'. pose proof (Ho j) as Y. pose proof (Ho (S j)) as Y'. pose proof (Hsh2 j ltac:(lia) ltac:(lia)). rewrite off_app1 in Y by lia. rewrite off_app1 in Y' by lia. repeat destruct (decide _); lia.
      + apply wp_ret. assert (0 < length a0) by (destruct a0; [done|cbn; lia]). apply (HQ _ (ls2 ++ [a0]) (ps ++ [p0])); [done| |].
        { split_and!; try done. }
        pose proof (store_ok_room _ _ _ _ (length ps) a0 Hs2 Ha1).
        split; intros j.
        * intros Hj. pose proof (Ho j). pose proof (Ho (S j)). pose proof (Hsh1 j ltac:(lia)). destruct (decide (j = length ps)) as [->|]; [lia|].
          repeat destruct (decide _); lia.
        * intros Hj Hj'. pose proof (Ho j). pose proof (Ho (S j)). pose proof (Hsh2 j ltac:(lia) ltac:(lia)). repeat destruct (decide _); lia.
  Qed.
  Lemma erase_at_out d l i : dinv d l → ¬ (0 <= i < Z.of_nat (length l))%Z → dq_erase_at i d = Ok (tt, d).
  Proof using.
    intros (ps & ls & [Hr Hs Hsh Hc Hsz Hg Hroom Hpl]) Hi. unfold dq_erase_at, dget, mbind_. rewrite Hsz.
    destruct (Z.ltb_spec i 0), (Z.leb_spec (Z.of_nat (length l)) i); cbn [orb]; try lia; done.
  Qed.

  (** EraseRange: copying the tail forward, or the head backward *)
  Lemma size_dq d l : dinv d l → dq_size d = Z.of_nat (length l).
  Proof using. by intros (? & ? & []). Qed.
  Lemma copy_forward n : ∀ d l i num, dinv d l → i + n + num = length l →
    wp (for_up n (Z.of_nat i) (λ pos, let! x := dq_at (pos + Z.of_nat num) in dq_set pos x ;; mret_ tt))%go
      (λ _ d', ∃ l', dinv d' l' ∧ length l' = length l ∧ ∀ j, j < i + n → l' !! j = if decide (i <= j) then l !! (j + num) else l !! j) d.
  Proof using.
    induction n as [|n IH]; intros d l i num Hd Hn; cbn [for_up].
    - apply wp_ret. exists l. split_and!; try done. intros j Hj. by rewrite decide_False by lia.
    - destruct (lookup_lt_is_Some_2 l (i + num)) as [x Hx]; [lia|].
      apply wp_bind. apply wp_bind. eapply wp_eq. { rewrite <-Nat2Z.inj_add. by eapply at_dq. }
      apply wp_bind. eapply wp_mono; [apply (set_dq d l i x Hd); lia|]. cbv beta. intros b d1 [-> Hd1]. apply wp_ret.
      replace (Z.of_nat i + 1)%Z with (Z.of_nat (S i)) by lia.
      destruct (decide (num = 0)) as [->|Hnum].
      + rewrite Nat.add_0_r in *. rewrite list_insert_id in Hd1 by done.
        eapply wp_mono; [apply (IH d1 l (S i) 0 Hd1); lia|]. cbv beta. intros _ d2 (l2 & Hd2 & Hl2 & Hj2). exists l2. split_and!; try done.
        intros j Hj. rewrite Hj2 by lia. rewrite Nat.add_0_r. by repeat destruct (decide _).
      + eapply wp_mono; [apply (IH d1 _ (S i) num Hd1); rewrite insert_length; lia|]. cbv beta. intros _ d2 (l2 & Hd2 & Hl2 & Hj2). exists l2.
        rewrite insert_length in Hl2. split_and!; try done. intros j Hj. rewrite Hj2 by lia.
        destruct (decide (i <= j)).
        * destruct (decide (S i <= j)); [by rewrite list_lookup_insert_ne by lia|]. assert (j = i) as -> by lia. rewrite list_lookup_insert by lia. done.
        * rewrite decide_False by lia. by rewrite list_lookup_insert_ne by lia.
  Qed.
  Lemma copy_backward n : ∀ d l i num, dinv d l → n + num = S i → i < length l → 
    wp (for_down n (Z.of_nat i) (λ pos, let! x := dq_at (pos - Z.of_nat num) in dq_set pos x ;; mret_ tt))%go
      (λ _ d', ∃ l', dinv d' l' ∧ length l' = length l ∧ ∀ j, num <= j → l' !! j = if decide (j <= i) then l !! (j - num) else l !! j) d.
  Proof using.
    induction n as [|n IH]; intros d l i num Hd Hn Hi; cbn [for_down].
    - apply wp_ret. exists l. split_and!; try done. intros j Hj. by rewrite decide_False by lia.
    - destruct (lookup_lt_is_Some_2 l (i - num)) as [x Hx]; [lia|].
      apply wp_bind. apply wp_bind. eapply wp_eq. { replace (Z.of_nat i - Z.of_nat num)%Z with (Z.of_nat (i - num)) by lia. by eapply at_dq. }
      apply wp_bind. eapply wp_mono; [apply (set_dq d l i x Hd); lia|]. cbv beta. intros b d1 [-> Hd1]. apply wp_ret.
      destruct (decide (num = 0)) as [->|Hnum].
      + rewrite Nat.sub_0_r in *. rewrite list_insert_id in Hd1 by done. destruct i as [|i].
        { assert (n = 0) as -> by lia. apply wp_ret. exists l. split_and!; try done. intros j _. rewrite Nat.sub_0_r. by destruct (decide _). }
        replace (Z.of_nat (S i) - 1)%Z with (Z.of_nat i) by lia.
        eapply wp_mono; [apply (IH d1 l i 0 Hd1); lia|]. cbv beta. intros _ d2 (l2 & Hd2 & Hl2 & Hj2). exists l2. split_and!; try done.
        intros j Hj. rewrite Hj2 by lia. rewrite Nat.sub_0_r. by repeat destruct (decide _).
      + replace (Z.of_nat i - 1)%Z with (Z.of_nat (i - 1)) by lia.
        eapply wp_mono; [apply (IH d1 _ (i - 1) num Hd1); rewrite ?insert_length; lia|]. cbv beta. intros _ d2 (l2 & Hd2 & Hl2 & Hj2). exists l2.
        rewrite insert_length in Hl2. split_and!; try done. intros j Hj. rewrite Hj2 by lia.
        destruct (decide (j <= i)).
        * destruct (decide (j <= i - 1)); [by rewrite list_lookup_insert_ne by lia|]. assert (j = i) as -> by lia. rewrite list_lookup_insert by lia. done.
        * rewrite decide_False by lia. by rewrite list_lookup_insert_ne by lia.
  Qed.
  Lemma pop_n_back n : ∀ d l, dinv d l → n <= length l → wp (pop_n n dq_pop_back) (λ _ d', dinv d' (take (length l - n) l)) d.
  Proof using.
    induction n as [|n IH]; intros d l Hd Hn; cbn [pop_n].
    - apply wp_ret. by rewrite take_ge by lia.
    - destruct l as [|x l _] using rev_ind; [cbn in Hn; lia|]. rewrite app_length in *. cbn in Hn.
      apply wp_bind. eapply wp_mono; [by apply (pop_back_dq d x l)|]. cbv beta. intros y d1 [-> Hd1].
      eapply wp_mono; [apply (IH d1 l Hd1); lia|]. cbv beta. intros _ d2 Hd2. cbn [length]. rewrite take_app_le by lia.
      by replace (length l + 1 - S n) with (length l - n) by lia.
  Qed.
  Lemma pop_n_front n : ∀ d l, dinv d l → n <= length l → wp (pop_n n dq_pop_front) (λ _ d', dinv d' (drop n l)) d.
  Proof using.
    induction n as [|n IH]; intros d l Hd Hn; cbn [pop_n].
    - apply wp_ret. by rewrite drop_0.
    - destruct l as [|x l]; [cbn in Hn; lia|]. cbn in Hn.
      apply wp_bind. eapply wp_mono; [by apply (pop_front_dq d x l)|]. cbv beta. intros y d1 [-> Hd1].
      apply (IH d1 l Hd1). lia.
  Qed.
  Lemma erase_range_dq d l i j : dinv d l → i < j → j <= length l →
    wp (dq_erase_range (Z.of_nat i) (Z.of_nat j)) (λ _ d', dinv d' (take i l ++ drop j l)) d.
  Proof using.
    intros Hd Hij Hj. unfold dq_erase_range. wp_go. rewrite (size_dq _ _ Hd).
    destruct (Z.ltb_spec (Z.of_nat i) 0), (Z.leb_spec (Z.of_nat j) (Z.of_nat i)), (Z.ltb_spec (Z.of_nat (length l)) (Z.of_nat j)); cbn [orb]; try lia.
    cbv zeta. replace (Z.of_nat j - Z.of_nat i)%Z with (Z.of_nat (j - i)) by lia.
    destruct (Z.ltb_spec (Z.of_nat (length l) - Z.of_nat i) (Z.of_nat j)).
    - replace (Z.to_nat (Z.of_nat (length l) - Z.of_nat (j - i) - Z.of_nat i)) with (length l - j) by lia.
      apply wp_bind. eapply wp_mono; [apply (copy_forward (length l - j) d l i (j - i) Hd); lia|]. cbv beta.
      intros _ d1 (l1 & Hd1 & Hl1 & Hx). rewrite Nat2Z.id. eapply wp_mono; [apply (pop_n_back (j - i) d1 l1 Hd1); lia|]. cbv beta.
      intros _ d2 Hd2. assert (take i l ++ drop j l = take (length l1 - (j - i)) l1) as ->; [|done].
      apply list_eq. intros m. destruct (decide (m < i + (length l - j))).
      + rewrite lookup_take by lia. rewrite Hx by lia. destruct (decide (i <= m)).
        * rewrite lookup_app_r by (rewrite take_length; lia). rewrite lookup_drop, take_length. f_equal. lia.
        * rewrite lookup_app_l by (rewrite take_length; lia). by rewrite lookup_take by lia.
      + rewrite !lookup_ge_None_2; [done|rewrite take_length; lia|rewrite app_length, take_length, drop_length; lia].
    - replace (Z.to_nat (Z.of_nat j - Z.of_nat (j - i))) with i by lia. replace (Z.of_nat j - 1)%Z with (Z.of_nat (j - 1)) by lia.
      apply wp_bind. eapply wp_mono; [apply (copy_backward i d l (j - 1) (j - i) Hd); lia|]. cbv beta.
      intros _ d1 (l1 & Hd1 & Hl1 & Hx). rewrite Nat2Z.id. eapply wp_mono; [apply (pop_n_front (j - i) d1 l1 Hd1); lia|]. cbv beta.
      intros _ d2 Hd2. assert (take i l ++ drop j l = drop (j - i) l1) as ->; [|done].
      apply list_eq. intros m. rewrite lookup_drop, Hx by lia. destruct (decide (j - i + m <= j - 1)).
      + rewrite lookup_app_l by (rewrite take_length; lia). rewrite lookup_take by lia. f_equal. lia.
      + rewrite lookup_app_r by (rewrite take_length; lia). rewrite lookup_drop, take_length. f_equal. lia.
  Qed.
  Lemma erase_range_out d l i j : dinv d l → ¬ (0 <= i < j ∧ j <= Z.of_nat (length l))%Z → dq_erase_range i j d = Ok (tt, d).
  Proof using.
    intros Hd Hi. unfold dq_erase_range, dget, mbind_. rewrite (size_dq _ _ Hd).
    destruct (Z.ltb_spec i 0), (Z.leb_spec j i), (Z.ltb_spec (Z.of_nat (length l)) j); cbn [orb]; try lia; done.
  Qed.
  Lemma clear_dq d l : dinv d l → wp dq_clear (λ _ d', dinv d' []) d.
  Proof using.
    intros Hd. unfold dq_clear. wp_go. rewrite (size_dq _ _ Hd). destruct l as [|x l].
    - eapply wp_eq; [eapply erase_range_out; [done|cbn; lia]|done].
    - eapply wp_mono; [apply (erase_range_dq d (x :: l) 0 (length (x :: l)) Hd); cbn; lia|]. cbv beta. intros _ d' Hd'. by rewrite drop_all in Hd'.
  Qed.
End ops.
