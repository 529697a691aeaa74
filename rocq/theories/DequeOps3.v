(** Deque operations: Insert, pops, erasures. *)
From Verif Require Import Base Wp DequeModel SegmentProofs DequeLists DequeProofs DequeOps DequeOps2.
Open Scope nat_scope.

Section ops.
  Context {T : Type} (zero : T).
  Implicit Types (d : deque T) (ls : list (list T)) (l : list T).
  Notation ring d ps := (ring_ok (dq_segs d) (dq_begin d) (dq_end d) ps).
  Notation store d ps ls := (store_ok (dq_heap d) (dq_pool d) ps ls).

  Lemma insert_len l k (x : T) : length (take k l ++ x :: drop k l) = S (length l).
  Proof using. rewrite app_length, take_length. cbn. rewrite drop_length. lia. Qed.

  (** a grown front segment *)
  Lemma shape_front_grow ls ls' : shape ls → ls ≠ [] → off ls 1 < C → length ls' = length ls →
    (∀ j, off ls' j = off ls j + (if decide (0 < j) then 1 else 0)) → shape ls'.
  Proof using.
    intros [H1 H2] Hne H0 Hl Ho. split; rewrite Hl; intros j; rewrite !Ho.
    - intros Hj. specialize (H1 j Hj). destruct (decide (j = 0)) as [->|]; [rewrite off_0 in *|]; repeat destruct (decide _); lia.
    - intros Hj Hj'. specialize (H2 j Hj Hj'). repeat destruct (decide _); lia.
  Qed.
  Lemma shape_front_new ls ls' : shape ls → off ls 1 = C → length ls' = S (length ls) →
    (∀ j, off ls' j = off ([] :: ls) j + (if decide (0 < j) then 1 else 0)) → shape ls'.
  Proof using.
    pose proof C_pos. intros [H1 H2] H0 Hl Ho. split; rewrite Hl; intros j; rewrite !Ho.
    - intros Hj. destruct j as [|j]; rewrite !off_cons; cbn [length]; [rewrite !off_0|specialize (H1 j ltac:(lia))]; repeat destruct (decide _); lia.
    - intros Hj Hj'. destruct j as [|j]; [lia|]. rewrite !off_cons. cbn [length].
      destruct j as [|j]; [rewrite off_0|rewrite (H2 (S j)) by lia]; repeat destruct (decide _); lia.
  Qed.
  Lemma shape_back_grow ls ls' : shape ls → off ls (length ls) < off ls (length ls - 1) + C → length ls' = length ls →
    (∀ j, off ls' j = off ls j + (if decide (length ls <= j) then 1 else 0)) → shape ls'.
  Proof using.
    intros [H1 H2] H0 Hl Ho. split; rewrite Hl; intros j; rewrite !Ho.
    - intros Hj. specialize (H1 j Hj). destruct (decide (S j = length ls)) as [E|].
      + rewrite E in *. replace (length ls - 1) with j in * by lia. repeat destruct (decide _); lia.
      + repeat destruct (decide _); lia.
    - intros Hj Hj'. specialize (H2 j Hj Hj'). repeat destruct (decide _); lia.
  Qed.
  Lemma shape_back_new ls ls' : shape ls → 0 < length ls → off ls (length ls) = off ls (length ls - 1) + C → length ls' = S (length ls) →
    (∀ j, off ls' j = off (ls ++ [[]]) j + (if decide (S (length ls) <= j) then 1 else 0)) → shape ls'.
  Proof using.
    pose proof C_pos. intros [H1 H2] Hpos H0 Hl Ho.
    assert (off (ls ++ [[]]) (S (length ls)) = off ls (length ls)) as HoS.
    { rewrite (off_S _ _ []) by (by rewrite list_lookup_middle). rewrite off_app1 by lia. cbn. lia. }
    split; rewrite Hl; intros j; rewrite !Ho.
    - intros Hj. destruct (decide (j = length ls)) as [->|].
      + rewrite HoS, off_app1 by lia. repeat destruct (decide _); lia.
      + rewrite !off_app1 by lia. specialize (H1 j ltac:(lia)). repeat destruct (decide _); lia.
    - intros Hj Hj'. rewrite !off_app1 by lia. destruct (decide (S j = length ls)) as [E|].
      + rewrite E. replace (length ls - 1) with j in H0 by lia. repeat destruct (decide _); lia.
      + rewrite (H2 j) by lia. repeat destruct (decide _); lia.
  Qed.

  Lemma insert_mid d l k x : dinv d l → 0 < k < length l →
    wp (let! sp := d_pos (Z.of_nat k) in
      let! u := seg_used in
      (if (sp.1 <? u - sp.1)%Z then move_front_insert zero sp.1 sp.2 x else move_back_insert zero sp.1 sp.2 x) ;;
      size_add 1 ;; expand_if_full)%go (λ _ d', dinv d' (take k l ++ x :: drop k l)) d.
  Proof using.
    intros (ps & ls & Hinv) Hk. pose proof (dinv_pos _ _ _ _ Hinv) as Hpos. destruct Hinv as [Hr Hs Hsh Hc Hsz Hg Hroom Hpl].
    pose proof (store_ok_len _ _ _ _ Hs) as Hlen.
    assert (ps ≠ []) as Hps. { intros ->. destruct ls; [|done]. cbn in Hc. subst l. cbn in Hk. lia. }
    destruct (Hpos Hps) as (Hz & Hlt & Hls). clear Hpos.
    destruct (d_pos_ok d ps ls k Hr Hs Hsh ltac:(rewrite Hc; lia)) as (i & p & a & Ed & Ha & Hp & Hki). wp_step Ed. cbn [fst snd].
    wp_step (seg_used_ok d ps Hr Hz Hps).
    pose proof (lookup_lt_Some _ _ _ Ha) as Hi. pose proof (off_S _ _ _ Ha) as Hoa. pose proof (store_ok_room _ _ _ _ _ _ Hs Ha) as Hac.
    assert (∃ p0 a0, ps !! 0 = Some p0 ∧ ls !! 0 = Some a0) as (p0 & a0 & Hp0 & Ha0).
    { destruct ps as [|p0 ?]; [done|]. destruct ls as [|a0 ?]; [done|]. by exists p0, a0. }
    pose proof (off_S _ _ _ Ha0) as Ho1. rewrite off_0, Nat.add_0_l in Ho1. pose proof (store_ok_room _ _ _ _ _ _ Hs Ha0) as Hr0.
    pose proof C_pos as HC. pose proof Hsh as [Hsh1 Hsh2].
    assert (∀ j, 0 < j → j <= i → off ls j = off ls (j - 1) + C ∨ j = 1) as Hint.
    { intros j Hj Hj'. destruct (decide (j = 1)); [by right|left]. pose proof (Hsh2 (j - 1) ltac:(lia)) as Hx. replace (S (j - 1)) with j in Hx by lia. apply Hx. lia. }
    destruct (Z.ltb_spec (Z.of_nat i) (Z.of_nat (length ps) - Z.of_nat i)) as [Hb|Hb].
    - apply wp_bind. unfold move_front_insert. wp_step (first_segment_ok d ps Hr). rewrite Hp0.
      wp_step (ask_ok s_full d ps ls 0 p0 a0 (bool_decide (length a0 = C)) Hs Hp0 Ha0 ltac:(intros; by apply rep_full)).
      case_bool_decide as Hfull.
      + (* a new front segment *)
        apply wp_bind. wp_step (expand_if_room d ps Hr Hz Hps Hlt). apply wp_bind.
        eapply wp_mono; [apply (grow_front_ok zero d ps ls Hr Hs Hlt)|]. cbv beta.
        intros r d1 (q & -> & Hr1 & Hs1 & Hp1 & Hn1 & Hz1). apply wp_ret.
        assert (∃ k1 q1, (if (Z.of_nat p =? 0)%Z then (Z.of_nat i, (Z.of_nat C - 1)%Z) else ((Z.of_nat i + 1)%Z, (Z.of_nat p - 1)%Z)) = (Z.of_nat k1, Z.of_nat q1) ∧
                  k1 < length ([] :: ls) ∧ q1 < C ∧ 0 < k1 ∧
                  off ([] :: ls) k1 + 1 + q1 `min` (off ([] :: ls) (S k1) - off ([] :: ls) k1 - 1) = k) as (k1 & q1 & -> & Hk1 & Hq1 & Hk1' & HK).
        { destruct (Z.eqb_spec (Z.of_nat p) 0).
          - destruct i as [|i]. { rewrite off_0 in Hki. lia. } exists (S i), (C - 1). split_and!; [f_equal; lia|cbn; lia|lia|lia|].
            rewrite !off_cons. cbn [length]. pose proof (Hint (S i) ltac:(lia) ltac:(lia)) as Hx. replace (S i - 1) with i in Hx by lia.
            assert (off ls (S i) = off ls i + C) by (destruct Hx as [|Hx]; [done|]; assert (i = 0) as -> by lia; rewrite off_0; lia). lia.
          - exists (S i), (p - 1). split_and!; [f_equal; lia|cbn; lia|lia|lia|]. rewrite !off_cons. cbn [length]. lia. }
        cbn [fst snd].
        eapply wp_mono; [apply (insert_front_part d1 (q :: ps) ([] :: ls) k1 q1 x Hr1 Hs1 Hk1 Hq1)|].
        { rewrite off_cons, off_0. cbn. lia. }
        { intros [|j] Hj Hj'; [lia|]. rewrite !off_cons. cbn in Hj'. specialize (Hsh1 j ltac:(lia)). lia. }
        cbv beta zeta. intros _ d2 (h2 & ls2 & -> & Hs2 & Hl2 & Hc2 & Ho2). rewrite decide_True in Hc2 by done. rewrite HK in Hc2.
        change (concat ([] :: ls)) with (concat ls) in Hc2. rewrite Hc in Hc2. rewrite <-Hc2.
        apply (finish_insert (wh d1 h2) (q :: ps) ls2); try done.
        * apply (shape_front_new ls); [done|lia|done|done].
        * by destruct ls2.
        * cbn [wh dq_size]. rewrite Hz1, Hsz, Hc2, insert_len. lia.
        * cbn [wh dq_segs]. rewrite Hn1. eapply geo_mono; [|done]. cbn. lia.
        * cbn [wh dq_pool]. eapply pool_lim_mono; [exact Hp1| |exact Hpl]. cbn. lia.
      + (* room in the first segment *)
        wp_go.
        assert (∃ k1 q1, (if (Z.of_nat p =? 0)%Z then ((Z.of_nat i - 1)%Z, (Z.of_nat C - 1)%Z)
                   else if negb (Z.of_nat i =? 0)%Z then (Z.of_nat i, (Z.of_nat p - 1)%Z) else (Z.of_nat i, Z.of_nat p)) = (Z.of_nat k1, Z.of_nat q1) ∧
                  k1 < length ls ∧ q1 < C ∧
                  off ls k1 + (if decide (0 < k1) then 1 else 0) + q1 `min` (off ls (S k1) - off ls k1 - (if decide (0 < k1) then 1 else 0)) = k) as (k1 & q1 & -> & Hk1 & Hq1 & HK).
        { destruct (Z.eqb_spec (Z.of_nat p) 0).
          - destruct i as [|i]. { rewrite off_0 in Hki. lia. } exists i, (C - 1). split_and!; [f_equal; lia|lia|lia|].
            pose proof (Hint (S i) ltac:(lia) ltac:(lia)) as Hx. replace (S i - 1) with i in Hx by lia.
            destruct (decide (0 < i)); [destruct Hx; lia|]. assert (i = 0) as -> by lia. rewrite off_0 in *. lia.
          - destruct (Z.eqb_spec (Z.of_nat i) 0); cbn [negb].
            + assert (i = 0) as -> by lia. exists 0, p. split_and!; [done|lia|lia|]. rewrite decide_False by lia. rewrite off_0 in *. lia.
            + exists i, (p - 1). split_and!; [f_equal; lia|lia|lia|]. rewrite decide_True by lia. lia. }
        cbn [fst snd].
        eapply wp_mono; [apply (insert_front_part d ps ls k1 q1 x Hr Hs Hk1 Hq1)|].
        { lia. }
        { intros j Hj Hj'. specialize (Hsh1 j ltac:(lia)). lia. }
        cbv beta zeta. intros _ d2 (h2 & ls2 & -> & Hs2 & Hl2 & Hc2 & Ho2). rewrite HK, Hc in Hc2. rewrite <-Hc2.
        apply (finish_insert (wh d h2) ps ls2); try done.
        * apply (shape_front_grow ls); try done. lia.
        * destruct ls2; [|done]. by destruct ls.
        * cbn [wh dq_size]. rewrite Hsz, Hc2, insert_len. lia.
    - apply wp_bind. unfold move_back_insert. wp_step (last_segment_ok d ps Hr).
      destruct ls as [|a1 ls' _] using rev_ind; [done|]. destruct ps as [|p1 ps' _] using rev_ind; [done|].
      rewrite !app_length in Hlen. cbn in Hlen. rewrite last_snoc.
      assert ((ps' ++ [p1]) !! length ps' = Some p1) as Hp1 by (by rewrite list_lookup_middle).
      assert ((ls' ++ [a1]) !! length ps' = Some a1) as Ha1 by (rewrite list_lookup_middle; [done|lia]).
      wp_step (ask_ok s_full d _ _ (length ps') p1 a1 (bool_decide (length a1 = C)) Hs Hp1 Ha1 ltac:(intros; by apply rep_full)).
      pose proof (off_S _ _ _ Ha1) as Hoa1. set (ls := ls' ++ [a1]) in *. set (ps := ps' ++ [p1]) in *.
      assert (length ls = S (length ps')) as Hls' by (unfold ls; rewrite app_length; cbn; lia).
      assert (length ps = S (length ps')) as Hps' by (unfold ps; rewrite app_length; cbn; lia).
      pose proof (store_ok_room _ _ _ _ _ _ Hs Ha1) as Hr1c.
      assert (0 < i) as Hi0 by lia.
      case_bool_decide as Hfull.
      + apply wp_bind. wp_step (expand_if_room d ps Hr Hz Hps Hlt). apply wp_bind.
        eapply wp_mono; [apply (grow_back_ok zero d ps ls Hr Hs Hlt)|]. cbv beta.
        intros r d1 (q & -> & Hr1 & Hs1 & Hq1 & Hn1 & Hz1). apply wp_ret.
        assert (length (ls ++ [[]]) = S (length ls)) as Hl1 by (rewrite app_length; cbn; lia).
        assert (off (ls ++ [[]]) (S (length ls)) = off ls (length ls)) as HoS.
        { rewrite (off_S _ _ []) by (by rewrite list_lookup_middle). rewrite off_app1 by lia. cbn. lia. }
        eapply wp_mono; [apply (insert_back_part d1 (ps ++ [q]) (ls ++ [[]]) i p x Hr1 Hs1)|]; try (rewrite ?Hz1; done); try lia.
        { rewrite Hl1. rewrite HoS. rewrite off_app1 by lia. replace (S (length ls) - 1) with (length ls) by lia. lia. }
        { intros j Hj. rewrite !off_app1 by lia. specialize (Hsh1 j ltac:(lia)). lia. }
        cbv beta zeta. intros _ d2 (h2 & ls2 & -> & Hs2 & Hl2 & Hc2 & Ho2). rewrite Hl1 in *. rewrite decide_True in Hc2 by lia.
        rewrite !off_app1 in Hc2 by lia.
        assert (p `min` (off ls (S i) - off ls i - 1) = p) as HK by lia.
        rewrite HK, <-Hki in Hc2. assert (concat (ls ++ [[]]) = l) as Hcl by (rewrite concat_app, Hc; cbn; by rewrite app_nil_r).
        rewrite Hcl in Hc2. rewrite <-Hc2.
        apply (finish_insert (wh d1 h2) (ps ++ [q]) ls2); try done.
        * apply (shape_back_new ls); try done; try lia. rewrite Hls'. replace (S (length ps') - 1) with (length ps') by lia. lia.
        * by destruct ls2.
        * cbn [wh dq_size]. rewrite Hz1, Hsz, Hc2, insert_len. lia.
        * cbn [wh dq_segs]. rewrite Hn1. eapply geo_mono; [|done]. rewrite app_length. cbn. lia.
        * cbn [wh dq_pool]. eapply pool_lim_mono; [exact Hq1| |exact Hpl]. rewrite app_length. cbn. lia.
      + wp_go.
        eapply wp_mono; [apply (insert_back_part d ps ls i p x Hr Hs Hz Hi)|]; try lia.
        { rewrite Hls'. replace (S (length ps') - 1) with (length ps') by lia. lia. }
        { intros j Hj. specialize (Hsh1 j ltac:(lia)). lia. }
        cbv beta zeta. intros _ d2 (h2 & ls2 & -> & Hs2 & Hl2 & Hc2 & Ho2).
        assert (p `min` (off ls (S i) - off ls i - (if decide (S i < length ls) then 1 else 0)) = p) as HK by (destruct (decide _); lia).
        rewrite HK, <-Hki, Hc in Hc2. rewrite <-Hc2.
        apply (finish_insert (wh d h2) ps ls2); try done.
        * apply (shape_back_grow ls); try done. rewrite Hls'. replace (S (length ps') - 1) with (length ps') by lia. lia.
        * by destruct ls2; [rewrite Hls' in Hl2|].
        * cbn [wh dq_size]. rewrite Hsz, Hc2, insert_len. lia.
  Qed.
  Lemma insert_dq d l i x : dinv d l →
    wp (dq_insert zero i x) (λ _ d', dinv d' (if bool_decide (0 <= i <= Z.of_nat (length l))%Z then take (Z.to_nat i) l ++ x :: drop (Z.to_nat i) l else l)) d.
  Proof using.
    intros Hd. assert (dq_size d = Z.of_nat (length l)) as Hsz by (by destruct Hd as (? & ? & [])). unfold dq_insert. wp_go. rewrite Hsz.
    destruct (Z.ltb_spec i 0), (Z.ltb_spec (Z.of_nat (length l)) i); cbn [orb]; try (apply wp_ret; by rewrite bool_decide_eq_false_2 by lia).
    rewrite bool_decide_eq_true_2 by lia. destruct (Z.eqb_spec i 0) as [->|].
    { by apply push_front_dq. }
    destruct (Z.eqb_spec i (Z.of_nat (length l))) as [->|].
    { rewrite Nat2Z.id, take_ge, drop_ge by lia. by apply push_back_dq. }
    replace i with (Z.of_nat (Z.to_nat i)) at 1 by lia. apply insert_mid; [done|lia].
  Qed.

  (** after items were removed; the size still has to be decremented *)
  Lemma dinv_dec d ps ls : ring d ps → store d ps ls → shape ls → dq_size d = (Z.of_nat (length (concat ls)) + 1)%Z →
    pow2 (length (dq_segs d)) → length (dq_segs d) <= 2 `max` (24 * S (length ps) / 10) →
    (length ps < length (dq_segs d) ∨ length (dq_segs d) = 0) → pool_lim (length (dq_pool d)) (S (length ps)) →
    wp (size_add (-1) ;; shrink_if_needed)%go (λ _ d', dinv d' (concat ls)) d.
  Proof using.
    intros Hr Hs Hsh Hsz Hp2 Hcap Hroom Hpl. wp_go. pose proof (store_ok_len _ _ _ _ Hs) as Hlen.
    set (d1 := MkDeque (dq_heap d) (dq_pool d) (dq_segs d) (dq_begin d) (dq_end d) (dq_size d + -1)).
    assert (seg_used d1 = Ok (Z.of_nat (length ps), d1)) as Hu.
    { destruct ps as [|p ps].
      - destruct ls; [|done]. apply seg_used_0. cbn. rewrite Hsz. cbn. lia.
      - apply (seg_used_ok d1 (p :: ps)); [done| |done]. cbn [d1 dq_size].
        pose proof (shape_nonempty ls Hsh ltac:(by destruct ls)). rewrite Hsz. destruct (concat ls); [done|]. cbn [length]. lia. }
    eapply wp_mono; [apply (shrink_ok d1 ps); done|]. cbv beta. cbn [d1 dq_heap dq_pool dq_segs dq_begin dq_end dq_size].
    intros _ d' (Hr' & Hroom' & Hg' & E1 & E2 & E3). exists ps, ls. split; try done.
    - by rewrite E1, E2.
    - rewrite E3, Hsz. lia.
    - by rewrite E2.
  Qed.
  Lemma pop_front_dq d x l : dinv d (x :: l) → wp dq_pop_front (λ y d', y = x ∧ dinv d' l) d.
  Proof using.
    intros (ps & ls & Hinv). pose proof (dinv_pos _ _ _ _ Hinv) as Hpos. destruct Hinv as [Hr Hs Hsh Hc Hsz Hg Hroom Hpl].
    pose proof (store_ok_len _ _ _ _ Hs) as Hlen. destruct ls as [|a ls]; [done|]. destruct ps as [|p ps]; [done|].
    destruct (Hpos ltac:(done)) as (Hz & Hlt & _). clear Hpos.
    destruct a as [|y a]. { destruct Hsh as [Hsh _]. specialize (Hsh 0 ltac:(cbn; lia)). rewrite (off_S _ 0 []), off_0 in Hsh by done. cbn in Hsh. lia. }
    cbn [concat app] in Hc. injection Hc as -> Hc.
    destruct (ring_front_pop _ _ _ _ _ Hr) as (b & Hb & Hbl & Hsb & Hr').
    unfold dq_pop_front. wp_go. destruct (Z.eqb_spec (dq_size d) 0); [done|].
    apply wp_bind. rewrite Hb. eapply wp_eq; [by apply seg_get_ok|]. apply wp_bind.
    eapply wp_mono; [apply (call_ok _ (λ y l', y = x ∧ l' = a) d _ _ 0 p (x :: a) Hs); [done|done|]|].
    { intros s Hrep. eapply wp_mono; [by apply pop_front_ok|]. cbv beta. intros ? ? [-> ?]. eauto. }
    cbv beta. intros ? d1 (l' & h1 & [-> ->] & -> & Hs1). change (<[0:=a]> ((x :: a) :: ls)) with (a :: ls) in Hs1.
    wp_step (ask_ok s_size (wh d h1) _ _ 0 p a (Z.of_nat (length a)) Hs1 ltac:(done) ltac:(done) ltac:(intros s Hrep; by apply rep_size in Hrep as [-> _])).
    assert (length (x :: l) = S (length (concat (a :: ls)))) as Hll by (cbn [concat]; by rewrite Hc).
    destruct (Z.eqb_spec (Z.of_nat (length a)) 0) as [He|He].
    - assert (a = []) as -> by (destruct a; [done|cbn in He; lia]). cbn [app] in Hc. apply wp_bind.
      apply wp_bind. eapply wp_mono; [apply (put_to_pool_ok (wh d h1) p (p :: ps) ([] :: ls) ps ls 0 (length (p :: ps)) Hs1); [done|done| |]|].
      { intros h pool. apply store_ok_pool. } { by apply (seg_used_ok (wh d h1) (p :: ps)). }
      cbv beta. cbn [wh dq_heap dq_pool dq_segs dq_begin dq_end dq_size]. intros _ d2 (Hs2 & E1 & E2 & E3 & E4 & Hp2).
      apply wp_bind. unfold seg_put. eapply wp_eq. { rewrite E1, upd_nat by done. reflexivity. }
      apply wp_bind. eapply wp_eq. { unfold d_next, d_len, dget, mbind_, mret_. cbn [dq_segs]. rewrite insert_length. by apply gomod_next. }
      eapply wp_eq; [reflexivity|]. cbn [dq_heap dq_pool dq_segs dq_begin dq_end dq_size].
      match goal with |- wp _ _ ?dd => set (d3 := dd) end.
      assert (wp (size_add (-1) ;; shrink_if_needed)%go (λ _ d', dinv d' (concat ls)) d3) as Hfin.
      { apply (dinv_dec d3 ps ls); unfold d3; cbn [dq_heap dq_pool dq_segs dq_begin dq_end dq_size]; rewrite ?insert_length, ?E3, ?E4; try done.
        - destruct Hsh as [H1 H2]. split; intros j.
          + intros Hj. specialize (H1 (S j) ltac:(cbn; lia)). rewrite !off_cons in H1. lia.
          + intros Hj Hj'. specialize (H2 (S j) ltac:(lia) ltac:(cbn; lia)). rewrite !off_cons in H2. lia.
        - rewrite Hsz, Hll. cbn [concat app]. lia.
        - apply Hg.
        - apply Hg.
        - left. cbn in Hlt. lia. }
      apply wp_Ok in Hfin as (? & d4 & E & Hd4). unfold mbind_ at 1 in E. 
      apply wp_bind. destruct (size_add (-1) d3) as [[? d5]| |] eqn:E5; try done. eapply wp_eq; [exact E5|].
      apply wp_bind. eapply wp_eq; [exact E|]. apply wp_ret. split; [done|]. by rewrite <-Hc.
    - wp_go. 
      assert (wp (size_add (-1) ;; shrink_if_needed)%go (λ _ d', dinv d' (concat (a :: ls))) (wh d h1)) as Hfin.
      { apply (dinv_dec (wh d h1) (p :: ps) (a :: ls)); cbn [wh dq_heap dq_pool dq_segs dq_begin dq_end dq_size]; try done.
        - apply (shape_cons (x :: a)); [done|by destruct a|]. by eapply (store_ok_room _ _ _ _ 0 a Hs1).
        - rewrite Hsz, Hll. lia.
        - apply Hg.
        - destruct Hg as [_ Hg]. etrans; [exact Hg|]. apply Nat.max_le_compat_l, Nat.div_le_mono; lia. }
      apply wp_Ok in Hfin as (? & d4 & E & Hd4). unfold mbind_ at 1 in E. 
      apply wp_bind. destruct (size_add (-1) (wh d h1)) as [[? d5]| |] eqn:E5; try done. eapply wp_eq; [exact E5|].
      apply wp_bind. eapply wp_eq; [exact E|]. apply wp_ret. split; [done|]. by rewrite <-Hc.
  Qed.
End ops.
