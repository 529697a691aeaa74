(** Deque operations, continued. *)
From Verif Require Import Base Wp DequeModel SegmentProofs DequeLists DequeProofs DequeOps.
Open Scope nat_scope.

Section ops.
  Context {T : Type} (zero : T).
  Implicit Types (d : deque T) (ls : list (list T)) (l : list T).
  Notation ring d ps := (ring_ok (dq_segs d) (dq_begin d) (dq_end d) ps).
  Notation store d ps ls := (store_ok (dq_heap d) (dq_pool d) ps ls).

  Lemma dinv_pos d ps ls l : dinv_at d ps ls l → ps ≠ [] → dq_size d ≠ 0%Z ∧ length ps < length (dq_segs d) ∧ ls ≠ [].
  Proof using.
    intros [Hr Hs Hsh Hc Hsz Hg Hroom Hpl] Hp. pose proof (store_ok_len _ _ _ _ Hs) as Hlen. pose proof (ring_len _ _ _ _ Hr).
    assert (ls ≠ []) as Hls by (intros ->; by destruct ps). split_and!; [|destruct ps; [done|cbn in *; lia]|done].
    pose proof (shape_nonempty _ Hsh Hls). rewrite Hsz, <-Hc. destruct (concat ls); [done|cbn; lia].
  Qed.
  Lemma shape_cons a b ls : shape (a :: ls) → b ≠ [] → length b <= C → shape (b :: ls).
  Proof using.
    intros [H1 H2] Hb Hl. assert (0 < length b) by (destruct b; [done|cbn; lia]). split.
    - intros [|j] Hj; [rewrite (off_S _ 0 b), off_0 by done; lia|]. specialize (H1 (S j) Hj). rewrite !off_cons in *. lia.
    - intros [|j] Hj Hj'; [lia|]. specialize (H2 (S j) Hj Hj'). rewrite !off_cons in *. lia.
  Qed.
  Lemma shape_push a ls b : shape (a :: ls) → length a = C → b ≠ [] → length b <= C → shape (b :: a :: ls).
  Proof using.
    intros [H1 H2] Ha Hb Hl. assert (0 < length b) by (destruct b; [done|cbn; lia]). split.
    - intros [|j] Hj; [rewrite (off_S _ 0 b), off_0 by done; lia|]. cbn in Hj. specialize (H1 j ltac:(cbn; lia)). rewrite !(off_cons b). lia.
    - intros [|j] Hj Hj'; [lia|]. rewrite !(off_cons b). destruct j as [|j].
      + rewrite (off_S _ 0 a), off_0 by done. lia.
      + cbn in Hj'. rewrite (H2 (S j)) by (cbn; lia). lia.
  Qed.
  Lemma shape_one (b : list T) : b ≠ [] → length b <= C → shape [b].
  Proof using.
    intros Hb Hl. assert (0 < length b) by (destruct b; [done|cbn; lia]). split; cbn [length]; intros j; [|lia].
    intros Hj. assert (j = 0) as -> by lia. rewrite (off_S _ 0 b), off_0 by done. lia.
  Qed.
  Lemma push_front_dq d l x : dinv d l → wp (dq_push_front zero x) (λ _ d', dinv d' (x :: l)) d.
  Proof using.
    intros (ps & ls & Hinv). pose proof (dinv_pos _ _ _ _ Hinv) as Hpos. destruct Hinv as [Hr Hs Hsh Hc Hsz Hg Hroom Hpl].
    pose proof (store_ok_len _ _ _ _ Hs) as Hlen. unfold dq_push_front.
    assert (wp (first_available zero) (λ s d', ∃ p ps' ls' a, s = Some p ∧ ring d' (p :: ps') ∧ store d' (p :: ps') (a :: ls') ∧
       length a < C ∧ concat (a :: ls') = l ∧ dq_size d' = dq_size d ∧ geo (length (dq_segs d')) (length (p :: ps')) ∧
       pool_lim (length (dq_pool d')) (S (length (p :: ps'))) ∧ (shape ((x :: a) :: ls'))) d) as Hla.
    { unfold first_available. wp_step (first_segment_ok d ps Hr).
      destruct ps as [|p ps'].
      - destruct ls; [|done]. cbn in Hc. subst l. change ([] !! 0) with (@None nat). wp_go. apply wp_bind.
        eapply wp_mono; [apply expand_if_full_0; done|]. cbv beta. intros _ d1 (Hr1 & Hn1 & Hg1 & E1 & E2 & E3).
        wp_step (first_segment_ok d1 [] Hr1). change ([] !! 0) with (@None nat). wp_go.
        eapply wp_mono; [apply (grow_front_ok zero d1 [] []); [done|by rewrite E1, E2|done]|]. cbv beta.
        intros r d2 (p & -> & Hr2 & Hs2 & Hp2 & Hn2 & Hz2). exists p, [], [], []. pose proof (@C_pos). split_and!; try done.
        + by rewrite Hz2.
        + rewrite Hn2. eapply geo_mono; [|done]. lia.
        + eapply pool_lim_mono; [exact Hp2|..]; [|by rewrite E2]. cbn. lia.
        + by apply shape_one.
      - destruct ls as [|a ls']; [done|]. destruct (Hpos ltac:(done)) as (Hz & Hlt & _).
        assert (Hp : (p :: ps') !! 0 = Some p) by done. assert (Ha : (a :: ls') !! 0 = Some a) by done.
        rewrite Hp.
        assert (Hfull : ask (Some p) s_full d = Ok (bool_decide (length a = C), d)).
        { apply (ask_ok s_full d _ _ 0 p a _ Hs Hp Ha). intros s Hrep. by apply rep_full. }
        pose proof (store_ok_room _ _ _ _ _ _ Hs Ha) as Hroom_a.
        apply wp_bind. apply wp_bind. eapply wp_eq; [exact Hfull|]. apply wp_ret. case_bool_decide as Hfa; cbn [negb].
        + wp_step (expand_if_room d _ Hr Hz ltac:(done) Hlt).
          wp_step (first_segment_ok d _ Hr). rewrite Hp. wp_step Hfull. rewrite ?bool_decide_eq_true_2 by done.
          eapply wp_mono; [apply (grow_front_ok zero d _ _ Hr Hs Hlt)|]. cbv beta.
          intros r d2 (q & -> & Hr2 & Hs2 & Hp2 & Hn2 & Hz2). exists q, (p :: ps'), (a :: ls'), []. pose proof (@C_pos). split_and!; try done.
          * rewrite Hn2. eapply geo_mono; [|done]. cbn. lia.
          * eapply pool_lim_mono; [exact Hp2| |exact Hpl]. cbn. lia.
          * by apply shape_push.
        + eapply wp_eq; [by apply (first_segment_ok d _ Hr)|]. rewrite Hp. exists p, ps', ls', a.
          split_and!; try done; [lia|]. apply (shape_cons a); [done|done|cbn; lia]. }
    apply wp_bind. eapply wp_mono; [exact Hla|]. cbv beta.
    intros r d1 (p & ps' & ls' & a & -> & Hr1 & Hs1 & Hla1 & Hc1 & Hz1 & Hg1 & Hp1 & Hsh1).
    apply wp_bind. eapply wp_mono; [apply (call_ok _ (λ _ l', l' = x :: a) d1 _ _ 0 p a Hs1)|]; [done|done| |].
    { intros s Hrep. eapply wp_mono; [by apply push_front_ok|]. cbv beta. eauto. }
    cbv beta. intros _ d2 (l' & h' & -> & -> & Hs2). change (<[0:=x :: a]> (a :: ls')) with ((x :: a) :: ls') in Hs2.
    assert (concat ((x :: a) :: ls') = x :: l) as Ec by (rewrite <-Hc1; done).
    rewrite <-Ec. apply (finish_insert (wh d1 h') (p :: ps') ((x :: a) :: ls')); try done.
    cbn [wh dq_size]. rewrite Hz1, Hsz, Ec. cbn [length]. lia.
  Qed.

  (** reading and writing *)
  Lemma at_dq d l i x : dinv d l → l !! i = Some x → dq_at (Z.of_nat i) d = Ok (x, d).
  Proof using.
    intros (ps & ls & [Hr Hs Hsh Hc Hsz Hg Hroom Hpl]) Hx. pose proof (lookup_lt_Some _ _ _ Hx) as Hi.
    unfold dq_at, dget, mbind_. rewrite Hsz.
    destruct (Z.ltb_spec (Z.of_nat i) 0), (Z.leb_spec (Z.of_nat (length l)) (Z.of_nat i)); cbn [orb]; try lia.
    destruct (d_pos_ok d ps ls i Hr Hs Hsh ltac:(by rewrite Hc)) as (k & p & a & -> & Ha & Hp & Hk). cbn [fst snd].
    pose proof (store_ok_len _ _ _ _ Hs) as Hlen.
    destruct (lookup_lt_is_Some_2 ps k) as [q Hq]. { rewrite Hlen. by eapply lookup_lt_Some. }
    rewrite (segment_at_ok d ps k q Hr Hq). apply (call_read _ d ps ls k q a x Hs Hq Ha).
    intros s Hrep. apply (at_ok s a p x Hrep). rewrite <-(concat_lookup ls k a p Ha Hp), <-Hk, Hc. done.
  Qed.
  Lemma at_dq_panic d l i : dinv d l → ¬ (0 <= i < Z.of_nat (length l))%Z → dq_at i d = Panic.
  Proof using.
    intros (ps & ls & [Hr Hs Hsh Hc Hsz Hg Hroom Hpl]) Hi. unfold dq_at, dget, mbind_. rewrite Hsz.
    destruct (Z.ltb_spec i 0), (Z.leb_spec (Z.of_nat (length l)) i); cbn [orb]; try lia; done.
  Qed.
  Lemma set_dq d l i x : dinv d l → i < length l → wp (dq_set (Z.of_nat i) x) (λ b d', b = true ∧ dinv d' (<[i := x]> l)) d.
  Proof using.
    intros (ps & ls & [Hr Hs Hsh Hc Hsz Hg Hroom Hpl]) Hi.
    unfold dq_set. wp_go. rewrite Hsz.
    destruct (Z.ltb_spec (Z.of_nat i) 0), (Z.leb_spec (Z.of_nat (length l)) (Z.of_nat i)); cbn [orb]; try lia.
    destruct (d_pos_ok d ps ls i Hr Hs Hsh ltac:(by rewrite Hc)) as (k & p & a & Ed & Ha & Hp & Hk). wp_step Ed. cbn [fst snd].
    pose proof (store_ok_len _ _ _ _ Hs) as Hlen.
    destruct (lookup_lt_is_Some_2 ps k) as [q Hq]. { rewrite Hlen. by eapply lookup_lt_Some. }
    wp_step (segment_at_ok d ps k q Hr Hq). apply wp_bind.
    eapply wp_mono; [apply (call_ok _ (λ _ l', l' = <[p := x]> a) d ps ls k q a Hs Hq Ha)|].
    { intros s Hrep. eapply wp_mono; [by apply set_ok|]. cbv beta. eauto. }
    cbv beta. intros _ d' (l' & h' & -> & -> & Hs'). apply wp_ret. split; [done|].
    exists ps, (<[k := <[p := x]> a]> ls). split; cbn [wh dq_heap dq_pool dq_segs dq_begin dq_end dq_size]; try done.
    - assert (∀ j, off (<[k := <[p := x]> a]> ls) j = off ls j) as Ho.
      { intros j. pose proof (off_insert ls k a (<[p := x]> a) j Ha) as Ho. rewrite insert_length in Ho. lia. }
      destruct Hsh as [H1 H2]. split; rewrite insert_length; intros j; rewrite !Ho; [apply H1|apply H2].
    - rewrite (concat_upd ls k a p x Ha Hp). by rewrite <-Hk, Hc.
    - by rewrite insert_length.
  Qed.
  Lemma set_dq_out d l i x : dinv d l → ¬ (0 <= i < Z.of_nat (length l))%Z → dq_set i x d = Ok (false, d).
  Proof using.
    intros (ps & ls & [Hr Hs Hsh Hc Hsz Hg Hroom Hpl]) Hi. unfold dq_set, dget, mbind_. rewrite Hsz.
    destruct (Z.ltb_spec i 0), (Z.leb_spec (Z.of_nat (length l)) i); cbn [orb]; try lia; done.
  Qed.
  Lemma front_dq d l : dinv d l → dq_front d = match head l with Some x => Ok (x, d) | None => Panic end.
  Proof using.
    intros (ps & ls & [Hr Hs Hsh Hc Hsz Hg Hroom Hpl]). unfold dq_front, mbind_. rewrite (first_segment_ok d ps Hr).
    pose proof (store_ok_len _ _ _ _ Hs) as Hlen. destruct ls as [|a ls].
    - destruct ps; [|done]. cbn in Hc. by subst l.
    - destruct ps as [|p ps]; [done|]. change ((p :: ps) !! 0) with (Some p).
      destruct a as [|x a]. { destruct Hsh as [Hsh _]. specialize (Hsh 0 ltac:(cbn; lia)). rewrite (off_S _ 0 []), off_0 in Hsh by done. cbn in Hsh. lia. }
      rewrite <-Hc. cbn [concat app head]. apply (call_read _ d _ _ 0 p (x :: a) x Hs); [done|done|].
      intros s Hrep. by apply (at_ok s (x :: a) 0 x Hrep).
  Qed.
  Lemma back_dq d l : dinv d l → dq_back d = match last l with Some x => Ok (x, d) | None => Panic end.
  Proof using.
    intros (ps & ls & [Hr Hs Hsh Hc Hsz Hg Hroom Hpl]). unfold dq_back, mbind_. rewrite (last_segment_ok d ps Hr).
    pose proof (store_ok_len _ _ _ _ Hs) as Hlen. destruct ls as [|a ls _] using rev_ind.
    - destruct ps; [|done]. cbn in Hc. by subst l.
    - destruct ps as [|p ps _] using rev_ind; [rewrite app_length in Hlen; cbn in Hlen; lia|]. rewrite last_snoc. rewrite !app_length in Hlen. cbn in Hlen.
      assert ((ls ++ [a]) !! length ps = Some a) as Ha by (rewrite list_lookup_middle; [done|lia]).
      destruct a as [|x a _] using rev_ind.
      { destruct Hsh as [Hsh _]. specialize (Hsh (length ps) ltac:(rewrite app_length; cbn; lia)). rewrite (off_S _ _ _ Ha) in Hsh. cbn in Hsh. lia. }
      rewrite <-Hc. rewrite concat_app. cbn [concat]. rewrite app_nil_r, app_assoc, last_snoc.
      apply (call_read _ d _ _ (length ps) p (a ++ [x]) x Hs); [by rewrite list_lookup_middle|done|].
      intros s Hrep. unfold s_back, mbind_, sget. pose proof (rep_size _ _ Hrep) as [Hsz' _]. unfold s_size in Hsz'. rewrite Hsz'.
      rewrite app_length. cbn [length]. replace (Z.of_nat (length a + 1) - 1)%Z with (Z.of_nat (length a)) by lia.
      apply (at_ok s (a ++ [x]) (length a) x Hrep). by rewrite list_lookup_middle.
  Qed.

  (** inserting in the middle *)
  Lemma insert_front_part d ps ls k p x : ring d ps → store d ps ls → k < length ls → p < C →
    off ls 1 < C → (∀ j, 0 < j → j < length ls → off ls j < off ls (S j)) →
    wp (for_up (Z.to_nat (Z.of_nat k)) 0 pull_front ;; let! s := segment_at (Z.of_nat k) in call s (s_insert (Z.of_nat p) x))%go
      (λ _ d', ∃ h' ls', d' = wh d h' ∧ store_ok h' (dq_pool d) ps ls' ∧ length ls' = length ls ∧
        (let e := if decide (0 < k) then 1 else 0 in
         let K := off ls k + e + p `min` (off ls (S k) - off ls k - e) in
         concat ls' = take K (concat ls) ++ x :: drop K (concat ls)) ∧
        ∀ j, off ls' j = off ls j + (if decide (0 < j) then 1 else 0)) d.
  Proof using.
    intros Hr Hs Hk Hp H0 Hne. rewrite Nat2Z.id. apply wp_bind.
    eapply wp_mono; [apply (pull_front_loop k d ps ls 0 Hr Hs ltac:(lia) ltac:(rewrite off_0; lia) ltac:(intros; apply Hne; lia))|].
    cbv beta. cbn [plus]. intros _ d1 (h1 & ls1 & -> & Hs1 & Hc1 & Hl1 & Ho1).
    destruct (lookup_off_bounds ls1 k) as (a & Ha & La & Oa); [lia|].
    assert (length a < C) as Hac.
    { rewrite !Ho1 in Oa. destruct (lookup_off_bounds ls k) as (b & Hb & Lb & Ob); [lia|]. pose proof (store_ok_room _ _ _ _ _ _ Hs Hb).
      pose proof (off_0 ls). pose proof (Hne k). destruct (decide (k = 0)) as [E|]; [rewrite E in *|]; repeat destruct (decide _); lia. }
    eapply wp_mono; [apply (seg_insert_ok (wh d h1) ps ls1 k p a x); done|]. cbv beta zeta.
    intros _ d2 (h2 & ls2 & -> & Hs2 & Hl2 & Hc2 & Ho2). exists h2, ls2. split_and!; try done; [lia| |].
    - rewrite Hc2, Hc1. rewrite La. rewrite !Ho1.
      replace (off ls k + (if decide (0 < k ≤ k) then 1 else 0) + p `min` (off ls (S k) + (if decide (0 < S k ≤ k) then 1 else 0) - (off ls k + (if decide (0 < k ≤ k) then 1 else 0))))
        with (off ls k + (if decide (0 < k) then 1 else 0) + p `min` (off ls (S k) - off ls k - (if decide (0 < k) then 1 else 0))); [done|].
      repeat destruct (decide _); lia.
    - intros j. rewrite Ho2, Ho1. repeat destruct (decide _); lia.
  Qed.
  Lemma insert_back_part d ps ls k p x : ring d ps → store d ps ls → dq_size d ≠ 0%Z → k < length ls → p < C →
    off ls (length ls) < off ls (length ls - 1) + C → (∀ j, k <= j < length ls - 1 → off ls j < off ls (S j)) →
    wp (let! u := seg_used in for_down (Z.to_nat (u - 1 - Z.of_nat k)) (u - 1)%Z pull_back ;;
        let! s := segment_at (Z.of_nat k) in call s (s_insert (Z.of_nat p) x))%go
      (λ _ d', ∃ h' ls', d' = wh d h' ∧ store_ok h' (dq_pool d) ps ls' ∧ length ls' = length ls ∧
        (let e := if decide (S k < length ls) then 1 else 0 in
         let K := off ls k + p `min` (off ls (S k) - off ls k - e) in
         concat ls' = take K (concat ls) ++ x :: drop K (concat ls)) ∧
        ∀ j, off ls' j = off ls j + (if decide (length ls <= j) then 1 else 0)) d.
  Proof using.
    intros Hr Hs Hz Hk Hp H0 Hne. pose proof (store_ok_len _ _ _ _ Hs) as Hlen.
    wp_step (seg_used_ok d ps Hr Hz ltac:(intros ->; cbn in Hlen; lia)).
    replace (Z.to_nat (Z.of_nat (length ps) - 1 - Z.of_nat k)) with (length ls - 1 - k) by lia.
    replace (Z.of_nat (length ps) - 1)%Z with (Z.of_nat (length ls - 1)) by lia. apply wp_bind.
    eapply wp_mono; [apply (pull_back_loop (length ls - 1 - k) d ps ls (length ls - 1)); try done; try lia|].
    { intros _. replace (S (length ls - 1)) with (length ls) by lia. done. } { intros j Hj. apply Hne. lia. }
    cbv beta. intros _ d1 (h1 & ls1 & -> & Hs1 & Hc1 & Hl1 & Ho1).
    destruct (lookup_off_bounds ls1 k) as (a & Ha & La & Oa); [lia|].
    destruct (lookup_off_bounds ls k) as (b & Hb & Lb & Ob); [lia|]. pose proof (store_ok_room _ _ _ _ _ _ Hs Hb).
    pose proof (Ho1 k) as Hok. pose proof (Ho1 (S k)) as HoSk.
    assert (length a < C) as Hac.
    { destruct (decide (S k = length ls)) as [E|].
      - replace (length ls - 1) with k in * by lia. rewrite <-E in *. repeat destruct (decide _); lia.
      - pose proof (Hne k ltac:(lia)). repeat destruct (decide _); lia. }
    eapply wp_mono; [apply (seg_insert_ok (wh d h1) ps ls1 k p a x); done|]. cbv beta zeta.
    intros _ d2 (h2 & ls2 & -> & Hs2 & Hl2 & Hc2 & Ho2). exists h2, ls2. split_and!; try done; [lia| |].
    - rewrite Hc2, Hc1. rewrite La.
      replace (off ls k + p `min` (off ls (S k) - off ls k - (if decide (S k < length ls) then 1 else 0)))
        with (off ls1 k + p `min` (off ls1 (S k) - off ls1 k)); [done|].
      repeat destruct (decide _); lia.
    - intros j. rewrite Ho2. pose proof (Ho1 j).
      destruct (decide (length ls <= j)).
      + rewrite (off_all ls j) by lia. rewrite (off_all ls1 j) by lia. rewrite Hc1. repeat destruct (decide _); lia.
      + repeat destruct (decide _); lia.
  Qed.
End ops.
