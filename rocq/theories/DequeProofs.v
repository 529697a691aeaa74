(** The deque's ring of segments. *)
From Verif Require Import Base Wp DequeModel SegmentProofs DequeLists.
Open Scope nat_scope.

(** the slots segs, from begin to end, hold exactly the addresses ps; other slots are nil *)
Definition ring_ok (segs : list (option nat)) (bz ez : Z) (ps : list nat) : Prop :=
  (segs = [] ∧ ps = [] ∧ bz = 0%Z ∧ ez = 0%Z) ∨
  ∃ b, b < length segs ∧ length ps <= length segs ∧ bz = Z.of_nat b ∧
    ez = Z.of_nat (ri (length segs) b (length ps)) ∧
    ∀ i, i < length segs → segs !! ri (length segs) b i = Some (ps !! i).

Section store.
  Context {T : Type} (zero : T).
  Implicit Types (h : list (segment T)) (ls : list (list T)).
  Definition holds h (p : nat) (l : list T) : Prop := ∃ s, h !! p = Some s ∧ rep s l.
  (** addresses ps hold the items ls, pool addresses hold nothing, no address occurs twice *)
  Record store_ok h (pool ps : list nat) ls : Prop := {
    so_items : Forall2 (holds h) ps ls;
    so_pool : Forall (λ p, holds h p []) pool;
    so_nodup : NoDup (ps ++ pool);
  }.
  Lemma holds_insert h a s p l : p ≠ a → holds h p l → holds (<[a := s]> h) p l.
  Proof. intros Hne (s' & Hs & Hr). exists s'. split; [|done]. by rewrite list_lookup_insert_ne. Qed.
  Lemma store_ok_len h pool ps ls : store_ok h pool ps ls → length ps = length ls.
  Proof. intros [H _ _]. by eapply Forall2_length. Qed.
  Lemma store_ok_get h pool ps ls i p l : store_ok h pool ps ls → ps !! i = Some p → ls !! i = Some l → holds h p l.
  Proof. intros [H _ _] Hp Hl. by eapply Forall2_lookup_lr. Qed.
  Lemma store_ok_set h pool ps ls i p s l : store_ok h pool ps ls → ps !! i = Some p → rep s l →
    store_ok (<[p := s]> h) pool ps (<[i := l]> ls).
  Proof.
    intros [H Hp Hn] Hi Hr. destruct (Forall2_lookup_l _ _ _ _ _ H Hi) as (l0 & Hl0 & s0 & Hs0 & _).
    apply NoDup_app in Hn as (N1 & N2 & N3). split.
    - apply Forall2_lookup. intros k. destruct (decide (k = i)) as [->|Hk].
      + rewrite Hi, list_lookup_insert by (by eapply lookup_lt_Some). constructor. exists s. split; [|done].
        rewrite list_lookup_insert; [done|by eapply lookup_lt_Some].
      + rewrite list_lookup_insert_ne by done. destruct (ps !! k) as [q|] eqn:Eq.
        * destruct (Forall2_lookup_l _ _ _ _ _ H Eq) as (lk & Hlk & Hh). rewrite Hlk. constructor.
          apply holds_insert; [|done]. intros ->. apply Hk. eauto using NoDup_lookup.
        * rewrite (Forall2_lookup _ ps ls) in H. specialize (H k). rewrite Eq in H. inversion H. constructor.
    - rewrite Forall_forall in *. intros q Hq. apply holds_insert; [|by apply Hp]. intros ->.
      apply (N2 p); [by eapply elem_of_list_lookup_2|done].
    - by apply NoDup_app.
  Qed.
  Lemma store_ok_room h pool ps ls i l : store_ok h pool ps ls → ls !! i = Some l → length l <= C.
  Proof.
    intros [H _ _] Hl. destruct (Forall2_lookup_r _ _ _ _ _ H Hl) as (p & _ & s & _ & Hr). by apply rep_size in Hr as [_ ?].
  Qed.
  (** pool.get *)
  Lemma store_ok_fresh_front h pool ps ls : store_ok h pool ps ls →
    (pool = [] → store_ok (h ++ [new_segment zero]) [] (length h :: ps) ([] :: ls)) ∧
    (∀ p q, pool = p ++ [q] → store_ok h p (q :: ps) ([] :: ls)).
  Proof.
    intros [H Hp Hn]. split.
    - intros ->. rewrite app_nil_r in Hn. split.
      + constructor.
        * exists (new_segment zero). split; [by rewrite list_lookup_middle|apply rep_new].
        * eapply Forall2_impl; [done|]. intros p l (s & Hs & Hr). exists s. split; [|done]. by apply lookup_app_l_Some.
      + constructor.
      + rewrite app_nil_r. constructor; [|done]. intros Hin. apply elem_of_list_lookup in Hin as [i Hi].
        destruct (Forall2_lookup_l _ _ _ _ _ H Hi) as (l & _ & s & Hs & _). apply lookup_lt_Some in Hs. lia.
    - intros p q ->. apply Forall_app in Hp as [Hp1 Hp2]. apply Forall_cons in Hp2 as [Hq _]. split; [by constructor|done|].
      cbn. eapply NoDup_Permutation_proper; [|exact Hn]. by rewrite app_assoc, (Permutation_app_comm (ps ++ p)).
  Qed.
  Lemma store_ok_perm_back h pool p ps ls : store_ok h pool (p :: ps) ([] :: ls) → store_ok h pool (ps ++ [p]) (ls ++ [[]]).
  Proof.
    intros [H Hp Hn]. apply Forall2_cons in H as [H1 H2]. split; [apply Forall2_app; [done|by constructor]|done|].
    eapply NoDup_Permutation_proper; [|exact Hn]. cbn. rewrite <-app_assoc. symmetry. apply (Permutation_middle ps pool p).
  Qed.
  (** a segment goes to the pool *)
  Lemma store_ok_pool h pool p ps ls : store_ok h pool (p :: ps) ([] :: ls) → store_ok h (pool ++ [p]) ps ls.
  Proof.
    intros [H Hp Hn]. apply Forall2_cons in H as [H1 H2]. split; [done|apply Forall_app; split; [done|by constructor]|].
    eapply NoDup_Permutation_proper; [|exact Hn]. cbn. rewrite app_assoc. symmetry. apply (Permutation_cons_append (ps ++ pool) p).
  Qed.
  Lemma store_ok_pool_back h pool p ps ls : store_ok h pool (ps ++ [p]) (ls ++ [[]]) → store_ok h (pool ++ [p]) ps ls.
  Proof.
    intros [H Hp Hn]. apply Forall2_app_inv in H as [H1 H2]. 2:{ apply Forall2_length in H. rewrite !app_length in H. cbn in H. lia. }
    apply Forall2_cons in H2 as [H2 _]. split; [done|apply Forall_app; split; [done|by constructor]|].
    eapply NoDup_Permutation_proper; [|exact Hn]. by rewrite <-app_assoc, (Permutation_app_comm pool).
  Qed.
  Lemma store_ok_pool_take h pool ps ls n : store_ok h pool ps ls → store_ok h (take n pool) ps ls.
  Proof.
    intros [H Hp Hn]. split; [done| by apply Forall_take|]. rewrite <-(take_drop n pool), app_assoc in Hn. by apply NoDup_app in Hn as [? _].
  Qed.
End store.

Section ring.
  Implicit Types (segs : list (option nat)) (ps : list nat).
  Lemma ring_front_push segs bz ez ps p : ring_ok segs bz ez ps → length ps < length segs →
    ∃ b, bz = Z.of_nat b ∧ b < length segs ∧
      ring_ok (<[pv (length segs) b := Some p]> segs) (Z.of_nat (pv (length segs) b)) ez (p :: ps).
  Proof.
    intros [(-> & -> & _)|(b & Hb & Hl & -> & -> & Hi)] Hlt; [cbn in Hlt; lia|]. exists b. split_and!; [done|done|]. right.
    exists (pv (length segs) b). rewrite insert_length. split_and!; [ring_lia|done|done|f_equal; cbn; ring_lia|].
    intros [|i] H.
    - replace (ri (length segs) (pv (length segs) b) 0) with (pv (length segs) b) by ring_lia. rewrite list_lookup_insert by ring_lia. done.
    - replace (ri (length segs) (pv (length segs) b) (S i)) with (ri (length segs) b i) by ring_lia.
      rewrite list_lookup_insert_ne by ring_lia. rewrite Hi by lia. done.
  Qed.
  Lemma ring_back_push segs bz ez ps p : ring_ok segs bz ez ps → length ps < length segs →
    ∃ e, ez = Z.of_nat e ∧ e < length segs ∧
      ring_ok (<[e := Some p]> segs) bz (Z.of_nat (nx (length segs) e)) (ps ++ [p]).
  Proof.
    intros [(-> & -> & _)|(b & Hb & Hl & -> & -> & Hi)] Hlt; [cbn in Hlt; lia|]. eexists. split_and!; [done|ring_lia|]. right.
    exists b. rewrite insert_length, app_length. cbn. split_and!; [done|lia|done|f_equal; ring_lia|].
    intros i H. destruct (decide (i = length ps)) as [->|].
    - rewrite list_lookup_insert by ring_lia. by rewrite list_lookup_middle.
    - rewrite list_lookup_insert_ne by (intros Hq; apply ri_inj in Hq; lia). rewrite Hi by lia. f_equal.
      destruct (decide (i < length ps)); [by rewrite lookup_app_l|]. rewrite !lookup_ge_None_2; [done|rewrite app_length; cbn; lia|lia].
  Qed.
  Lemma ring_front_pop segs bz ez p ps : ring_ok segs bz ez (p :: ps) →
    ∃ b, bz = Z.of_nat b ∧ b < length segs ∧ segs !! b = Some (Some p) ∧
      ring_ok (<[b := None]> segs) (Z.of_nat (nx (length segs) b)) ez ps.
  Proof.
    intros [(-> & Hx & _)|(b & Hb & Hl & -> & -> & Hi)]; [done|]. cbn in Hl. exists b. split_and!; [done|done| |].
    { specialize (Hi 0 ltac:(lia)). replace (ri (length segs) b 0) with b in Hi by ring_lia. done. }
    right. exists (nx (length segs) b). rewrite insert_length. split_and!; [ring_lia|lia|done|f_equal; cbn; ring_lia|].
    intros i H. destruct (decide (i = length segs - 1)) as [->|].
    - replace (ri (length segs) (nx (length segs) b) (length segs - 1)) with b by ring_lia.
      rewrite list_lookup_insert by done. by rewrite lookup_ge_None_2 by lia.
    - replace (ri (length segs) (nx (length segs) b) i) with (ri (length segs) b (S i)) by ring_lia.
      rewrite list_lookup_insert_ne by ring_lia. by rewrite Hi by lia.
  Qed.
  Lemma ring_back_pop segs bz ez ps p : ring_ok segs bz ez (ps ++ [p]) →
    ∃ e, ez = Z.of_nat e ∧ e < length segs ∧ pv (length segs) e < length segs ∧ segs !! pv (length segs) e = Some (Some p) ∧
      ring_ok (<[pv (length segs) e := None]> segs) bz (Z.of_nat (pv (length segs) e)) ps.
  Proof.
    intros [(-> & Hx & _)|(b & Hb & Hl & -> & -> & Hi)]; [by destruct ps|]. rewrite app_length in *. cbn in *. eexists.
    split; [done|]. split; [ring_lia|]. split; [ring_lia|].
    replace (pv (length segs) (ri (length segs) b (length ps + 1))) with (ri (length segs) b (length ps)) by ring_lia. split.
    - rewrite Hi by lia. by rewrite list_lookup_middle.
    - right. exists b. rewrite insert_length. split_and!; [done|lia|done|done|].
      intros i H. destruct (decide (i = length ps)) as [->|].
      + rewrite list_lookup_insert by ring_lia. by rewrite lookup_ge_None_2 by lia.
      + rewrite list_lookup_insert_ne by (intros Hq; apply ri_inj in Hq; lia). rewrite Hi by lia. f_equal.
        destruct (decide (i < length ps)); [by rewrite lookup_app_l|]. rewrite !lookup_ge_None_2; [done|lia|rewrite app_length; cbn; lia].
  Qed.
  Lemma ring_len segs bz ez ps : ring_ok segs bz ez ps → length ps <= length segs.
  Proof. intros [(-> & -> & _)|(b & ? & ? & _)]; [done|done]. Qed.
End ring.

Section ops.
  Context {T : Type} (zero : T).
  Implicit Types (d : deque T) (ls : list (list T)).
  Notation ring d ps := (ring_ok (dq_segs d) (dq_begin d) (dq_end d) ps).
  Notation store d ps ls := (store_ok (dq_heap d) (dq_pool d) ps ls).
  Definition wh d h : deque T := MkDeque h (dq_pool d) (dq_segs d) (dq_begin d) (dq_end d) (dq_size d).

  Lemma call_ok {A} (m : M (segment T) A) (Φ : A → list T → Prop) d ps ls i p l :
    store d ps ls → ps !! i = Some p → ls !! i = Some l →
    (∀ s, rep s l → wp m (λ r s', ∃ l', Φ r l' ∧ rep s' l') s) →
    wp (call (Some p) m) (λ r d', ∃ l' h', Φ r l' ∧ d' = wh d h' ∧ store_ok h' (dq_pool d) ps (<[i := l']> ls)) d.
  Proof using.
    intros Hs Hp Hl Hm. destruct (store_ok_get _ _ _ _ _ _ _ Hs Hp Hl) as (s & Hh & Hr).
    specialize (Hm s Hr). apply wp_Ok in Hm as (r & s' & E & l' & HΦ & Hr').
    eapply wp_eq. { unfold call. rewrite Hh, E. reflexivity. }
    exists l', (<[p := s']> (dq_heap d)). split_and!; [done|done|]. by eapply store_ok_set.
  Qed.
  (** reading calls leave everything unchanged *)
  Lemma call_read {A} (m : M (segment T) A) d ps ls i p l r :
    store d ps ls → ps !! i = Some p → ls !! i = Some l → (∀ s, rep s l → m s = Ok (r, s)) →
    call (Some p) m d = Ok (r, d).
  Proof using.
    intros Hs Hp Hl Hm. destruct (store_ok_get _ _ _ _ _ _ _ Hs Hp Hl) as (s & Hh & Hr).
    unfold call. rewrite Hh, (Hm s Hr). rewrite list_insert_id by done. by destruct d.
  Qed.
  Lemma ask_ok {A} (f : segment T → A) d ps ls i p l r :
    store d ps ls → ps !! i = Some p → ls !! i = Some l → (∀ s, rep s l → f s = r) → ask (Some p) f d = Ok (r, d).
  Proof using.
    intros Hs Hp Hl Hf. destruct (store_ok_get _ _ _ _ _ _ _ Hs Hp Hl) as (s & Hh & Hr). unfold ask. rewrite Hh. by rewrite (Hf s Hr).
  Qed.
  Lemma seg_get_ok d k p : dq_segs d !! k = Some p → seg_get (Z.of_nat k) d = Ok (p, d).
  Proof using. intros H. unfold seg_get. by rewrite (idx_nat _ _ _ H). Qed.
  Lemma segment_at_ok d ps i p : ring d ps → ps !! i = Some p → segment_at (Z.of_nat i) d = Ok (Some p, d).
  Proof using.
    intros [(_ & -> & _)|(b & Hb & Hl & Hbz & _ & Hi)] Hp; [done|]. apply lookup_lt_Some in Hp as Hlt.
    unfold segment_at, d_len, dget, mbind_, mret_. rewrite Hbz.
    rewrite (gomod_ri (length (dq_segs d)) b i) by lia. apply seg_get_ok. rewrite Hi by lia. by rewrite Hp.
  Qed.
  Lemma first_segment_ok d ps : ring d ps → first_segment d = Ok (ps !! 0, d).
  Proof using.
    unfold first_segment, d_len, dget, mbind_, mret_.
    intros [(E & -> & _)|(b & Hb & Hl & Hbz & _ & Hi)]; [by rewrite E|].
    destruct (Z.eqb_spec (Z.of_nat (length (dq_segs d))) 0); [lia|]. rewrite Hbz. apply seg_get_ok.
    specialize (Hi 0 ltac:(lia)). replace (ri (length (dq_segs d)) b 0) with b in Hi by ring_lia. done.
  Qed.
  Lemma last_segment_ok d ps : ring d ps → last_segment d = Ok (last ps, d).
  Proof using.
    unfold last_segment, d_pre, d_len, dget, mbind_, mret_.
    intros [(E & -> & _)|(b & Hb & Hl & Hbz & He & Hi)]; [by rewrite E|].
    destruct (Z.eqb_spec (Z.of_nat (length (dq_segs d))) 0); [lia|]. rewrite He. rewrite gomod_pre by ring_lia.
    apply seg_get_ok. rewrite last_lookup. destruct ps as [|p ps].
    - cbn. replace (pv _ _) with (ri (length (dq_segs d)) b (length (dq_segs d) - 1)) by ring_lia. rewrite Hi by lia. done.
    - replace (pv _ _) with (ri (length (dq_segs d)) b (pred (length (p :: ps)))) by (cbn in *; ring_lia). by rewrite Hi by (cbn in *; lia).
  Qed.
  Lemma seg_used_ok d ps : ring d ps → dq_size d ≠ 0%Z → ps ≠ [] → seg_used d = Ok (Z.of_nat (length ps), d).
  Proof using.
    unfold seg_used, dget, mbind_, mret_. intros [(E & -> & _)|(b & Hb & Hl & Hbz & He & Hi)] Hs Hp; [done|].
    destruct (Z.eqb_spec (dq_size d) 0); [done|]. do 2 f_equal. rewrite Hbz, He. destruct ps; [done|]. cbn [length] in *.
    destruct (Z.ltb_spec (Z.of_nat b) (Z.of_nat (ri (length (dq_segs d)) b (S (length ps))))); ring_lia.
  Qed.
  Lemma seg_used_0 d : dq_size d = 0%Z → seg_used d = Ok (0%Z, d).
  Proof using. unfold seg_used, dget, mbind_, mret_. by intros ->. Qed.

  Lemma copy_segs_ok d m n k : ∀ i fresh, i + n = k → k <= length fresh →
    ∀ ps b, dq_begin d = Z.of_nat b → b < m → k <= m → m <= length (dq_segs d) → length ps = k →
    (∀ j, j < k → dq_segs d !! ri m b j = Some (ps !! j)) →
    (∀ j, j < length fresh → fresh !! j = Some (if decide (j < i) then ps !! j else None)) →
    copy_segs n (Z.of_nat i) (Z.of_nat m) fresh d =
      Ok ((Some <$> ps) ++ replicate (length fresh - k) None, d).
  Proof using.
    induction n as [|n IH]; intros i fresh Hi Hk ps b Hb Hbm Hkm Hm Hps Hd Hf; cbn [copy_segs].
    - unfold mret_. do 2 f_equal. apply list_eq. intros j. destruct (decide (j < length fresh)).
      + rewrite Hf by done. destruct (decide (j < i)).
        * rewrite lookup_app_l by (rewrite fmap_length; lia). rewrite list_lookup_fmap.
          destruct (lookup_lt_is_Some_2 ps j ltac:(lia)) as [x ->]. done.
        * rewrite lookup_app_r by (rewrite fmap_length; lia). rewrite lookup_replicate_2; [done|]. rewrite fmap_length. lia.
      + rewrite !lookup_ge_None_2; [done| |lia]. rewrite app_length, fmap_length, replicate_length. lia.
    - unfold mbind_ at 1. unfold dget. rewrite Hb. unfold mbind_ at 1. rewrite (gomod_ri m b i) by lia.
      unfold mbind_. erewrite seg_get_ok by (by apply Hd; lia). rewrite upd_nat by lia.
      replace (Z.of_nat i + 1)%Z with (Z.of_nat (S i)) by lia.
      rewrite (IH (S i) _ ltac:(lia)) with (ps := ps) (b := b); try done; rewrite ?insert_length; try done; try lia.
      intros j Hj. destruct (decide (j = i)) as [->|].
      + rewrite list_lookup_insert by lia. by rewrite decide_True by lia.
      + rewrite list_lookup_insert_ne by done. rewrite Hf by done. f_equal. destruct (decide (j < i)), (decide (j < S i)); try done; lia.
  Qed.
  Definition reseat d segs u : deque T := MkDeque (dq_heap d) (dq_pool d) segs 0 u (dq_size d).
  Lemma ring_fresh ps n : length ps < n ∨ n = length ps ∧ ps = [] →
    ring_ok ((Some <$> ps) ++ replicate (n - length ps) None) 0 (Z.of_nat (length ps)) ps.
  Proof using.
    intros Hn. destruct (decide (n = 0)) as [->|]. { left. destruct ps; [done|]. cbn in Hn. lia. }
    assert (length ps < n) by (destruct Hn as [|[-> ->]]; [done|done]). right. exists 0. rewrite app_length, fmap_length, replicate_length. split_and!; [lia|lia|done|f_equal; ring_lia|].
    intros i Hi. replace (ri _ 0 i) with i by ring_lia. destruct (decide (i < length ps)).
    - rewrite lookup_app_l by (rewrite fmap_length; lia). rewrite list_lookup_fmap. destruct (lookup_lt_is_Some_2 ps i ltac:(lia)) as [x ->]. done.
    - rewrite lookup_app_r by (rewrite fmap_length; lia). rewrite lookup_replicate_2 by (rewrite fmap_length; lia).
      by rewrite lookup_ge_None_2 by lia.
  Qed.

  (** sizes of the slot table: 0, 1, 2, 4, ..., and at most max(2, 2.4 u) *)
  Definition pow2 (n : nat) : Prop := n = 0 ∨ ∃ k, n = 2 ^ k.
  Definition geo (n u : nat) : Prop := pow2 n ∧ n <= 2 `max` (24 * u / 10).

  (** what expand_if_full does when the deque is not empty *)
  Lemma expand_if_full_ok d ps : ring d ps → dq_size d ≠ 0%Z → ps ≠ [] → geo (length (dq_segs d)) (length ps) →
    wp expand_if_full (λ _ d', (∃ segs, d' = reseat d segs (Z.of_nat (length ps)) ∨ d' = d) ∧ ring d' ps ∧
      length ps < length (dq_segs d') ∧ geo (length (dq_segs d')) (length ps) ∧
      dq_heap d' = dq_heap d ∧ dq_pool d' = dq_pool d ∧ dq_size d' = dq_size d) d.
  Proof using.
    intros Hr Hs Hp Hg. unfold expand_if_full. wp_step (seg_used_ok d ps Hr Hs Hp). wp_go.
    assert (0 < length ps) as Hu by (destruct ps; cbn; [done|lia]).
    pose proof (ring_len _ _ _ _ Hr) as Hle.
    destruct (Z.leb_spec (Z.of_nat (length (dq_segs d))) (Z.of_nat (length ps))) as [Hf|Hf].
    - unfold expand. wp_step (seg_used_ok d ps Hr Hs Hp).
      destruct (Z.eqb_spec (Z.of_nat (length ps) * 2) 0); [lia|]. rewrite Nat2Z.id.
      replace (Z.to_nat (Z.of_nat (length ps) * 2)) with (2 * length ps) by lia.
      destruct Hr as [(_ & -> & _)|(b & Hb & Hl & Hbz & He & Hi)]; [done|].
      assert (length (dq_segs d) = length ps) as En by lia.
      wp_step (copy_segs_ok d (length ps) (length ps) (length ps) 0 (replicate (2 * length ps) None) ltac:(lia) ltac:(rewrite replicate_length; lia) ps b Hbz ltac:(lia) ltac:(lia) ltac:(lia) ltac:(done) ltac:(rewrite <-En; intros; apply Hi; lia) ltac:(intros j Hj; rewrite replicate_length in Hj; by rewrite lookup_replicate_2 by lia)).
      wp_go. wp_go. eapply wp_eq; [reflexivity|]. rewrite replicate_length.
      split_and!; cbn [dq_segs dq_begin dq_end dq_heap dq_pool dq_size]; try done.
      + eexists. left. reflexivity.
      + apply (ring_fresh ps (2 * length ps)). lia.
      + rewrite app_length, fmap_length, replicate_length. lia.
      + rewrite app_length, fmap_length, replicate_length. replace (length ps + (2 * length ps - length ps)) with (2 * length ps) by lia.
        destruct Hg as [Hg _]. split.
        * destruct Hg as [?|[k Hk]]; [lia|]. right. exists (S k). cbn. lia.
        * etrans; [|apply Nat.le_max_r]. apply Nat.div_le_lower_bound; lia.
    - apply wp_ret. split_and!; [by exists [];right|done|lia|done|done|done|done].
  Qed.
  (** and when it is empty *)
  Lemma expand_if_full_0 d : ring d [] → dq_size d = 0%Z → geo (length (dq_segs d)) 0 →
    wp expand_if_full (λ _ d', ring d' [] ∧ 0 < length (dq_segs d') ∧ geo (length (dq_segs d')) 0 ∧
      dq_heap d' = dq_heap d ∧ dq_pool d' = dq_pool d ∧ dq_size d' = dq_size d) d.
  Proof using.
    intros Hr Hs Hg. unfold expand_if_full. wp_step (seg_used_0 d Hs). wp_go.
    destruct (Z.leb_spec (Z.of_nat (length (dq_segs d))) 0) as [Hf|Hf].
    - unfold expand. wp_step (seg_used_0 d Hs). cbn [Z.mul Z.eqb]. wp_go. wp_go. wp_go. eapply wp_eq; [reflexivity|].
      cbn [dq_segs dq_begin dq_end dq_heap dq_pool dq_size]. split_and!; try done.
      + apply (ring_fresh [] 1). cbn. lia.
      + vm_compute. lia.
      + change (geo 1 0). split; [right; by exists 0|]. change (24 * 0 / 10) with 0. cbn. lia.
    - apply wp_ret. split_and!; try done. lia.
  Qed.
  Lemma expand_if_room d ps : ring d ps → dq_size d ≠ 0%Z → ps ≠ [] → length ps < length (dq_segs d) → expand_if_full d = Ok (tt, d).
  Proof using.
    intros Hr Hs Hp Hl. unfold expand_if_full, mbind_. rewrite (seg_used_ok d ps Hr Hs Hp). cbn.
    destruct (Z.leb_spec (Z.of_nat (length (dq_segs d))) (Z.of_nat (length ps))); [lia|done].
  Qed.

  Lemma pool_get_ok d ps ls : store d ps ls →
    wp (pool_get zero) (λ r d', ∃ p, r = Some p ∧ store d' (p :: ps) ([] :: ls) ∧
      length (dq_pool d') = length (dq_pool d) - 1 ∧ dq_segs d' = dq_segs d ∧ dq_begin d' = dq_begin d ∧ dq_end d' = dq_end d ∧ dq_size d' = dq_size d) d.
  Proof using.
    intros Hs. destruct (store_ok_fresh_front zero _ _ _ _ Hs) as [H1 H2]. unfold pool_get. wp_go.
    destruct (dq_pool d) as [|q pool _] eqn:Ep using rev_ind.
    - cbn [last]. wp_go. apply wp_ret. eexists. split; [done|]. cbn [dq_heap dq_pool dq_segs dq_begin dq_end dq_size]. rewrite Ep. split_and!; try done. by apply H1.
    - rewrite last_snoc. wp_go. apply wp_ret. eexists. split; [done|]. cbn [dq_heap dq_pool dq_segs dq_begin dq_end dq_size].
      rewrite app_length. cbn. replace (length pool + 1 - 1) with (length pool) by lia. rewrite take_app.
      split_and!; try done. by apply H2.
  Qed.
  Lemma grow_front_ok d ps ls : ring d ps → store d ps ls → length ps < length (dq_segs d) →
    wp (grow_front zero) (λ r d', ∃ p, r = Some p ∧ ring d' (p :: ps) ∧ store d' (p :: ps) ([] :: ls) ∧
      length (dq_pool d') <= length (dq_pool d) ∧ length (dq_segs d') = length (dq_segs d) ∧ dq_size d' = dq_size d) d.
  Proof using.
    intros Hr Hs Hl. unfold grow_front. wp_go.
    destruct (ring_front_push _ _ _ _ 0 Hr Hl) as (b & Hb & Hlt & _). apply wp_bind. rewrite Hb.
    eapply wp_eq. { unfold d_pre, d_len, dget, mbind_, mret_. apply gomod_pre. done. }
    wp_go. apply wp_bind. eapply wp_mono; [by apply (pool_get_ok _ ps ls)|]. cbv beta. cbn [dq_heap dq_pool dq_segs dq_begin dq_end dq_size].
    intros r d' (p & -> & Hs' & Hpl & E1 & E2 & E3 & E4). apply wp_bind. unfold seg_put.
    eapply wp_eq. { rewrite E1, upd_nat by ring_lia. reflexivity. } apply wp_ret.
    destruct (ring_front_push _ _ _ _ p Hr Hl) as (b' & Hb' & Hlt' & Hr'). assert (b' = b) as -> by lia.
    exists p. cbn [dq_heap dq_pool dq_segs dq_begin dq_end dq_size]. rewrite E2, E3, insert_length. split_and!; try done. lia.
  Qed.
  Lemma grow_back_ok d ps ls : ring d ps → store d ps ls → length ps < length (dq_segs d) →
    wp (grow_back zero) (λ r d', ∃ p, r = Some p ∧ ring d' (ps ++ [p]) ∧ store d' (ps ++ [p]) (ls ++ [[]]) ∧
      length (dq_pool d') <= length (dq_pool d) ∧ length (dq_segs d') = length (dq_segs d) ∧ dq_size d' = dq_size d) d.
  Proof using.
    intros Hr Hs Hl. unfold grow_back. apply wp_bind. eapply wp_mono; [by apply (pool_get_ok _ ps ls)|]. cbv beta.
    intros r d' (p & -> & Hs' & Hpl & E1 & E2 & E3 & E4). wp_go.
    destruct (ring_back_push _ _ _ _ p Hr Hl) as (e & He & Hlt & Hr'). apply wp_bind. unfold seg_put.
    eapply wp_eq. { rewrite E1, E3, He, upd_nat by done. reflexivity. }
    apply wp_bind. eapply wp_eq. { unfold d_next, d_len, dget, mbind_, mret_. cbn [dq_segs]. rewrite E3, He. rewrite insert_length. apply gomod_next. done. }
    wp_go. apply wp_ret. exists p. cbn [dq_heap dq_pool dq_segs dq_begin dq_end dq_size]. rewrite E2, insert_length. split_and!; try done.
    - by apply store_ok_perm_back.
    - lia.
  Qed.

  (** put_to_pool *)
  Definition pool_lim (n u : nat) : Prop := n * 6 / 5 <= u.
  Lemma put_to_pool_ok d p ps' ls' ps ls i u :
    store d ps' ls' → ps' !! i = Some p → ls' !! i = Some [] →
    (∀ h pool, store_ok h pool ps' ls' → store_ok h (pool ++ [p]) ps ls) →
    seg_used d = Ok (Z.of_nat u, d) →
    wp (put_to_pool (Some p)) (λ _ d', store d' ps ls ∧ dq_segs d' = dq_segs d ∧ dq_begin d' = dq_begin d ∧
      dq_end d' = dq_end d ∧ dq_size d' = dq_size d ∧ pool_lim (length (dq_pool d')) u) d.
  Proof using.
    intros Hs Hp Hl Hst Hu. unfold put_to_pool. apply wp_bind.
    eapply wp_mono; [apply (call_ok _ (λ _ l, l = []) d ps' ls' i p [] Hs Hp Hl)|].
    { intros s Hr. eapply wp_mono; [by apply clear_ok|]. cbv beta. intros _ s' ?. by exists []. }
    cbv beta. intros _ d' (l' & h' & -> & -> & Hs'). rewrite list_insert_id in Hs' by done.
    apply wp_bind. unfold pool_put. wp_go. eapply wp_eq; [reflexivity|].
    apply Hst in Hs'. wp_go. apply wp_bind. eapply wp_eq.
    { unfold seg_used, dget, mbind_, mret_ in *. cbn [dq_size dq_begin dq_end dq_segs wh]. injection Hu as Hu. rewrite Hu. reflexivity. }
    cbn [dq_pool wh].
    assert (Z.of_nat (length (dq_pool d ++ [p])) * 6 / 5 = Z.of_nat (length (dq_pool d ++ [p]) * 6 / 5))%Z as Ed.
    { rewrite Nat2Z.inj_div. f_equal. lia. }
    destruct (Z.ltb_spec (Z.of_nat u) (Z.of_nat (length (dq_pool d ++ [p])) * 6 / 5)) as [Hc|Hc].
    - unfold pool_shrink. wp_go. cbn [dq_pool].
      destruct (Z.ltb_spec (Z.of_nat u / 5) (Z.of_nat (length (dq_pool d ++ [p])))).
      + eapply wp_eq; [reflexivity|]. cbn [dq_heap dq_pool dq_segs dq_begin dq_end dq_size]. split_and!; try done.
        * by apply store_ok_pool_take.
        * unfold pool_lim. rewrite take_length. assert (Z.to_nat (Z.of_nat u / 5) = u / 5) as ->.
          { rewrite <-(Nat2Z.id (u / 5)). by rewrite Nat2Z.inj_div. }
          etrans; [apply Nat.div_le_mono; [lia|]; apply Nat.mul_le_mono_r; apply Nat.le_min_l|].
          pose proof (Nat.div_mod u 5 ltac:(lia)). apply Nat.div_le_upper_bound; lia.
      + apply wp_ret. cbn [dq_heap dq_pool dq_segs dq_begin dq_end dq_size]. split_and!; try done.
        unfold pool_lim. assert (u / 5 >= length (dq_pool d ++ [p])). { rewrite <-(Nat2Z.id (u / 5)). rewrite Nat2Z.inj_div. lia. }
        pose proof (Nat.div_mod u 5 ltac:(lia)). apply Nat.div_le_upper_bound; lia.
    - apply wp_ret. cbn [dq_heap dq_pool dq_segs dq_begin dq_end dq_size]. split_and!; try done.
      unfold pool_lim. lia.
  Qed.

  (** shrink_if_needed, given what segUsed returns *)
  Lemma shrink_ok d ps : ring d ps → seg_used d = Ok (Z.of_nat (length ps), d) →
    (length ps < length (dq_segs d) ∨ length (dq_segs d) = 0) →
    pow2 (length (dq_segs d)) → length (dq_segs d) <= 2 `max` (24 * S (length ps) / 10) →
    wp shrink_if_needed (λ _ d', ring d' ps ∧ (length ps < length (dq_segs d') ∨ length (dq_segs d') = 0) ∧
      geo (length (dq_segs d')) (length ps) ∧ dq_heap d' = dq_heap d ∧ dq_pool d' = dq_pool d ∧ dq_size d' = dq_size d) d.
  Proof using.
    intros Hr Hu Hroom Hp2 Hcap. unfold shrink_if_needed. wp_step Hu. wp_go.
    assert (shrink_bound (Z.of_nat (length ps)) = Z.of_nat (24 * length ps / 10)) as ->.
    { unfold shrink_bound. rewrite Nat2Z.inj_div. f_equal. lia. }
    destruct (Z.ltb_spec (Z.of_nat (24 * length ps / 10)) (Z.of_nat (length (dq_segs d)))) as [Hc|Hc].
    - set (n := length (dq_segs d)) in *. destruct Hp2 as [?|[k Hk]]; [lia|].
      destruct Hr as [(E & _)|(b & Hb & Hl & Hbz & He & Hi)]; [unfold n in Hc; rewrite E in Hc; cbn in Hc; lia|]. fold n in Hb, Hl, He, Hi.
      assert (Z.to_nat (Z.of_nat n / 2) = n / 2) as ->. { rewrite <-(Nat2Z.id (n / 2)). by rewrite Nat2Z.inj_div. }
      assert (24 * length ps < 10 * n) as Hc'. { apply inj_lt_iff in Hc || idtac. pose proof (Nat.div_mod (24 * length ps) 10 ltac:(lia)). pose proof (Nat.mod_upper_bound (24 * length ps) 10 ltac:(lia)). lia. }
      assert (n / 2 + n / 2 = n ∧ pow2 (n / 2) ∨ n = 1) as Hh.
      { destruct k as [|k]; [right; cbn in Hk; lia|]. left. rewrite Hk. cbn [Nat.pow]. rewrite Nat.mul_comm, Nat.div_mul by lia. split; [lia|]. right. by exists k. }
      assert (length ps < n / 2 ∨ n / 2 = length ps ∧ ps = []) as Hroom'.
      { destruct ps as [|p ps]; cbn [length] in *.
        - destruct (decide (n / 2 = 0)); [by right|left; lia].
        - destruct Hh as [[Hh _]|Hh]; lia. }
      rewrite Nat2Z.id.
      wp_step (copy_segs_ok d n (length ps) (length ps) 0 (replicate (n / 2) None) ltac:(lia) ltac:(rewrite replicate_length; lia) ps b Hbz ltac:(lia) ltac:(lia) ltac:(unfold n; lia) ltac:(done) ltac:(intros; apply Hi; lia) ltac:(intros j Hj; rewrite replicate_length in Hj; by rewrite lookup_replicate_2 by lia)).
      wp_go. wp_go. eapply wp_eq; [reflexivity|]. rewrite replicate_length.
      cbn [dq_heap dq_pool dq_segs dq_begin dq_end dq_size]. rewrite app_length, fmap_length, replicate_length.
      replace (length ps + (n / 2 - length ps)) with (n / 2) by lia. split_and!; try done.
      + by apply ring_fresh.
      + destruct Hroom' as [?|[-> ->]]; [by left|by right].
      + split.
        * destruct Hh as [[_ ?]|Hh]; [done|]. rewrite Hh. by left.
        * destruct Hh as [[Hh _]|Hh]; [|rewrite Hh; cbn; lia].
          destruct (decide (length ps = 0)) as [E0|].
          -- rewrite E0 in *. cbn in Hcap. lia.
          -- assert (24 * S (length ps) / 10 <= 2 * (24 * length ps / 10)); [|lia].
             pose proof (Nat.div_mod (24 * length ps) 10 ltac:(lia)). pose proof (Nat.mod_upper_bound (24 * length ps) 10 ltac:(lia)).
             destruct (decide (length ps = 1)) as [E1|]; [rewrite E1; cbn; lia|].
             apply Nat.lt_succ_r, Nat.div_lt_upper_bound; lia.
    - apply wp_ret. split_and!; try done. split; [done|]. lia.
  Qed.
End ops.
