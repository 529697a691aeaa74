(** Property C91: a restored Bloom filter and the slice it was restored from. *)
From Verif Require Import Base History GoSliceModel BitmapModel BitmapShareModel BloomModel BloomSpec BloomProofs BloomProps BloomShareModel BloomShareSpec.
Open Scope N_scope.

(** the bitmap x in memory m holds the bits of b *)
Definition brep (m : mem N) (x : sbitmap) (b : bitmap) : Prop :=
  ∃ pre, array_of (s_arr (sb_data x)) m = pre ++ bm_data b ∧ s_off (sb_data x) = length pre ∧ s_len (sb_data x) = length (bm_data b) ∧ sb_size x = bm_size b.
(** only array a changed *)
Definition only (a : nat) (m m' : mem N) : Prop := m_next m' = m_next m ∧ ∀ a', a' ≠ a → array_of a' m' = array_of a' m.
Lemma only_refl a m : only a m m. Proof. done. Qed.
Lemma only_trans a m m' m'' : only a m m' → only a m' m'' → only a m m''.
Proof. intros [H1 H2] [H3 H4]. split; [congruence|]. intros a' Ha. by rewrite H4, H2. Qed.

Definition same {A B S} (P : A → S → B → Prop) (r : res (A * S)) (q : res B) : Prop :=
  match r, q with Ok (a, s), Ok b => P a s b | Panic, Panic | Fuel, Fuel => True | _, _ => False end.

Lemma rep_idx m x b i : brep m x b → s_get (sb_data x) i m = match idx (bm_data b) i with Ok y => Ok (y, m) | Panic => Panic | Fuel => Fuel end.
Proof.
  intros (pre & Ha & Ho & Hl & _). unfold s_get, idx. rewrite Hl. destruct (_ && _)%bool; [|done]. rewrite Ha, Ho. rewrite lookup_app_r by lia.
  replace (length pre + Z.to_nat i - length pre)%nat with (Z.to_nat i) by lia. by destruct (_ !! _).
Qed.
Lemma rep_set m x b p : brep m x b →
  same (λ (r : bool) m' (q : bool * bitmap), r = q.1 ∧ brep m' x q.2 ∧ only (s_arr (sb_data x)) m m') (sb_set p x m) (bm_set p b).
Proof.
  intros Hr. unfold sb_set, bm_set. assert (Hs : sb_size x = bm_size b) by (by destruct Hr as (? & _ & _ & _ & ?)). rewrite Hs.
  destruct (bm_size b <=? p); [by split_and!|]. unfold mbind_. rewrite (rep_idx m x b _ Hr). destruct (idx (bm_data b) _) as [y| |] eqn:E; try done.
  destruct Hr as (pre & Ha & Ho & Hl & _). unfold s_set, upd. rewrite Hl. destruct (_ && _)%bool eqn:Eb; [|done]. cbn. split; [done|]. split.
  - exists pre. cbn. rewrite insert_length. split_and!; try done. unfold array_of at 1. cbn. rewrite lookup_insert. cbn. rewrite Ha, Ho. rewrite insert_app_r_alt by lia.
    by replace (length pre + Z.to_nat (Z.of_N (N.shiftr p 3)) - length pre)%nat with (Z.to_nat (Z.of_N (N.shiftr p 3))) by lia.
  - split; [done|]. intros a' Hne. unfold array_of. cbn. by rewrite lookup_insert_ne.
Qed.
Lemma rep_isset m x b p : brep m x b → same (λ (r : bool) m' q, r = q ∧ m' = m) (sb_isset p x m) (bm_isset p b).
Proof.
  intros Hr. unfold sb_isset, bm_isset. assert (Hs : sb_size x = bm_size b) by (by destruct Hr as (? & _ & _ & _ & ?)). rewrite Hs.
  destruct (bm_size b <=? p); [done|]. unfold mbind_. rewrite (rep_idx m x b _ Hr). by destruct (idx (bm_data b) _) as [y| |] eqn:E.
Qed.
Lemma rep_add_loop c : ∀ i hs n m x b, brep m x b →
  same (λ (_ : unit) m' b', brep m' x b' ∧ only (s_arr (sb_data x)) m m') (sadd_loop c i hs n x m) (add_loop c i hs n b).
Proof.
  induction c as [|c IH]; intros i hs n m x b Hr; cbn [sadd_loop add_loop]; [done|]. unfold mbind_, mlift. destruct (idx hs i) as [y| |]; try done.
  destruct (n =? 0); [done|]. pose proof (rep_set m x b (y mod n) Hr) as H. unfold same in H. destruct (sb_set (y mod n) x m) as [[r m']| |], (bm_set (y mod n) b) as [[q b']| |]; try done.
  destruct H as (_ & Hr' & Ho). cbn in Hr'. specialize (IH (i + 1)%Z hs n m' x b' Hr'). destruct (sadd_loop c _ hs n x m') as [[u m'']| |], (add_loop c _ hs n b') as [b''| |]; try done.
  destruct IH as [H1 H2]. split; [done|]. by eapply only_trans.
Qed.
Lemma rep_contains_loop c : ∀ i hs n m x b, brep m x b → same (λ (r : bool) m' q, r = q ∧ m' = m) (scontains_loop c i hs n x m) (contains_loop c i hs n b).
Proof.
  induction c as [|c IH]; intros i hs n m x b Hr; cbn [scontains_loop contains_loop]; [done|]. unfold mbind_, mlift. destruct (idx hs i) as [y| |]; try done.
  destruct (n =? 0); [done|]. pose proof (rep_isset m x b (y mod n) Hr) as H. unfold same in H. destruct (sb_isset (y mod n) x m) as [[r m']| |], (bm_isset (y mod n) b) as [q| |]; try done.
  destruct H as [-> ->]. destruct q; [|done]. by apply IH.
Qed.
Lemma brep_only m m' a x b : only a m m' → s_arr (sb_data x) ≠ a → brep m x b → brep m' x b.
Proof. intros [_ H] Hne (pre & Ha & ?). exists pre. by rewrite H. Qed.
Lemma rep_vals m x b : brep m x b → s_vals (sb_data x) m = bm_data b.
Proof. intros (pre & Ha & Ho & Hl & _). unfold s_vals. rewrite Ha, Ho, Hl. rewrite drop_app. by rewrite take_ge. Qed.

Section props.
  Context (h : list N → list N).
  (** w holds the values v; the slices in mv have been given to NewFromData *)
  Definition frep (m : mem N) (x : sbloom) (f : bloom) : Prop := sf_m x = bf_m f ∧ sf_k x = bf_k f ∧ brep m (sf_b x) (bf_b f) ∧ (s_arr (sb_data (sf_b x)) < m_next m)%nat.
  Definition drep (m : mem N) (d : slice) (l : list N) : Prop := array_of (s_arr d) m = l ∧ s_off d = 0%nat ∧ s_len d = length l.
  Definition farr (x : sbloom) : nat := s_arr (sb_data (sf_b x)).
  Definition holds (mv : list nat) (w : fworld) (v : fvals) : Prop :=
    length (v_fs v) = length (fw_fs w) ∧ length (v_ds v) = length (fw_ds w) ∧
    (∀ f x y, fw_fs w !! f = Some x → v_fs v !! f = Some y → frep (fw_mem w) x y) ∧
    (∀ k d, fw_ds w !! k = Some d → (s_arr d < m_next (fw_mem w))%nat) ∧
    (∀ k d l, k ∉ mv → fw_ds w !! k = Some d → v_ds v !! k = Some l → drep (fw_mem w) d l) ∧
    (∀ f f' x x', f ≠ f' → fw_fs w !! f = Some x → fw_fs w !! f' = Some x' → farr x ≠ farr x') ∧
    (∀ k k' d d', k ≠ k' → fw_ds w !! k = Some d → fw_ds w !! k' = Some d' → s_arr d ≠ s_arr d') ∧
    (∀ f k x d, k ∉ mv → fw_fs w !! f = Some x → fw_ds w !! k = Some d → farr x ≠ s_arr d).
  Definition moved (o : sf_op) (mv : list nat) : list nat := match o with WFromData d => d :: mv | _ => mv end.

  (** a new array *)
  Lemma holds_alloc mv w v l m' : holds mv w v → m' = MkMem (<[m_next (fw_mem w) := l]> (m_arr (fw_mem w))) (S (m_next (fw_mem w))) → holds mv (MkFW m' (fw_fs w) (fw_ds w)) v.
  Proof.
    intros (H1 & H2 & H3 & H4 & H5 & H6 & H7 & H8) ->. unfold holds. cbn. split_and!; try done.
    - intros f x y Ex Ey. destruct (H3 _ _ _ Ex Ey) as (Ha & Hb & (pre & Hc & Hc') & Hd). split_and!; try done; [|cbn; lia]. exists pre. split; [|done]. unfold array_of in *. cbn. rewrite lookup_insert_ne by lia. done.
    - intros k d E. specialize (H4 k d E). lia.
    - intros k d l' Hk E El. destruct (H5 k d l' Hk E El) as (Ha & Hb & Hc). specialize (H4 k d E). split_and!; try done. unfold array_of in *. cbn. rewrite lookup_insert_ne by lia. done.
  Qed.
  Lemma holds_new_slice mv w v d l : holds mv w v → drep (fw_mem w) d l → (s_arr d < m_next (fw_mem w))%nat → (length (fw_ds w) ∉ mv → True) →
    (∀ f x, fw_fs w !! f = Some x → farr x ≠ s_arr d) → (∀ k e, fw_ds w !! k = Some e → s_arr e ≠ s_arr d) →
    holds mv (MkFW (fw_mem w) (fw_fs w) (fw_ds w ++ [d])) (MkFV (v_fs v) (v_ds v ++ [l])).
  Proof.
    intros (H1 & H2 & H3 & H4 & H5 & H6 & H7 & H8) Hd Hn _ Hf Hk. unfold holds. cbn. rewrite !app_length, H2. split_and!; try done.
    - intros k e E. apply lookup_app_Some in E as [E|[_ E]]; [by eapply H4|]. apply list_lookup_singleton_Some in E as [_ <-]. done.
    - intros k e l' Hkm E El. apply lookup_app_Some in E as [E|[Hge E]].
      + rewrite lookup_app_l in El by (rewrite H2; by eapply lookup_lt_Some). by eapply H5.
      + apply list_lookup_singleton_Some in E as [E0 <-]. rewrite lookup_app_r in El by lia. replace (k - length (v_ds v))%nat with 0%nat in El by lia. injection El as <-. done.
    - intros k k' e e' Hne E E'. apply lookup_app_Some in E as [E|[Hge E]]; apply lookup_app_Some in E' as [E'|[Hge' E']].
      + by eapply H7. + apply list_lookup_singleton_Some in E' as [_ <-]. by eapply Hk.
      + apply list_lookup_singleton_Some in E as [_ <-]. apply not_eq_sym. by eapply Hk.
      + apply list_lookup_singleton_Some in E as [E0 _]. apply list_lookup_singleton_Some in E' as [E0' _]. lia.
    - intros f k x e Hkm E E'. apply lookup_app_Some in E' as [E'|[_ E']]; [by eapply H8|]. apply list_lookup_singleton_Some in E' as [_ <-]. by eapply Hf.
  Qed.
  Lemma holds_new_filter mv w v x y : holds mv w v → frep (fw_mem w) x y →
    (∀ f z, fw_fs w !! f = Some z → farr z ≠ farr x) → (∀ k e, k ∉ mv → fw_ds w !! k = Some e → farr x ≠ s_arr e) →
    holds mv (MkFW (fw_mem w) (fw_fs w ++ [x]) (fw_ds w)) (MkFV (v_fs v ++ [y]) (v_ds v)).
  Proof.
    intros (H1 & H2 & H3 & H4 & H5 & H6 & H7 & H8) Hx Hf Hk. unfold holds. cbn. rewrite !app_length, H1. split_and!; try done.
    - intros f z y' E El. apply lookup_app_Some in E as [E|[Hge E]].
      + rewrite lookup_app_l in El by (rewrite H1; by eapply lookup_lt_Some). by eapply H3.
      + apply list_lookup_singleton_Some in E as [E0 <-]. rewrite lookup_app_r in El by lia. replace (f - length (v_fs v))%nat with 0%nat in El by lia. injection El as <-. done.
    - intros k k' e e' Hne E E'. apply lookup_app_Some in E as [E|[Hge E]]; apply lookup_app_Some in E' as [E'|[Hge' E']].
      + by eapply H6. + apply list_lookup_singleton_Some in E' as [_ <-]. by eapply Hf.
      + apply list_lookup_singleton_Some in E as [_ <-]. apply not_eq_sym. by eapply Hf.
      + apply list_lookup_singleton_Some in E as [E0 _]. apply list_lookup_singleton_Some in E' as [E0' _]. lia.
    - intros f k z e Hkm E E'. apply lookup_app_Some in E as [E|[_ E]]; [by eapply H8|]. apply list_lookup_singleton_Some in E as [_ <-]. by eapply Hk.
  Qed.
  Lemma holds_more mv d w v : holds mv w v → holds (d :: mv) w v.
  Proof.
    intros (H1 & H2 & H3 & H4 & H5 & H6 & H7 & H8). split_and!; try done.
    - intros k e l Hk. apply H5. set_solver. - intros f k x e Hk. apply H8. set_solver.
  Qed.
  Lemma step_holds o mv w v : (∀ d, d ∈ mv → ¬ names d o) → holds mv w v →
    match sf_step h o w, fv_step h o v with Ok (r, w'), Ok (r', v') => r = r' ∧ holds (moved o mv) w' v' | Panic, Panic | Fuel, Fuel => True | _, _ => False end.
  Proof.
    intros Hmv Hh. assert (Hh0 := Hh). destruct Hh as (H1 & H2 & H3 & H4 & H5 & H6 & H7 & H8).
    assert (Hd0 : ∀ k, fw_ds w !! k = None ↔ v_ds v !! k = None) by (intros k; rewrite !lookup_ge_None; lia).
    assert (Hf0 : ∀ k, fw_fs w !! k = None ↔ v_fs v !! k = None) by (intros k; rewrite !lookup_ge_None; lia).
    assert (Harr : ∀ f x, fw_fs w !! f = Some x → (farr x < m_next (fw_mem w))%nat).
    { intros f x E. destruct (v_fs v !! f) as [y|] eqn:Ey; [|apply Hf0 in Ey; congruence]. by destruct (H3 _ _ _ E Ey) as (_ & _ & _ & ?). }
    destruct o as [l|k i|k i x|m k|k|f|f s|f s]; cbn [sf_step fv_step moved names] in *.
    - (* WMake *)
      unfold mbind_, fmem, alloc, new_slice, v_slice. cbn. rewrite H2. split; [done|].
      pose proof (holds_alloc mv w v l _ Hh0 eq_refl) as Ha. apply (holds_new_slice _ _ _ _ _ Ha); cbn; [|lia|done| |].
      + split_and!; try done. unfold array_of. cbn. by rewrite lookup_insert.
      + intros f x E. specialize (Harr f x E). lia. + intros k e E. specialize (H4 k e E). lia.
    - (* WGet *)
      unfold mbind_ at 1, fslice. destruct (fw_ds w !! k) as [d|] eqn:Ed, (v_ds v !! k) as [l|] eqn:El; [|apply Hd0 in El; congruence|apply Hd0 in Ed; congruence|done].
      assert (k ∉ mv) as Hk by (intros Hk; by apply (Hmv k)). destruct (H5 k d l Hk Ed El) as (Ha & Hb & Hc). unfold mbind_, fmem, s_get, idx. rewrite Hc, Ha, Hb. destruct (_ && _)%bool; [|done]. cbn.
      destruct (l !! Z.to_nat i); [|done]. split; [done|]. by destruct w.
    - (* WPut *)
      unfold mbind_ at 1, fslice. destruct (fw_ds w !! k) as [d|] eqn:Ed, (v_ds v !! k) as [l|] eqn:El; [|apply Hd0 in El; congruence|apply Hd0 in Ed; congruence|done].
      assert (k ∉ mv) as Hk by (intros Hk; by apply (Hmv k)). destruct (H5 k d l Hk Ed El) as (Ha & Hb & Hc). unfold mbind_, fmem, s_set, upd. rewrite Hc, Ha, Hb. destruct (_ && _)%bool; [|done]. cbn.
      split; [done|]. set (m' := MkMem _ _). assert (Ho : only (s_arr d) (fw_mem w) m'). { split; [done|]. intros a' Hne. unfold m', array_of. cbn. by rewrite lookup_insert_ne. }
      unfold holds. cbn [fw_mem fw_fs fw_ds v_fs v_ds]. rewrite insert_length. split_and!; try done.
      + intros f z y Ex Ey. destruct (H3 _ _ _ Ex Ey) as (Hx1 & Hx2 & Hx3 & Hx4). split_and!; try done. eapply brep_only; [exact Ho| |done]. by eapply (H8 f k).
      + intros k' d' l' Hk' E El'. destruct (decide (k = k')) as [<-|Hne].
        * rewrite list_lookup_insert in El' by (by eapply lookup_lt_Some). injection El' as <-. replace d' with d in * by congruence. split_and!; [|done|by rewrite insert_length].
          unfold m', array_of. cbn. by rewrite lookup_insert.
        * rewrite list_lookup_insert_ne in El' by done. destruct (H5 k' d' l' Hk' E El') as (Hx1 & Hx2 & Hx3). split_and!; try done. destruct Ho as [_ Ho]. rewrite Ho; [done|]. by eapply (H7 k' k).
    - (* WNew *)
      unfold mbind_, fmem, sf_new, mbind_, sb_new. cbv zeta. unfold make_slice. set (n := round_size m / 8).
      destruct ((Z.of_N n <? 0)%Z || (Z.of_N n <? Z.of_N n)%Z) eqn:E; [apply orb_true_iff in E as [E|E]; apply Z.ltb_lt in E; lia|]. unfold mbind_, alloc. cbn. unfold v_filter. rewrite H1. split; [done|].
      rewrite !N2Z.id || idtac. pose proof (holds_alloc mv w v (replicate (Z.to_nat (Z.of_N n)) 0) _ Hh0 eq_refl) as Ha. apply (holds_new_filter _ _ _ _ _ Ha).
      + split_and!; try done; [|cbn; lia]. exists []. cbn. unfold array_of. cbn. rewrite lookup_insert. cbn. rewrite replicate_length. replace (Z.to_nat (Z.of_N n)) with (N.to_nat n) by lia. done.
      + intros f z Ez. specialize (Harr f z Ez). unfold farr in *. cbn in *. lia. + intros f e _ Ee. specialize (H4 f e Ee). unfold farr. cbn in *. lia.
    - (* WFromData *)
      unfold mbind_ at 1, fslice. destruct (fw_ds w !! k) as [d|] eqn:Ed, (v_ds v !! k) as [l|] eqn:El; [|apply Hd0 in El; congruence|apply Hd0 in Ed; congruence|done].
      assert (k ∉ mv) as Hk by (intros Hk; by apply (Hmv k)). destruct (H5 k d l Hk Ed El) as (Ha & Hb & Hc). unfold mbind_, fmem, sf_from_data, mbind_, s_bytes, s_from, bf_from_data. rewrite Hc, Hb.
      destruct ((length l <? 16)%nat) eqn:E16. { apply Nat.ltb_lt in E16. rewrite (proj2 (Z.leb_gt 16 _)) by lia. done. } apply Nat.ltb_ge in E16. rewrite (proj2 (Z.leb_le 16 _)) by lia.
      cbn [Z.leb andb mret_]. assert (Hv : s_vals d (fw_mem w) = l). { unfold s_vals. rewrite Ha, Hb, Hc. by rewrite drop_0, take_ge. } rewrite Hv. unfold new_filter, v_filter. rewrite H1. split; [done|].
      cbn [fw_mem fw_fs fw_ds]. assert (w = MkFW (fw_mem w) (fw_fs w) (fw_ds w)) as Ew by (by destruct w). rewrite Ew in Hh0. pose proof (holds_more mv k _ _ Hh0) as Hm.
      apply (holds_new_filter _ _ _ _ _ Hm); cbn [fw_mem fw_fs fw_ds].
      + split_and!; [done|done| |exact (H4 k d Ed)]. exists (take 16 l). cbn. rewrite drop_length, take_length. split_and!; [by rewrite take_drop|lia|lia|]. unfold sb_from_data, bm_from_data. cbn. rewrite ?drop_length. rewrite ?Hc. done.
      + intros f z Ez. unfold farr at 2. cbn. by eapply (H8 f k). + intros k' e Hk' Ee. unfold farr. cbn. eapply (H7 k k'); [set_solver|done|done].
    - (* WData *)
      unfold mbind_ at 1, ffilter. destruct (fw_fs w !! f) as [x|] eqn:Ed, (v_fs v !! f) as [y|] eqn:El; [|apply Hf0 in El; congruence|apply Hf0 in Ed; congruence|done].
      destruct (H3 _ _ _ Ed El) as (Hx1 & Hx2 & Hx3 & Hx4). unfold mbind_, fmem, sf_Data, mbind_, s_bytes. rewrite (rep_vals _ _ _ Hx3), Hx1, Hx2. cbv zeta. unfold alloc. cbn [mret_]. unfold new_slice, v_slice, bf_Data, bm_Data. rewrite H2.
      cbn [fw_mem fw_fs fw_ds]. split; [done|]. set (l := le_bytes 8 (bf_m y) ++ _).
      pose proof (holds_alloc mv w v l _ Hh0 eq_refl) as Ha. apply (holds_new_slice _ _ _ _ _ Ha); cbn; [|lia|done| |].
      + split_and!; try done. unfold array_of. cbn. by rewrite lookup_insert.
      + intros f' x' E. specialize (Harr f' x' E). lia. + intros k e E. specialize (H4 k e E). lia.
    - (* WAdd *)
      unfold mbind_ at 1, ffilter. destruct (fw_fs w !! f) as [x|] eqn:Ed, (v_fs v !! f) as [y|] eqn:El; [|apply Hf0 in El; congruence|apply Hf0 in Ed; congruence|done].
      destruct (H3 _ _ _ Ed El) as (Hx1 & Hx2 & Hx3 & Hx4). unfold mbind_, fmem, sf_add, bf_add, mbind_, mlift. rewrite Hx1, Hx2. destruct (gen_hash_ints h _ _) as [hs| |]; try done.
      pose proof (rep_add_loop (N.to_nat (bf_k y)) 0%Z hs (bf_m y) (fw_mem w) (sf_b x) (bf_b y) Hx3) as H. unfold same in H.
      destruct (sadd_loop _ _ _ _ _ _) as [[u m']| |], (add_loop _ _ _ _ _) as [b'| |]; try done. destruct H as [Hr Ho]. cbn [mret_]. split; [done|].
      assert (Hn : m_next m' = m_next (fw_mem w)) by apply Ho.
      unfold holds. cbn [fw_mem fw_fs fw_ds v_fs v_ds]. rewrite insert_length. split_and!; try done.
      + intros f' z y' Ez Ey. destruct (decide (f = f')) as [<-|Hne].
        * rewrite list_lookup_insert in Ey by (by eapply lookup_lt_Some). injection Ey as <-. replace z with x in * by congruence. split_and!; try done. by rewrite Hn.
        * rewrite list_lookup_insert_ne in Ey by done. destruct (H3 _ _ _ Ez Ey) as (Hz1 & Hz2 & Hz3 & Hz4). split_and!; try done; [|by rewrite Hn]. eapply brep_only; [exact Ho| |done]. by eapply (H6 f' f).
      + intros k d E. rewrite Hn. by eapply H4.
      + intros k d l Hk E El'. destruct (H5 k d l Hk E El') as (Hz1 & Hz2 & Hz3). split_and!; try done. destruct Ho as [_ Ho]. rewrite Ho; [done|]. apply not_eq_sym. by eapply (H8 f k).
    - (* WContains *)
      unfold mbind_ at 1, ffilter. destruct (fw_fs w !! f) as [x|] eqn:Ed, (v_fs v !! f) as [y|] eqn:El; [|apply Hf0 in El; congruence|apply Hf0 in Ed; congruence|done].
      destruct (H3 _ _ _ Ed El) as (Hx1 & Hx2 & Hx3 & Hx4). unfold mbind_, fmem, sf_contains, bf_contains, mbind_, mlift. rewrite Hx1, Hx2. destruct (gen_hash_ints h _ _) as [hs| |]; try done.
      pose proof (rep_contains_loop (N.to_nat (bf_k y)) 0%Z hs (bf_m y) (fw_mem w) (sf_b x) (bf_b y) Hx3) as H. unfold same in H.
      destruct (scontains_loop _ _ _ _ _ _) as [[u m']| |], (contains_loop _ _ _ _ _) as [b'| |]; try done. destruct H as [-> ->]. split; [done|]. by destruct w.
  Qed.

  Lemma run_holds ops : ∀ mv w v, (∀ d i o, d ∈ mv → ops !! i = Some o → ¬ names d o) → handed_over ops → holds mv w v →
    results (run (sf_step h) ops w) = results (run (fv_step h) ops v).
  Proof.
    induction ops as [|o ops IH]; intros mv w v Hmv Hho Hh; [done|]. cbn [run].
    pose proof (step_holds o mv w v (λ d Hd, Hmv d 0%nat o Hd eq_refl) Hh) as H.
    destruct (sf_step h o w) as [[r w']| |], (fv_step h o v) as [[r' v']| |]; try done. destruct H as [-> Hh'].
    assert (results (run (sf_step h) ops w') = results (run (fv_step h) ops v')) as E.
    { apply (IH (moved o mv)); [| |done].
      - intros d i o' Hd Ho'. destruct o; cbn [moved] in Hd; try (by apply (Hmv d (S i) o')). apply elem_of_cons in Hd as [->|Hd]; [|by apply (Hmv d (S i) o')].
        apply (Hho 0%nat (S i) d0 o'); [lia|done|done].
      - intros i j d o' Hij Hi Hj. apply (Hho (S i) (S j) d o'); [lia|done|done]. }
    destruct (run (sf_step h) ops w') as [[a ?]| |], (run (fv_step h) ops v') as [[b ?]| |]; cbn in *; try done. by injection E as ->.
  Qed.
  (** C91, the true part: if a slice is not used again once it was given to NewFromData, every history has
      the results it has when slices and filters are values, with NewFromData copying: nothing done to one
      filter or slice shows in another *)
  Theorem bloom_restored_partial ops : handed_over ops → results (run (sf_step h) ops fw0) = results (run (fv_step h) ops fv0).
  Proof. intros H. apply (run_holds ops []); [set_solver|done|]. split_and!; intros; done. Qed.
End props.

(** the step for given Add and Contains *)
Definition step_with (add : list N → sbloom → M (mem N) unit) (con : list N → sbloom → M (mem N) bool) (o : sf_op) : M fworld sf_out :=
  (match o with
   | WAdd f v => let! f := ffilter f in fmem (add v f) ;; mret_ WUnit
   | WContains f v => let! f := ffilter f in let! r := fmem (con v f) in mret_ (WBool r)
   | _ => sf_step (λ _, []) o
   end)%go.
Lemma run_ext_in {S O R} (st st' : O → M S R) ops : (∀ o s, o ∈ ops → st o s = st' o s) → ∀ s, run st ops s = run st' ops s.
Proof. induction ops as [|o ops IH]; intros H s; [done|]. cbn. rewrite H by set_solver. destruct (st' o s) as [[r s']| |]; try done. rewrite IH; [done|]. intros o' s1 Ho. apply H. set_solver. Qed.
Section one_value.
  Context (h : list N → list N) (v : list N) (Hh : ∀ d, length (h d) = 64%nat).
  Definition on8 {A} (m m' : sbloom → M (mem N) A) (f : sbloom) : M (mem N) A := fun mm => if (sf_m f =? 8) && (sf_k f =? 1) then m f mm else m' f mm.
  (** a filter of 8 bits and one hash function: value v is one bit *)
  Lemma one_bit : ∃ p, p < 8 ∧ ∀ ops, (∀ o, o ∈ ops → match o with WAdd _ y | WContains _ y => y = v | _ => True end) →
    run (sf_step h) ops fw0 = run (step_with (λ _, on8 (λ f, (let! _ := sb_set p (sf_b f) in mret_ tt)%go) (sf_add h v)) (λ _, on8 (λ f, sb_isset p (sf_b f)) (sf_contains h v))) ops fw0.
  Proof.
    destruct (gen_hash_ints_partial h (salt ++ v) 1 Hh ltac:(lia)) as (l & El & Hl & _). destruct l as [|x [|y l]]; cbn in Hl; try lia.
    exists (x mod 8). split; [by apply N.mod_lt|]. intros ops Hops. apply run_ext_in. intros o s Ho. apply Hops in Ho. destruct o as [l|k i|k i z|m k|k|f|f u|f u]; cbn [step_with sf_step]; try reflexivity; subst u.
    - unfold mbind_, ffilter, fmem, on8. destruct (fw_fs s !! f) as [b|]; [|done]. destruct ((sf_m b =? 8) && (sf_k b =? 1)) eqn:E; [|done]. apply andb_true_iff in E as [Em Ek]. apply N.eqb_eq in Em, Ek.
      unfold sf_add. rewrite Em, Ek. unfold mbind_, mlift. change (to_int 1) with 1%Z. rewrite El. change (N.to_nat 1) with 1%nat. cbn [sadd_loop]. unfold mbind_, mlift.
      change (idx [x] 0) with (Ok x). cbn iota. change (8 =? 0) with false. cbn iota. reflexivity.
    - unfold mbind_, ffilter, fmem, on8. destruct (fw_fs s !! f) as [b|]; [|done]. destruct ((sf_m b =? 8) && (sf_k b =? 1)) eqn:E; [|done]. apply andb_true_iff in E as [Em Ek]. apply N.eqb_eq in Em, Ek.
      unfold sf_contains. rewrite Em, Ek. unfold mbind_, mlift. change (to_int 1) with 1%Z. rewrite El. change (N.to_nat 1) with 1%nat. cbn [scontains_loop]. unfold mbind_, mlift.
      change (idx [x] 0) with (Ok x). cbn iota. change (8 =? 0) with false. cbn iota. unfold mret_. cbn. destruct (sb_isset (x mod 8) (sf_b b) (fw_mem s)) as [[[] ?]| |] eqn:E; rewrite ?E; reflexivity.
  Qed.
  Ltac eight p Hp := assert (p = 0 ∨ p = 1 ∨ p = 2 ∨ p = 3 ∨ p = 4 ∨ p = 5 ∨ p = 6 ∨ p = 7) as Hp8 by lia; clear Hp; repeat (destruct Hp8 as [->|Hp8]; [vm_compute; reflexivity|]); subst p; vm_compute; reflexivity.

  (** C91 is false, whatever the digest function.  A value is added, the filter saved and restored; then the client writes one
      byte of the slice, and the restored filter denies the value. *)
  Theorem bloom_restored_slice_refuted :
    results (run (sf_step h) [WNew 8 1; WAdd 0 v; WData 0; WFromData 0; WContains 1 v; WPut 0 16 0; WContains 1 v] fw0) =
      Ok [WFilter 0; WUnit; WSlice 0; WFilter 1; WBool true; WUnit; WBool false].
  Proof using Hh.
    destruct one_bit as (p & Hp & H). rewrite H by (intros o Ho; rewrite !elem_of_cons in Ho; destruct_or! Ho; subst; try done; by apply elem_of_nil in Ho). clear H Hh. eight p Hp.
  Qed.
  (** and two filters restored from one slice are one: a value added to filter 1 is reported by filter 2, which is empty *)
  Theorem bloom_restored_twice_refuted :
    results (run (sf_step h) [WNew 8 1; WData 0; WFromData 0; WFromData 0; WContains 2 v; WAdd 1 v; WContains 2 v; WContains 0 v] fw0) =
      Ok [WFilter 0; WSlice 0; WFilter 1; WFilter 2; WBool false; WUnit; WBool true; WBool false].
  Proof using Hh.
    destruct one_bit as (p & Hp & H). rewrite H by (intros o Ho; rewrite !elem_of_cons in Ho; destruct_or! Ho; subst; try done; by apply elem_of_nil in Ho). clear H Hh. eight p Hp.
  Qed.
End one_value.
(** non-trivial histories meet the condition of [bloom_restored_partial] *)
Example bloom_restored_example : handed_over [WNew 64 2; WAdd 0 [1]; WData 0; WFromData 0; WAdd 1 [2]; WContains 0 [2]; WContains 1 [1]; WData 1; WPut 1 16 7; WFromData 1] ∧
  results (run (sf_step demo_h) [WNew 64 2; WAdd 0 [1]; WData 0; WFromData 0; WAdd 1 [2]; WContains 0 [2]; WContains 1 [1]; WData 1; WPut 1 16 7; WFromData 1] fw0) =
    Ok [WFilter 0; WUnit; WSlice 0; WFilter 1; WUnit; WBool true; WBool true; WSlice 1; WUnit; WFilter 2].
Proof.
  split; [|by vm_compute]. intros i j d o Hij Hi Hj. assert (i = 3%nat ∨ i = 9%nat) as Hi'.
  { assert (i < 10)%nat as Hl by (by apply lookup_lt_Some in Hi). do 10 (destruct i as [|i]; [first [by left | by right | done]|]). lia. }
  assert (j < 10)%nat as Hl by (by apply lookup_lt_Some in Hj). destruct Hi' as [-> | ->]; [|lia]. injection Hi as <-.
  assert (j = 4 ∨ j = 5 ∨ j = 6 ∨ j = 7 ∨ j = 8 ∨ j = 9)%nat as Hj' by lia. destruct_or! Hj'; subst j; injection Hj as <-; cbn; lia.
Qed.
Print Assumptions bloom_restored_partial.
Print Assumptions bloom_restored_slice_refuted.
Print Assumptions bloom_restored_twice_refuted.
