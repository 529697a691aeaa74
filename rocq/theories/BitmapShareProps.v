(** Properties C90: Bitmap.Data and NewFromData share storage. *)
From Verif Require Import Base History GoSliceModel BitmapModel BitmapSpec BitmapProofs BitmapShareModel BitmapShareSpec.
Open Scope N_scope.

Definition mrel (m : mem N) (s : shared) : Prop :=
  m_next m = t_next s ∧ ∀ a, (a < m_next m)%nat → ∃ l, m_arr m !! a = Some l ∧ Forall (λ b, b < 256) l ∧ ∀ p, t_bits s a p = bits_of l p.
Definition slok (m : mem N) (d : slice) : Prop :=
  (s_arr d < m_next m)%nat ∧ (s_len d <= s_cap d)%nat ∧ (s_off d + s_cap d <= length (array_of (s_arr d) m))%nat.
Definition bmok (m : mem N) (b : sbitmap) : Prop := slok m (sb_data b) ∧ sb_size b <= 8 * N.of_nat (s_len (sb_data b)) ∧ sb_size b < 2 ^ 64 ∧ sb_size b / 8 * 8 = sb_size b.
Definition srel (w : sworld) (s : shared) : Prop :=
  mrel (sw_mem w) s ∧ sw_bms w = t_bms s ∧ sw_ds w = t_ds s ∧ Forall (slok (sw_mem w)) (sw_ds w) ∧ Forall (bmok (sw_mem w)) (sw_bms w).
(** arrays keep their length *)
Definition grows (m m' : mem N) : Prop := (m_next m <= m_next m')%nat ∧ ∀ a, (a < m_next m)%nat → length (array_of a m') = length (array_of a m).
Lemma slok_grows m m' d : grows m m' → slok m d → slok m' d.
Proof. intros [H1 H2] (Ha & Hb & Hc). split; [lia|]. split; [done|]. by rewrite H2. Qed.
Lemma bmok_grows m m' b : grows m m' → bmok m b → bmok m' b.
Proof. intros Hg (Ha & Hb & Hc). split; [by eapply slok_grows | done]. Qed.
Lemma srel_grows w s m' s' : srel w s → grows (sw_mem w) m' → mrel m' s' → t_bms s' = t_bms s → t_ds s' = t_ds s → srel (MkSW m' (sw_bms w) (sw_ds w)) s'.
Proof.
  intros (Hm & Hb & Hd & Hds & Hbs) Hg Hm' Eb Ed. split; [done|]. cbn. rewrite Eb, Ed. split; [done|]. split; [done|]. split.
  - eapply Forall_impl; [exact Hds|]. intros d. by apply slok_grows.
  - eapply Forall_impl; [exact Hbs|]. intros b. by apply bmok_grows.
Qed.
Lemma array_some (m : mem N) a l : m_arr m !! a = Some l → array_of a m = l.
Proof. intros H. unfold array_of. by rewrite H. Qed.

Lemma get_ok m s d i : mrel m s → slok m d → (0 <= i < Z.of_nat (s_len d))%Z →
  ∃ l x, m_arr m !! s_arr d = Some l ∧ l !! (s_off d + Z.to_nat i)%nat = Some x ∧ x < 256 ∧ s_get d i m = Ok (x, m) ∧
    ∀ j, j < 8 → N.testbit x j = seen s d (8 * Z.to_N i + j).
Proof.
  intros [_ Hm] (Ha & Hb & Hc) Hi. destruct (Hm _ Ha) as (l & El & Hl & Hp). rewrite (array_some _ _ _ El) in Hc.
  destruct (lookup_lt_is_Some_2 l (s_off d + Z.to_nat i)%nat ltac:(lia)) as [x Ex]. exists l, x. split; [done|]. split; [done|]. split; [by eapply (Forall_lookup_1 _ _ _ _ Hl Ex)|].
  split.
  - unfold s_get. rewrite (array_some _ _ _ El), Ex. by rewrite (proj2 (Z.leb_le _ _)), (proj2 (Z.ltb_lt _ _)) by lia.
  - intros j Hj. unfold seen. rewrite Hp. unfold bits_of. replace ((8 * N.of_nat (s_off d) + (8 * Z.to_N i + j)) / 8) with (N.of_nat (s_off d) + Z.to_N i) by lia.
    replace ((8 * N.of_nat (s_off d) + (8 * Z.to_N i + j)) mod 8) with j by lia.
    replace (N.to_nat (N.of_nat (s_off d) + Z.to_N i)) with (s_off d + Z.to_nat i)%nat by lia. by rewrite Ex.
Qed.
Lemma put_ok m s d i x f : mrel m s → slok m d → (0 <= i < Z.of_nat (s_len d))%Z → x < 256 →
  (∀ p, f (t_bits s (s_arr d)) p = if decide (p / 8 = N.of_nat (s_off d) + Z.to_N i) then N.testbit x (p mod 8) else t_bits s (s_arr d) p) →
  ∃ m', s_set d i x m = Ok (tt, m') ∧ mrel m' (changed s (s_arr d) f) ∧ grows m m'.
Proof.
  intros [Hn Hm] (Ha & Hb & Hc) Hi Hx Hf. destruct (Hm _ Ha) as (l & El & Hl & Hp). rewrite (array_some _ _ _ El) in Hc.
  eexists. split. { unfold s_set. rewrite (array_some _ _ _ El). by rewrite (proj2 (Z.leb_le _ _)), (proj2 (Z.ltb_lt _ _)) by lia. }
  split.
  - split; [done|]. cbn [m_next m_arr changed t_bits]. intros a Ha'. case_decide as E.
    + subst a. rewrite lookup_insert. eexists. split; [done|]. split; [by apply Forall_insert|]. intros p. rewrite Hf. unfold bits_of. case_decide as E.
      * rewrite E. replace (N.to_nat (N.of_nat (s_off d) + Z.to_N i)) with (s_off d + Z.to_nat i)%nat by lia. rewrite list_lookup_insert by lia. done.
      * rewrite list_lookup_insert_ne by lia. apply Hp.
    + rewrite lookup_insert_ne by done. by apply Hm.
  - split; [done|]. intros a _. unfold array_of at 1. cbn [m_arr]. destruct (decide (a = s_arr d)) as [->|Hne].
    + rewrite lookup_insert. cbn. rewrite insert_length. by rewrite (array_some _ _ _ El).
    + by rewrite lookup_insert_ne.
Qed.
(** allocation *)
Lemma alloc_ok m s l f : mrel m s → Forall (λ b, b < 256) l → (∀ p, f p = bits_of l p) →
  ∃ m', alloc l m = Ok (t_next s, m') ∧ mrel m' (new_storage s f) ∧ grows m m' ∧ m' = MkMem (<[t_next s := l]> (m_arr m)) (S (t_next s)).
Proof.
  intros [Hn Hm] Hl Hf. eexists. split; [unfold alloc; by rewrite Hn|]. split; [|split; [|done]].
  - split; [done|]. cbn [m_next m_arr new_storage t_bits]. intros a Ha. case_decide as E; [subst; rewrite lookup_insert; by exists l|]. rewrite lookup_insert_ne by done. apply Hm. lia.
  - split; [cbn; lia|]. intros a Ha. unfold array_of. cbn [m_arr]. rewrite lookup_insert_ne by lia. done.
Qed.
Lemma zeros_bits n p : bits_of (replicate n 0) p = false.
Proof. apply (bit_at_zeros n p). Qed.
Lemma make_ok m s n : mrel m s → ∃ m', make_slice 0 (Z.of_N n) (Z.of_N n) m = Ok (MkSlice (t_next s) 0 (N.to_nat n) (N.to_nat n), m') ∧
  mrel m' (new_storage s (λ _, false)) ∧ grows m m' ∧ m' = MkMem (<[t_next s := replicate (N.to_nat n) 0]> (m_arr m)) (S (t_next s)).
Proof.
  intros Hm. destruct (alloc_ok m s (replicate (N.to_nat n) 0) (λ _, false) Hm) as (m' & E & Hr & Hg & Em).
  { apply Forall_replicate. done. } { intros p. by rewrite zeros_bits. }
  exists m'. split; [|done]. unfold make_slice. rewrite (proj2 (Z.ltb_ge _ _)), (proj2 (Z.ltb_ge _ _)) by lia. cbn [orb]. unfold mbind_.
  replace (Z.to_nat (Z.of_N n)) with (N.to_nat n) by lia. rewrite E. done.
Qed.
(** copying into a new array *)
Lemma copy_ok d sr cnt : ∀ i (m : mem N) (l ls : list N), m_arr m !! s_arr d = Some l → m_arr m !! s_arr sr = Some ls → s_arr d ≠ s_arr sr → s_off d = 0%nat → s_len d = length l →
  (i + cnt <= length l)%nat → (i + cnt <= s_len sr)%nat → (s_off sr + s_len sr <= length ls)%nat →
  copy_loop cnt (Z.of_nat i) d sr m = Ok (tt, MkMem (<[s_arr d := take i l ++ take cnt (drop (s_off sr + i) ls) ++ drop (i + cnt) l]> (m_arr m)) (m_next m)).
Proof.
  induction cnt as [|cnt IH]; intros i m l ls El Els Hne Ho Hl Hi Hi2 Hls; cbn [copy_loop].
  - rewrite Nat.add_0_r. cbn [take app]. rewrite take_0. cbn [app]. rewrite take_drop, insert_id by done. by destruct m.
  - destruct (lookup_lt_is_Some_2 ls (s_off sr + i)%nat ltac:(lia)) as [x Ex]. unfold mbind_ at 1, s_get at 1.
    rewrite (array_some _ _ _ Els), Nat2Z.id, Ex. rewrite (proj2 (Z.leb_le _ _)), (proj2 (Z.ltb_lt _ _)) by lia. cbn [andb].
    unfold mbind_, s_set. rewrite (array_some _ _ _ El), Nat2Z.id, Ho, (proj2 (Z.leb_le _ _)), (proj2 (Z.ltb_lt _ _)) by lia. cbn [andb Nat.add].
    replace (Z.of_nat i + 1)%Z with (Z.of_nat (S i)) by lia. rewrite (IH (S i) _ (<[i:=x]> l) ls).
    + f_equal. f_equal. f_equal. cbn [m_arr m_next]. rewrite insert_insert. f_equal.
      rewrite (drop_S ls x (s_off sr + i)) by done. cbn [take]. replace (s_off sr + S i)%nat with (S (s_off sr + i)) by lia. replace (i + S cnt)%nat with (S i + cnt)%nat by lia.
      rewrite (take_S_r _ _ x) by (apply list_lookup_insert; lia). rewrite take_insert by lia. rewrite drop_insert_gt by lia. by rewrite <- app_assoc.
    + cbn. apply lookup_insert. + cbn. by rewrite lookup_insert_ne. + done. + done. + by rewrite insert_length. + rewrite insert_length. lia. + lia. + done.
Qed.

Lemma byte_of_testbit x f : x < 256 → (∀ j, j < 8 → N.testbit x j = f j) → x = byte_of f.
Proof.
  intros Hx Hf. assert (Hb : ∀ y, (y < 256)%nat → N.of_nat y = byte_of (N.testbit (N.of_nat y))).
  { assert (forallb (λ y, N.of_nat y =? byte_of (N.testbit (N.of_nat y))) (seq 0 256) = true) as H by (by vm_compute).
    rewrite forallb_forall in H. intros y Hy. apply N.eqb_eq, H, in_seq. lia. }
  specialize (Hb (N.to_nat x) ltac:(lia)). rewrite N2Nat.id in Hb. rewrite Hb at 1. unfold byte_of. cbn [foldr]. by rewrite !Hf.
Qed.
Lemma lor_byte d p : d < 256 → N.lor d (bit_of p) < 256.
Proof.
  intros H. rewrite bit_of_eq. assert (p mod 8 < 8) as Hp by (by apply N.mod_lt).
  assert (Hb : N.lor d (2 ^ (p mod 8)) = 0 ∨ N.log2 (N.lor d (2 ^ (p mod 8))) < 8).
  { right. rewrite N.log2_lor, N.log2_pow2 by lia. apply N.max_lub_lt; [|done]. destruct (decide (d = 0)) as [->|]; [done|]. apply N.log2_lt_pow2; [lia|done]. }
  destruct Hb as [->|Hb]; [done|]. destruct (decide (N.lor d (2 ^ (p mod 8)) = 0)) as [->|Hne]; [done|]. revert Hne Hb. generalize (N.lor d (2 ^ (p mod 8))) as y. intros y Hne Hb. assert (0 < y) as Hy by lia. exact (proj2 (N.log2_lt_pow2 y 8 Hy) Hb).
Qed.
Lemma land_byte d x : d < 256 → N.land d x < 256.
Proof.
  intros H. destruct (decide (N.land d x = 0)) as [->|]; [done|]. apply (N.log2_lt_pow2 _ 8); [lia|].
  eapply N.le_lt_trans; [apply N.log2_land|]. apply N.min_lt_iff. left. destruct (decide (d = 0)) as [->|]; [done|]. apply N.log2_lt_pow2; [lia|done].
Qed.
Lemma testbit_set d p j : j < 8 → N.testbit (N.lor d (bit_of p)) j = if decide (j = p mod 8) then true else N.testbit d j.
Proof. intros Hj. rewrite bit_of_eq, N.lor_spec, N.pow2_bits_eqb. case_decide as E; [subst; by rewrite N.eqb_refl, orb_true_r|]. rewrite (proj2 (N.eqb_neq _ _)) by done. by rewrite orb_false_r. Qed.
Lemma testbit_unset d p j : j < 8 → N.testbit (N.land d (N.lxor 255 (bit_of p))) j = if decide (j = p mod 8) then false else N.testbit d j.
Proof.
  intros Hj. rewrite bit_of_eq, N.land_spec, N.lxor_spec, N.pow2_bits_eqb. change 255 with (N.ones 8). rewrite N.ones_spec_low by done.
  case_decide as E; [subst; rewrite N.eqb_refl; by rewrite andb_false_r|]. rewrite (proj2 (N.eqb_neq _ _)) by done. by rewrite andb_true_r.
Qed.

(** one action *)
Lemma sb_step_agrees o w s : sb_op_ok o → srel w s → agrees srel (sb_step o w) (sb_spec o s).
Proof.
  intros Ho Hr. assert (Hr0 := Hr). destruct Hr as (Hm & Hb & Hd & Hds & Hbs).
  assert (Hsl : ∀ h d, t_ds s !! h = Some d → slok (sw_mem w) d). { intros h d E. rewrite <- Hd in E. by eapply (Forall_lookup_1 _ _ _ _ Hds). }
  assert (Hbm : ∀ b x, t_bms s !! b = Some x → bmok (sw_mem w) x). { intros b x E. rewrite <- Hb in E. by eapply (Forall_lookup_1 _ _ _ _ Hbs). }
  destruct o as [l|h lo hi|h|h i|h i x|n|h|b|b p|b p|b p|b n|b|b]; cbn [sb_step sb_spec].
  - (* CMake *)
    destruct (alloc_ok (sw_mem w) s l (bits_of l) Hm (proj1 Ho) ltac:(done)) as (m' & E & Hm' & Hg & Em). unfold agrees, mbind_, smem. rewrite E. eexists. split; [unfold add_slice; cbn; by rewrite Hd|].
    destruct (srel_grows w s m' (new_storage s (bits_of l)) Hr0 Hg Hm' eq_refl eq_refl) as (_ & _ & _ & Hds' & Hbs'). cbn [sw_ds sw_bms sw_mem] in *.
    split; [done|]. split; [done|]. cbn. rewrite ?Hd. split; [done|]. split; [|done]. apply Forall_app. rewrite <- Hd. split; [done|]. constructor; [|done].
    subst m'. split; [cbn; lia|]. cbn. split; [done|]. unfold array_of. cbn. rewrite lookup_insert. done.
  - (* CSub *)
    unfold mbind_ at 1, the_slice. rewrite Hd. destruct (t_ds s !! h) as [d|] eqn:Eh; cbn [mbind option_bind]; [|done]. destruct (Hsl _ _ Eh) as (Ha & Hlc & Hoc).
    unfold mbind_, smem, s_to, s_from. case_decide as Hc.
    + rewrite (proj2 (Z.leb_le 0 hi)), (proj2 (Z.leb_le hi _)) by lia. cbn [andb mret_ sw_mem s_len s_arr s_off s_cap sw_bms sw_ds]. rewrite (proj2 (Z.leb_le 0 lo)), (proj2 (Z.leb_le lo _)) by lia.
      cbn [andb mret_ sw_mem]. eexists. split; [unfold add_slice; cbn; by rewrite Hd|]. split; [done|]. split; [done|]. cbn. rewrite ?Hd. split; [done|]. split; [|done].
      apply Forall_app. rewrite <- Hd. split; [done|]. constructor; [|done]. split; [done|]. cbn. split; lia.
    + destruct ((0 <=? hi)%Z && (hi <=? Z.of_nat (s_cap d))%Z) eqn:E1; cbn; [|done]. rewrite andb_true_iff, !Z.leb_le in E1.
      destruct ((0 <=? lo)%Z && (lo <=? Z.of_nat (Z.to_nat hi))%Z) eqn:E2; cbn; [|done]. rewrite andb_true_iff, !Z.leb_le in E2. lia.
  - (* CLen *)
    unfold mbind_ at 1, the_slice. rewrite Hd. destruct (t_ds s !! h) as [d|] eqn:Eh; cbn [mbind option_bind]; [|done]. by eexists.
  - (* CGet *)
    unfold mbind_ at 1, the_slice. rewrite Hd. destruct (t_ds s !! h) as [d|] eqn:Eh; cbn [mbind option_bind]; [|done]. unfold mbind_, smem. case_decide as Hi.
    + destruct (get_ok (sw_mem w) s d i Hm (Hsl _ _ Eh) Hi) as (l & x & _ & _ & Hx & -> & Hs). exists w. split; [|done]. rewrite <- (byte_of_testbit x _ Hx Hs). by destruct w.
    + unfold s_get. destruct ((0 <=? i)%Z && (i <? Z.of_nat (s_len d))%Z) eqn:E; [|done]. rewrite andb_true_iff, Z.leb_le, Z.ltb_lt in E. lia.
  - (* CPut *)
    unfold mbind_ at 1, the_slice. rewrite Hd. destruct (t_ds s !! h) as [d|] eqn:Eh; cbn [mbind option_bind]; [|done]. unfold mbind_, smem. case_decide as Hi.
    + destruct (put_ok (sw_mem w) s d i x (λ old p, if decide (p / 8 = N.of_nat (s_off d) + Z.to_N i) then N.testbit x (p mod 8) else old p) Hm (Hsl _ _ Eh) Hi Ho ltac:(done)) as (m' & -> & Hm' & Hg).
      eexists. split; [done|]. by apply (srel_grows w s).
    + unfold s_set. destruct ((0 <=? i)%Z && (i <? Z.of_nat (s_len d))%Z) eqn:E; [|done]. rewrite andb_true_iff, Z.leb_le, Z.ltb_lt in E. lia.
  - (* SNew *)
    cbn in Ho. destruct (size_for_ok n Ho) as (Hs1 & Hs2 & Hs3). unfold mbind_ at 1, smem, sb_new. rewrite Hs1. destruct (make_ok (sw_mem w) s (size_for n / 8) Hm) as (m' & E & Hm' & Hg & Em).
    cbv zeta. unfold mbind_. rewrite E. cbn [mret_]. eexists. split; [unfold add_bitmap; cbn; by rewrite Hb|].
    destruct (srel_grows w s m' (new_storage s (λ _, false)) Hr0 Hg Hm' eq_refl eq_refl) as (_ & _ & _ & Hds' & Hbs'). cbn [sw_ds sw_bms sw_mem] in *.
    split; [done|]. cbn. rewrite ?Hb. split; [done|]. split; [done|]. split; [done|]. apply Forall_app. rewrite <- Hb. split; [done|]. constructor; [|done].
    subst m'. split; [split; [cbn; lia|]; cbn; split; [done|]; unfold array_of; cbn; rewrite lookup_insert; cbn; by rewrite replicate_length|]. cbn. rewrite N2Nat.id. split; [lia | done].
  - (* SFromData *)
    unfold mbind_ at 1, the_slice. rewrite Hd. destruct (t_ds s !! h) as [d|] eqn:Eh; cbn [mbind option_bind]; [|done]. eexists. split; [unfold add_bitmap; cbn; by rewrite Hb|].
    split; [done|]. cbn. rewrite ?Hb. split; [done|]. split; [done|]. split; [done|]. apply Forall_app. rewrite <- Hb. split; [done|]. constructor; [|done]. split; [by eapply Hsl|]. cbn. unfold u64.
    split_and!; [| by apply N.mod_lt|]; [rewrite N.mul_comm; by apply N.mod_le | lia].
  - (* SData *)
    unfold mbind_ at 1, the_bitmap. rewrite Hb. destruct (t_bms s !! b) as [x|] eqn:Eb; cbn [mbind option_bind]; [|done]. eexists. split; [unfold add_slice; cbn; by rewrite Hd|].
    split; [done|]. cbn. rewrite ?Hd. split; [done|]. split; [done|]. split; [|done]. apply Forall_app. rewrite <- Hd. split; [done|]. constructor; [|done]. by destruct (Hbm _ _ Eb).
  - (* SSet *)
    unfold mbind_ at 1, the_bitmap. rewrite Hb. destruct (t_bms s !! b) as [x|] eqn:Eb; cbn [mbind option_bind]; [|done]. destruct (Hbm _ _ Eb) as (Hs & Hsz & _). unfold mbind_ at 1, smem, sb_set.
    case_decide as Hp; [rewrite (proj2 (N.leb_gt _ _)) by done | rewrite (proj2 (N.leb_le _ _)) by lia; eexists; split; [reflexivity | by destruct w]].
    rewrite shiftr3. assert (Hi : (0 <= Z.of_N (p / 8) < Z.of_nat (s_len (sb_data x)))%Z) by lia.
    destruct (get_ok (sw_mem w) s (sb_data x) _ Hm Hs Hi) as (l & y & El & Ey & Hy & E & Hbit). unfold mbind_. rewrite E.
    destruct (put_ok (sw_mem w) s (sb_data x) (Z.of_N (p / 8)) (N.lor y (bit_of p)) (λ old q, if decide (q = 8 * N.of_nat (s_off (sb_data x)) + p) then true else old q) Hm Hs Hi (lor_byte _ _ Hy)) as (m' & -> & Hm' & Hg).
    { intros q. rewrite testbit_set by (by apply N.mod_lt). case_decide as E1; [subst q|].
      - rewrite decide_True by lia. rewrite decide_True by lia. done.
      - case_decide as E2; [|done]. rewrite decide_False by lia. rewrite Hbit by (by apply N.mod_lt). unfold seen. f_equal. lia. }
    cbn. eexists. split; [done|]. by apply (srel_grows w s).
  - (* SUnset *)
    unfold mbind_ at 1, the_bitmap. rewrite Hb. destruct (t_bms s !! b) as [x|] eqn:Eb; cbn [mbind option_bind]; [|done]. destruct (Hbm _ _ Eb) as (Hs & Hsz & _). unfold mbind_ at 1, smem, sb_unset.
    case_decide as Hp; [rewrite (proj2 (N.leb_gt _ _)) by done | rewrite (proj2 (N.leb_le _ _)) by lia; eexists; split; [reflexivity | by destruct w]].
    rewrite shiftr3. assert (Hi : (0 <= Z.of_N (p / 8) < Z.of_nat (s_len (sb_data x)))%Z) by lia.
    destruct (get_ok (sw_mem w) s (sb_data x) _ Hm Hs Hi) as (l & y & El & Ey & Hy & E & Hbit). unfold mbind_. rewrite E.
    destruct (put_ok (sw_mem w) s (sb_data x) (Z.of_N (p / 8)) (N.land y (N.lxor 255 (bit_of p))) (λ old q, if decide (q = 8 * N.of_nat (s_off (sb_data x)) + p) then false else old q) Hm Hs Hi (land_byte _ _ Hy)) as (m' & -> & Hm' & Hg).
    { intros q. rewrite testbit_unset by (by apply N.mod_lt). case_decide as E1; [subst q|].
      - rewrite decide_True by lia. rewrite decide_True by lia. done.
      - case_decide as E2; [|done]. rewrite decide_False by lia. rewrite Hbit by (by apply N.mod_lt). unfold seen. f_equal. lia. }
    cbn. eexists. split; [done|]. by apply (srel_grows w s).
  - (* SIsSet *)
    unfold mbind_ at 1, the_bitmap. rewrite Hb. destruct (t_bms s !! b) as [x|] eqn:Eb; cbn [mbind option_bind]; [|done]. destruct (Hbm _ _ Eb) as (Hs & Hsz & _). unfold mbind_ at 1, smem, sb_isset.
    destruct (decide (p < sb_size x)) as [Hp|Hp].
    + rewrite (proj2 (N.leb_gt _ _)), bool_decide_true by done. rewrite shiftr3. assert (Hi : (0 <= Z.of_N (p / 8) < Z.of_nat (s_len (sb_data x)))%Z) by lia.
      destruct (get_ok (sw_mem w) s (sb_data x) _ Hm Hs Hi) as (l & y & El & Ey & Hy & E & Hbit). unfold mbind_. rewrite E. cbn [mret_]. exists w. split; [|done].
      rewrite bit_of_eq, testbit_land_pos, Hbit by (by apply N.mod_lt). cbn [andb]. replace (8 * Z.to_N (Z.of_N (p / 8)) + p mod 8) with p by lia. by destruct w.
    + rewrite (proj2 (N.leb_le _ _)), bool_decide_false by lia. eexists. split; [reflexivity | by destruct w].
  - (* SResize *)
    cbn in Ho. destruct (size_for_ok n Ho) as (Hs1 & Hs2 & Hs3).
    unfold mbind_ at 1, the_bitmap. rewrite Hb. destruct (t_bms s !! b) as [x|] eqn:Eb; cbn [mbind option_bind]; [|done]. destruct (Hbm _ _ Eb) as (Hs & Hsz & Hlt & H8). unfold mbind_ at 1, smem, sb_resize.
    cbv zeta. rewrite Hs1. case_decide as E.
    + rewrite E, N.eqb_refl. cbn. eexists. split; [reflexivity|]. destruct w as [mm bb dd]. cbn [sw_mem sw_bms sw_ds] in *. rewrite list_insert_id by (by rewrite Hb). done.
    + rewrite (proj2 (N.eqb_neq _ _)) by done. destruct (make_ok (sw_mem w) s (size_for n / 8) Hm) as (m' & Em & Hm' & Hg & Eqm). unfold mbind_. rewrite Em. cbn [s_len].
      destruct Hm as [Hnx Hma]. destruct Hs as (Ha & Hlc & Hoc). destruct (Hma _ Ha) as (ls & Els & Hls & Hbits). rewrite (array_some _ _ _ Els) in Hoc.
      assert (Hne : t_next s ≠ s_arr (sb_data x)) by lia. set (cnt := Nat.min _ _).
      pose proof (copy_ok (MkSlice (t_next s) 0 (N.to_nat (size_for n / 8)) (N.to_nat (size_for n / 8))) (sb_data x) cnt 0 m' (replicate (N.to_nat (size_for n / 8)) 0) ls) as HC.
      change (Z.of_nat 0) with 0%Z in HC. rewrite HC; cbn [s_arr s_off s_len]; clear HC.
      2:{ subst m'. cbn. apply lookup_insert. } 2:{ subst m'. cbn. by rewrite lookup_insert_ne. } 2:done. 2:done. 2:by rewrite replicate_length. 2:{ rewrite replicate_length. unfold cnt. lia. } 2:{ unfold cnt. lia. } 2:lia.
      cbn [mret_]. eexists. split; [reflexivity|]. subst m'. cbn [m_arr m_next sw_mem sw_bms sw_ds] in *. rewrite take_0. cbn [app]. rewrite !Nat.add_0_l, Nat.add_0_r, insert_insert.
      set (l' := take cnt (drop (s_off (sb_data x)) ls) ++ drop cnt (replicate (N.to_nat (size_for n / 8)) 0)).
      assert (Hl'len : length l' = N.to_nat (size_for n / 8)). { unfold l'. rewrite app_length, take_length, !drop_length, replicate_length. unfold cnt. lia. }
      assert (Hg' : grows (sw_mem w) (MkMem (<[t_next s := l']> (m_arr (sw_mem w))) (S (t_next s)))).
      { split; [cbn; lia|]. intros a Haa. unfold array_of. cbn. rewrite lookup_insert_ne by lia. done. }
      split; [|split; [cbn; by rewrite Hb|split; [done|split]]]; cbn [sw_mem sw_bms sw_ds].
      * split; [done|]. cbn [m_next m_arr replace_bitmap new_storage t_bits]. intros a Haa. case_decide as Ea.
        -- subst a. rewrite lookup_insert. exists l'. split; [done|]. split. { unfold l'. apply Forall_app. split; [by apply Forall_take, Forall_drop | by apply Forall_drop, Forall_replicate]. }
           intros p. unfold seen. rewrite Hbits. unfold bits_of, l'. destruct (decide (p / 8 < N.of_nat cnt)) as [Hp|Hp].
           ++ rewrite lookup_app_l by (rewrite take_length, drop_length; unfold cnt in *; lia). rewrite lookup_take, lookup_drop by lia.
              rewrite bool_decide_true by (unfold cnt in Hp; lia). cbn [andb]. f_equal; [|lia]. f_equal. f_equal. lia.
           ++ rewrite bool_decide_false by (unfold cnt in Hp; lia). cbn [andb].
              rewrite lookup_app_r by (rewrite take_length, drop_length; unfold cnt in *; lia). rewrite lookup_drop.
              destruct (replicate (N.to_nat (size_for n / 8)) 0 !! _) as [z|] eqn:Ez; [apply lookup_replicate in Ez as [-> _]|]; cbn; rewrite ?N.bits_0; done.
        -- rewrite lookup_insert_ne by done. apply Hma. lia.
      * eapply Forall_impl; [exact Hds|]. intros d. by apply slok_grows.
      * apply Forall_insert; [eapply Forall_impl; [exact Hbs|]; intros y; by apply bmok_grows|]. cbn.
        split; [split; [cbn; lia|]; cbn; split; [done|]; unfold array_of; cbn; rewrite lookup_insert; cbn; lia|]. cbn. rewrite N2Nat.id. split; [lia | done].
  - (* SClear *)
    unfold mbind_ at 1, the_bitmap. rewrite Hb. destruct (t_bms s !! b) as [x|] eqn:Eb; cbn [mbind option_bind]; [|done]. destruct (Hbm _ _ Eb) as (Hs & Hsz & Hlt & H8). unfold mbind_ at 1, smem, sb_clear.
    destruct (make_ok (sw_mem w) s (sb_size x / 8) Hm) as (m' & E & Hm' & Hg & Em). unfold mbind_. rewrite E. cbn [mret_]. eexists. split; [reflexivity|].
    destruct (srel_grows w s m' (new_storage s (λ _, false)) Hr0 Hg Hm' eq_refl eq_refl) as (_ & _ & _ & Hds' & Hbs'). cbn [sw_ds sw_bms sw_mem] in *.
    split; [done|]. cbn. rewrite ?Hb. split; [done|]. split; [done|]. split; [done|]. rewrite <- Hb. apply Forall_insert; [done|].
    subst m'. split; [split; [cbn; lia|]; cbn; split; [done|]; unfold array_of; cbn; rewrite lookup_insert; cbn; by rewrite replicate_length|]. cbn. rewrite N2Nat.id. split; [lia | done].
  - (* SSize *)
    unfold mbind_ at 1, the_bitmap. rewrite Hb. destruct (t_bms s !! b) as [x|] eqn:Eb; cbn [mbind option_bind]; [|done]. by eexists.
Qed.

Lemma srel0 : srel sw0 sh0.
Proof. split; [split; [done|]; cbn; lia|]. split_and!; try done; constructor. Qed.
(** every history of client actions and calls, with its panics: reads and writes through a bitmap, through
    the slice it was made from and through the slice Data returned reach one and the same storage; New,
    Resize to another size and Clear make a new one *)
Theorem bitmap_sharing ops : Forall sb_op_ok ops → agrees srel (run sb_step ops sw0) (srun sb_spec ops sh0).
Proof. intros H. eapply run_agrees; [|exact H|exact srel0]. intros o w s. apply sb_step_agrees. Qed.

Lemma srun_of_run ops w s outs w' : Forall sb_op_ok ops → srel w s → run sb_step ops w = Ok (outs, w') → ∃ s', srun sb_spec ops s = Some (outs, s') ∧ srel w' s'.
Proof.
  intros Ho Hr E. assert (agrees srel (run sb_step ops w) (srun sb_spec ops s)) as H. { eapply run_agrees; [|exact Ho|exact Hr]. intros o w1 s1. apply sb_step_agrees. }
  unfold agrees in H. destruct (srun sb_spec ops s) as [[o1 s1]|]; [|rewrite E in H; done]. destruct H as (w1 & H1 & H2). rewrite E in H1. injection H1 as -> ->. by eexists.
Qed.
(** the invariants of the specification *)
Definition small (d : slice) : Prop := (s_len d <= s_cap d)%nat ∧ N.of_nat (s_cap d) < 2 ^ 61.
Definition sized (x : sbitmap) : Prop := sb_size x = N.of_nat (s_len (sb_data x)) * 8 ∧ small (sb_data x).
Definition all_sized (s : shared) : Prop := Forall sized (t_bms s) ∧ Forall small (t_ds s).
Lemma whole_sized s n : n < 2 ^ 64 → n / 8 * 8 = n → sized (whole s n).
Proof. intros H1 H2. unfold sized, small. cbn. rewrite N2Nat.id, H2. split; [done|]. split; [done|]. lia. Qed.
Ltac spec_cases H := repeat ((let E := fresh "Ex" in match type of H with context [?l !! ?i] => destruct (l !! i) eqn:E end); cbn [mbind option_bind] in H); try done; try (match type of H with (if decide ?P then _ else _) = _ => destruct (decide P) end); try done.
Lemma sized_step o s r s' : sb_op_ok o → all_sized s → (∀ b x, t_bms s !! b = Some x → sb_size x < 2 ^ 64 ∧ sb_size x / 8 * 8 = sb_size x) → sb_spec o s = Some (r, s') → all_sized s'.
Proof.
  intros Ho [H Hd] Hx E. destruct o as [l|h lo hi|h|h i|h i x|n|h|b|b p|b p|b p|b n|b|b]; cbn [sb_spec] in E; spec_cases E; injection E as <- <-; try done; (split; cbn; try done).
  - apply Forall_app. split; [done|]. constructor; [|done]. split; [done|]. apply Ho.
  - apply Forall_app. split; [done|]. constructor; [|done]. destruct (Forall_lookup_1 _ _ _ _ Hd Ex). split; cbn; lia.
  - apply Forall_app. split; [done|]. constructor; [|done]. cbn in Ho. destruct (size_for_ok n Ho) as (_ & H2 & H3). by apply whole_sized.
  - apply Forall_app. split; [done|]. constructor; [|done]. destruct (Forall_lookup_1 _ _ _ _ Hd Ex). split; [|done]. cbn [sb_size sb_data]. apply N.mod_small. lia.
  - apply Forall_app. split; [done|]. constructor; [|done]. by destruct (Forall_lookup_1 _ _ _ _ H Ex).
  - apply Forall_insert; [done|]. cbn in Ho. destruct (size_for_ok n Ho) as (_ & H2 & H3). by apply whole_sized.
  - apply Forall_insert; [done|]. destruct (Hx _ _ Ex). by apply whole_sized.
Qed.
Lemma srel_bms w s : srel w s → ∀ b x, t_bms s !! b = Some x → sb_size x < 2 ^ 64 ∧ sb_size x / 8 * 8 = sb_size x.
Proof. intros (_ & Hb & _ & _ & Hbs) b x E. rewrite <- Hb in E. apply (Forall_lookup_1 _ _ _ _ Hbs) in E as (_ & _ & ? & ?). done. Qed.
(** induction along a run *)
Lemma srun_ind (P : shared → Prop) (good : sb_op → Prop) : (∀ o w s r s', sb_op_ok o → good o → srel w s → P s → sb_spec o s = Some (r, s') → P s') →
  ∀ ops w s outs w', Forall sb_op_ok ops → Forall good ops → srel w s → P s → run sb_step ops w = Ok (outs, w') → ∃ s', srel w' s' ∧ P s'.
Proof.
  intros Hstep. induction ops as [|o ops IH]; intros w s outs w' Ho Hg Hr HP E; [injection E as <- <-; by exists s|].
  apply Forall_cons in Ho as [Ho Hos]. apply Forall_cons in Hg as [Hg Hgs]. pose proof (sb_step_agrees o w s Ho Hr) as Ha. cbn in E. unfold agrees in Ha.
  destruct (sb_spec o s) as [[r1 s1]|] eqn:Es; [|by rewrite Ha in E]. destruct Ha as (w1 & E1 & Hr1). rewrite E1 in E.
  destruct (run sb_step ops w1) as [[rs w2]| |] eqn:E2; try done. injection E as <- <-. apply (IH w1 s1 rs w2 Hos Hgs Hr1); [|done]. by eapply (Hstep o w s).
Qed.
Lemma run_sized ops w s outs w' : Forall sb_op_ok ops → srel w s → all_sized s → run sb_step ops w = Ok (outs, w') → ∃ s', srel w' s' ∧ all_sized s'.
Proof.
  intros Ho Hr Hs E. eapply (srun_ind all_sized (λ _, True)); [|exact Ho|by apply Forall_true|exact Hr|exact Hs|exact E].
  intros o w1 s1 r s2 Ho1 _ Hr1 HP E1. eapply sized_step; [exact Ho1|exact HP|by eapply srel_bms|exact E1].
Qed.
Lemma keeps_step b x o s r s' : keeps b o → t_bms s !! b = Some x → sb_spec o s = Some (r, s') → t_bms s' !! b = Some x.
Proof.
  intros Hk Hb E. destruct o as [l|h lo hi|h|h i|h i y|n|h|b'|b' p|b' p|b' p|b' n|b'|b']; cbn [sb_spec keeps] in *; spec_cases E; injection E as <- <-; try done; cbn.
  - by apply lookup_app_l_Some. - by apply lookup_app_l_Some. - by rewrite list_lookup_insert_ne. - by rewrite list_lookup_insert_ne.
Qed.
Lemma isset_step w s b x p : srel w s → t_bms s !! b = Some x → sb_step (SIsSet b p) w = Ok (SBool (bool_decide (p < sb_size x) && seen s (sb_data x) p), w).
Proof.
  intros Hr E. pose proof (sb_step_agrees (SIsSet b p) w s I Hr) as H. unfold agrees in H. cbn [sb_spec] in H. rewrite E in H. cbn [mbind option_bind] in H. destruct H as (w' & H & _).
  rewrite H. f_equal. f_equal. cbn [sb_step] in H. unfold mbind_ in H. destruct (the_bitmap b w) as [[y w1]| |] eqn:E1; try done.
  assert (w1 = w) as -> by (unfold the_bitmap in E1; destruct (sw_bms w !! b); [by injection E1 as <- <- | done]).
  unfold smem in H. unfold sb_isset in H. destruct (sb_size y <=? p); [by injection H as _ <-; destruct w|]. unfold mbind_ in H.
  destruct (s_get (sb_data y) _ (sw_mem w)) as [[z m]| |] eqn:E2; try done. assert (m = sw_mem w) as ->. { unfold s_get in E2. destruct (_ && _)%bool; [|done]. destruct (array_of _ _ !! _); [by injection E2 as <- <- | done]. }
  by injection H as _ <-; destruct w.
Qed.

(** Data and NewFromData share: a bitmap made from the Data of another agrees with it on every bit, after
    whatever is done to either, or to the slice, until one of the two is resized or cleared *)
Theorem bitmap_data_shares ops b ops2 outs w1 h w2 b' w3 outs2 w4 :
  Forall sb_op_ok ops → Forall sb_op_ok ops2 →
  run sb_step ops sw0 = Ok (outs, w1) → sb_step (SData b) w1 = Ok (SSlice h, w2) → sb_step (SFromData h) w2 = Ok (SBitmap b', w3) →
  run sb_step ops2 w3 = Ok (outs2, w4) → Forall (λ o, keeps b o ∧ keeps b' o) ops2 →
  ∀ p, ∃ r, sb_step (SIsSet b p) w4 = Ok (SBool r, w4) ∧ sb_step (SIsSet b' p) w4 = Ok (SBool r, w4).
Proof.
  intros Ho1 Ho2 E1 E2 E3 E4 Hk p. destruct (run_sized ops sw0 sh0 outs w1 Ho1 srel0 ltac:(by split; constructor) E1) as (s1 & Hr1 & Hz1 & Hzd).
  pose proof (sb_step_agrees (SData b) w1 s1 I Hr1) as H. unfold agrees in H. cbn [sb_spec] in H. destruct (t_bms s1 !! b) as [x|] eqn:Eb; cbn [mbind option_bind] in H; [|by rewrite E2 in H].
  destruct H as (w2' & H & Hr2). rewrite E2 in H. injection H as -> <-. set (s2 := with_slice s1 (sb_data x)) in *.
  pose proof (sb_step_agrees (SFromData (length (t_ds s1))) w2 s2 I Hr2) as H. unfold agrees in H. cbn [sb_spec s2 with_slice t_ds] in H.
  rewrite list_lookup_middle in H by done. cbn [mbind option_bind] in H. destruct H as (w3' & H & Hr3). rewrite E3 in H. injection H as -> <-.
  set (x' := MkSB (sb_data x) (N.of_nat (s_len (sb_data x)) * 8 mod 2 ^ 64)) in *. set (s3 := with_bitmap s2 x') in *. cbn [t_bms s2 with_slice] in *.
  assert (Hx : x' = x). { unfold x'. apply (Forall_lookup_1 _ _ _ _ Hz1) in Eb. destruct Eb as [Eb [Hlc Hcap]]. rewrite N.mod_small by lia. rewrite <- Eb. by destruct x. }
  destruct (srun_ind (λ s, t_bms s !! b = Some x ∧ t_bms s !! (length (t_bms s1)) = Some x) (λ o, keeps b o ∧ keeps (length (t_bms s1)) o)) with ops2 w3 s3 outs2 w4 as (s4 & Hr4 & H1 & H2); try done.
  - intros o w s r s' _ [Hka Hkb] _ [Ha Hb'] E. split; [exact (keeps_step b x o s r s' Hka Ha E) | exact (keeps_step _ x o s r s' Hkb Hb' E)].
  - unfold s3, with_bitmap. cbn. split; [by apply lookup_app_l_Some|]. rewrite list_lookup_middle by done. by rewrite Hx.
  - eexists. split; [exact (isset_step w4 s4 b x p Hr4 H1) | exact (isset_step w4 s4 _ x p Hr4 H2)].
Qed.

(** a bitmap whose storage nobody else has *)
Definition alone (b : nat) (x : sbitmap) (f : N → bool) (s : shared) : Prop :=
  t_bms s !! b = Some x ∧ (s_arr (sb_data x) < t_next s)%nat ∧ (∀ h d, t_ds s !! h = Some d → s_arr d ≠ s_arr (sb_data x)) ∧
  (∀ b' y, b' ≠ b → t_bms s !! b' = Some y → s_arr (sb_data y) ≠ s_arr (sb_data x)) ∧ ∀ p, t_bits s (s_arr (sb_data x)) p = f p.
Lemma alone_step b x f o s r s' : leaves b o → alone b x f s → sb_spec o s = Some (r, s') → alone b x f s'.
Proof.
  intros Hl (Hb & Ha & Hd & Hy & Hf) E. destruct o as [l|h lo hi|h|h i|h i y|n|h|b'|b' p|b' p|b' p|b' n|b'|b']; cbn [sb_spec leaves] in *; spec_cases E; injection E as <- <-; try done; unfold alone; cbn.
  - split_and!; [done|lia| |done|]. { intros h d Eh. apply lookup_app_Some in Eh as [Eh|[_ Eh]]; [by eapply Hd|]. apply list_lookup_singleton_Some in Eh as [_ <-]. cbn. lia. }
    intros p. rewrite decide_False by lia. apply Hf.
  - split_and!; try done. intros h' d' Eh. apply lookup_app_Some in Eh as [Eh|[_ Eh]]; [by eapply Hd|]. apply list_lookup_singleton_Some in Eh as [_ <-]. cbn. by eapply Hd.
  - split_and!; try done. intros p. rewrite decide_False; [apply Hf|]. intros E. symmetry in E. revert E. by eapply Hd.
  - split_and!; [by apply lookup_app_l_Some|lia|done| |]. { intros b' y' Hne Eb. apply lookup_app_Some in Eb as [Eb|[_ Eb]]; [by eapply Hy|]. apply list_lookup_singleton_Some in Eb as [_ <-]. cbn. lia. }
    intros p. rewrite decide_False by lia. apply Hf.
  - split_and!; [by apply lookup_app_l_Some|done|done| |done]. intros b' y' Hne Eb. apply lookup_app_Some in Eb as [Eb|[_ Eb]]; [by eapply Hy|]. apply list_lookup_singleton_Some in Eb as [_ <-]. cbn. by eapply Hd.
  - split_and!; try done. intros h' d' Eh. apply lookup_app_Some in Eh as [Eh|[_ Eh]]; [by eapply Hd|]. apply list_lookup_singleton_Some in Eh as [_ <-]. by eapply Hy.
  - split_and!; try done. intros q. rewrite decide_False; [apply Hf|]. intros E. symmetry in E. revert E. by eapply Hy.
  - split_and!; try done. intros q. rewrite decide_False; [apply Hf|]. intros E. symmetry in E. revert E. by eapply Hy.
  - split_and!; [by rewrite list_lookup_insert_ne|lia|done| |]. { intros b2 y' Hne Eb. destruct (decide (b2 = b')) as [->|]; [|rewrite list_lookup_insert_ne in Eb by done; by eapply Hy].
      rewrite list_lookup_insert in Eb by (by eapply lookup_lt_Some). injection Eb as <-. cbn. lia. } intros p. rewrite decide_False by lia. apply Hf.
  - split_and!; [by rewrite list_lookup_insert_ne|lia|done| |]. { intros b2 y' Hne Eb. destruct (decide (b2 = b')) as [->|]; [|rewrite list_lookup_insert_ne in Eb by done; by eapply Hy].
      rewrite list_lookup_insert in Eb by (by eapply lookup_lt_Some). injection Eb as <-. cbn. lia. } intros p. rewrite decide_False by lia. apply Hf.
Qed.
Lemma srel_bounds w s : srel w s → (∀ h d, t_ds s !! h = Some d → (s_arr d < t_next s)%nat) ∧ ∀ b x, t_bms s !! b = Some x → (s_arr (sb_data x) < t_next s)%nat.
Proof.
  intros ([Hn _] & Hb & Hd & Hds & Hbs). rewrite <- Hb, <- Hd, <- Hn. split.
  - intros h d E. by apply (Forall_lookup_1 _ _ _ _ Hds) in E as (? & _). - intros b x E. by apply (Forall_lookup_1 _ _ _ _ Hbs) in E as ((? & _) & _).
Qed.
Lemma fresh_alone w s b x n f : srel w s → t_bms s !! b = Some x → alone b (whole s n) f (replace_bitmap (new_storage s f) b (whole s n)).
Proof.
  intros Hr Eb. destruct (srel_bounds w s Hr) as [H1 H2]. split; [cbn; by apply list_lookup_insert, (lookup_lt_Some _ _ _ Eb)|]. cbn. split; [lia|]. split; [intros h d E; specialize (H1 _ _ E); lia|].
  split. { intros b' y Hne E. rewrite list_lookup_insert_ne in E by done. specialize (H2 _ _ E). lia. } intros p. by rewrite decide_True.
Qed.
(** after Clear, no bit is set whatever is done to slices and bitmaps that shared its storage before *)
Theorem bitmap_clear_detaches ops b ops2 outs w1 w2 outs2 w3 :
  Forall sb_op_ok ops → Forall sb_op_ok ops2 → run sb_step ops sw0 = Ok (outs, w1) → sb_step (SClear b) w1 = Ok (SUnit, w2) →
  run sb_step ops2 w2 = Ok (outs2, w3) → Forall (leaves b) ops2 → ∀ p, sb_step (SIsSet b p) w3 = Ok (SBool false, w3).
Proof.
  intros Ho1 Ho2 E1 E2 E3 Hl p. destruct (srun_of_run ops sw0 sh0 outs w1 Ho1 srel0 E1) as (s1 & _ & Hr1).
  pose proof (sb_step_agrees (SClear b) w1 s1 I Hr1) as H. unfold agrees in H. cbn [sb_spec] in H. destruct (t_bms s1 !! b) as [x|] eqn:Eb; cbn [mbind option_bind] in H; [|by rewrite E2 in H].
  destruct H as (w2' & H & Hr2). rewrite E2 in H. injection H as <-.
  destruct (srun_ind (alone b (whole s1 (sb_size x)) (λ _, false)) (leaves b)) with ops2 w2 (replace_bitmap (new_storage s1 (λ _, false)) b (whole s1 (sb_size x))) outs2 w3 as (s3 & Hr3 & Ha); try done.
  - intros o w s r s' _ Hlo _ HP E. exact (alone_step b _ _ o s r s' Hlo HP E).
  - exact (fresh_alone w1 s1 b x _ _ Hr1 Eb).
  - rewrite (isset_step w3 s3 b _ p Hr3 (proj1 Ha)). unfold seen. destruct Ha as (_ & _ & _ & _ & Hf). rewrite Hf. by rewrite andb_false_r.
Qed.
(** after Resize to another size, the bits are those it had before, and no longer follow what is done to slices and bitmaps
    that shared its storage *)
Theorem bitmap_resize_detaches ops b n m ops2 outs w1 w2 outs2 w3 :
  Forall sb_op_ok ops → n < 2 ^ 64 → Forall sb_op_ok ops2 → run sb_step ops sw0 = Ok (outs, w1) →
  sb_step (SSize b) w1 = Ok (SNum m, w1) → m ≠ size_for n → sb_step (SResize b n) w1 = Ok (SUnit, w2) →
  run sb_step ops2 w2 = Ok (outs2, w3) → Forall (leaves b) ops2 →
  ∀ p, ∃ r, sb_step (SIsSet b p) w1 = Ok (SBool r, w1) ∧ sb_step (SIsSet b p) w3 = Ok (SBool (bool_decide (p < size_for n) && r), w3).
Proof.
  intros Ho1 Hn Ho2 E1 Em Hne E2 E3 Hl p. destruct (run_sized ops sw0 sh0 outs w1 Ho1 srel0 ltac:(by split; constructor) E1) as (s1 & Hr1 & Hz1 & Hzd).
  pose proof (sb_step_agrees (SResize b n) w1 s1 Hn Hr1) as H. pose proof (sb_step_agrees (SSize b) w1 s1 I Hr1) as Hs. unfold agrees in H, Hs. cbn [sb_spec] in H, Hs.
  destruct (t_bms s1 !! b) as [x|] eqn:Eb; cbn [mbind option_bind] in H, Hs; [|by rewrite E2 in H]. destruct Hs as (ws & Hs & _). rewrite Em in Hs. injection Hs as -> _.
  rewrite decide_False in H by done. destruct H as (w2' & H & Hr2). rewrite E2 in H. injection H as <-.
  set (f := λ p, bool_decide (p < size_for n ∧ p < 8 * N.of_nat (s_len (sb_data x))) && seen s1 (sb_data x) p) in *.
  destruct (srun_ind (alone b (whole s1 (size_for n)) f) (leaves b)) with ops2 w2 (replace_bitmap (new_storage s1 f) b (whole s1 (size_for n))) outs2 w3 as (s3 & Hr3 & Ha); try done.
  - intros o w s r s' _ Hlo _ HP E. exact (alone_step b _ _ o s r s' Hlo HP E).
  - exact (fresh_alone w1 s1 b x _ _ Hr1 Eb).
  - eexists. split; [exact (isset_step w1 s1 b x p Hr1 Eb)|]. rewrite (isset_step w3 s3 b _ p Hr3 (proj1 Ha)). unfold seen at 1. destruct Ha as (_ & _ & _ & _ & Hf). rewrite Hf. unfold f. cbn [whole sb_size sb_data s_off s_arr]. rewrite N.mul_0_r, N.add_0_l.
    destruct (Forall_lookup_1 _ _ _ _ Hz1 Eb) as [Hsz _]. set (v := seen s1 (sb_data x) p). clearbody v. rewrite (bool_decide_ext (p < size_for n ∧ p < 8 * N.of_nat (s_len (sb_data x))) (p < size_for n ∧ p < sb_size x)) by (rewrite Hsz; lia).
    rewrite bool_decide_and. destruct (bool_decide (p < size_for n)), (bool_decide (p < sb_size x)), v; reflexivity.
Qed.


(** concrete: a bitmap of 16 bits, its Data, a second bitmap over it; setting bit 5 in one sets it in the other; after Resize the first
    no longer follows *)
Example bitmap_sharing_example :
  match run sb_step [SNew 10; SData 0; SFromData 0; SSet 1 5; SIsSet 0 5; CGet 0 0; CPut 0 1 128; SIsSet 0 15; SResize 0 24; SUnset 1 5; SIsSet 0 5; SIsSet 1 5; SIsSet 0 15] sw0 with
  | Ok (outs, _) => outs = [SBitmap 0; SSlice 0; SBitmap 1; SBool true; SBool true; SNum 32; SUnit; SBool true; SUnit; SBool true; SBool true; SBool false; SBool true] | _ => False end.
Proof. by vm_compute. Qed.
(** the hypotheses of [bitmap_data_shares]: ops = [SNew 10], then SData, SFromData, ops2 = [SSet 1 5] *)
Example bitmap_data_shares_example : ∃ w1 w2 w3 w4 outs2, run sb_step [SNew 10] sw0 = Ok ([SBitmap 0], w1) ∧ sb_step (SData 0) w1 = Ok (SSlice 0, w2) ∧
  sb_step (SFromData 0) w2 = Ok (SBitmap 1, w3) ∧ run sb_step [SSet 1 5; CPut 0 1 128] w3 = Ok (outs2, w4) ∧ Forall (λ o, keeps 0 o ∧ keeps 1 o) [SSet 1 5; CPut 0 1 128] ∧
  sb_step (SIsSet 0 5) w4 = Ok (SBool true, w4).
Proof. do 5 eexists. split; [reflexivity|]. split; [reflexivity|]. split; [reflexivity|]. split; [vm_compute; reflexivity|]. split; [repeat constructor|]. vm_compute. reflexivity. Qed.
(** the hypotheses of [bitmap_clear_detaches] and [bitmap_resize_detaches]: another bitmap over the same storage is set afterwards *)
Example bitmap_detaches_example : ∃ outs w1 w2 w2' w3 w3' outs2, run sb_step [SNew 10; SSet 0 3; SData 0; SFromData 0] sw0 = Ok (outs, w1) ∧
  sb_step (SClear 0) w1 = Ok (SUnit, w2) ∧ run sb_step [SSet 1 5] w2 = Ok (outs2, w3) ∧ Forall (leaves 0) [SSet 1 5] ∧
  sb_step (SSize 0) w1 = Ok (SNum 16, w1) ∧ 16 ≠ size_for 4 ∧ sb_step (SResize 0 4) w1 = Ok (SUnit, w2') ∧ run sb_step [SSet 1 5] w2' = Ok (outs2, w3').
Proof.
  do 7 eexists. split; [vm_compute; reflexivity|]. split; [vm_compute; reflexivity|]. split; [vm_compute; reflexivity|]. split; [by repeat constructor|]. split; [vm_compute; reflexivity|]. split; [done|]. split; vm_compute; reflexivity.
Qed.
Print Assumptions bitmap_sharing.
Print Assumptions bitmap_data_shares.
Print Assumptions bitmap_clear_detaches.
Print Assumptions bitmap_resize_detaches.
