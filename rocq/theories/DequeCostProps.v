(** C98: every call at the ends of a deque takes amortized constant time. *)
From Verif Require Import Base Wp History DequeModel SegmentProofs DequeLists DequeProofs DequeOps DequeOps2 DequeOps3 DequeOps4 DequeSpec DequeHist DequeCostModel DequeCostProofs.
Open Scope Z_scope.
Open Scope go_scope.

(** a call other than Insert, EraseAt, EraseRange and Clear *)
Definition at_ends {T} (o : dq_op T) : Prop := match o with DInsert _ _ | DEraseAt _ | DEraseRange _ _ | DClear => False | _ => True end.

Section props.
  Context {T : Type} (zero : T) (newcap : Z → Z).
  Implicit Types (d : deque T) (w : cdeque T).
  (** what the invariant says about the numbers *)
  Lemma nums d l : dinv d l → let n := Z.of_nat (length l) in 0 <= us d ∧ roomy d ∧ 10 * cs d <= Z.max 20 (24 * us d) ∧
    128 * (us d - 2) + 2 <= n <= 128 * us d ∧ dq_size d = n ∧ (dq_begin d = 0 → 0 < n → us d = dq_end d).
  Proof using.
    clear zero newcap. intros (ps & ls & Hinv). pose proof (dinv_pos _ _ _ _ Hinv) as Hpos. destruct Hinv as [Hr Hs Hsh Hc Hsz [_ Hg] Hroom Hpl]. pose proof (store_ok_len _ _ _ _ Hs) as Hlen.
    assert (us d = Z.of_nat (length ps)) as Hu.
    { destruct (decide (ps = [])) as [->|Hps].
      - destruct ls; [|done]. cbn in Hc. subst l. unfold us. by rewrite Hsz.
      - destruct (Hpos Hps) as (Hz & _). pose proof (seg_used_ok d ps Hr Hz Hps) as E. rewrite used_is in E. by injection E. }
    rewrite Hu. cbn zeta. split; [lia|]. split.
    { unfold roomy, cs. rewrite Hu. destruct Hroom as [H|H]; [left; lia|]. right. pose proof (ring_len _ _ _ _ Hr). lia. }
    split. { assert (Z.of_nat (24 * length ps / 10) * 10 <= 24 * Z.of_nat (length ps)). { pose proof (Nat.mul_div_le (24 * length ps) 10 ltac:(lia)). lia. } unfold cs. lia. }
    split.
    { assert (length l <= 128 * length ls)%nat.
      { rewrite <-Hc, <-(off_all ls (length ls)) by done. destruct Hsh as [H1 _]. assert (∀ j, j <= length ls → off ls j <= 128 * j)%nat as H; [|apply H; done].
        induction j as [|j IH]; intros Hj; [rewrite off_0; lia|]. specialize (H1 j ltac:(lia)). assert (C = 128%nat) as HC by done. rewrite HC in H1. lia. }
      split; [|lia]. destruct (decide (length ls <= 1)%nat); [lia|].
      pose proof (off_interior ls (length ls - 1) Hsh ltac:(lia) ltac:(lia)) as Ho. destruct Hsh as [H1 H2].
      pose proof (H1 0%nat ltac:(lia)) as H0. pose proof (H1 (length ls - 1)%nat ltac:(lia)) as Hn. replace (S (length ls - 1)) with (length ls) in Hn by lia. rewrite (off_all ls (length ls)), Hc in Hn by lia. rewrite off_0 in H0.
      assert (C = 128%nat) as HC by done. rewrite HC in Ho. replace (length ls - 1 - 1)%nat with (length ls - 2)%nat in Ho by lia. rewrite <-Hlen in *. lia. }
    split; [done|]. intros Hb Hn. rewrite <-Hu. unfold us. rewrite Hsz. destruct (Z.eqb_spec (Z.of_nat (length l)) 0); [lia|]. rewrite Hb. destruct (Z.ltb_spec 0 (dq_end d)); [lia|].
    exfalso. unfold us in Hu. rewrite Hsz in Hu. destruct (Z.eqb_spec (Z.of_nat (length l)) 0); [lia|]. rewrite Hb in Hu. destruct (Z.ltb_spec 0 (dq_end d)); [lia|].
    destruct Hroom as [Hroom|Hroom]. 2:{ pose proof (ring_len _ _ _ _ Hr). destruct ps; [|cbn in *; lia]. destruct ls; [|done]. cbn in Hc. subst l. cbn in *. lia. }
    destruct Hr as [(E & _)|(b & _ & _ & _ & He & _)]; [rewrite E in Hroom; cbn in Hroom; lia|]. lia.
  Qed.
  Definition phi w : Z := 3 * Z.max 0 (6 * us (cd_dq w) - 5 * cs (cd_dq w)) + 6 * Z.max 0 (cs (cd_dq w) - 2 * us (cd_dq w)) + psi (pl (cd_dq w)) (cd_cap w).
  Definition okw w : Prop := (∃ l, dinv (cd_dq w) l) ∧ pl (cd_dq w) <= cd_cap w.
  Lemma psi_mono p p' c : p' <= p → psi p' c <= psi p c.
  Proof using. clear. unfold psi. lia. Qed.
  Lemma am_push w w' l l' : dinv (cd_dq w) l → dinv (cd_dq w') l' → pushed w w' → cd_cost w' + phi w' <= cd_cost w + phi w + 199.
  Proof using.
    clear zero newcap. intros H0 H1 (Hc & Hp & Hs & c & u & Hcc & H). apply nums in H0 as (A1 & A2 & A3 & A4 & A5 & _). apply nums in H1 as (B1 & B2 & B3 & B4 & B5 & B6).
    pose proof (psi_mono _ _ (cd_cap w) Hp) as Hpsi. unfold phi. rewrite Hc. unfold roomy in *. unfold room in *.
    generalize dependent (psi (pl (cd_dq w)) (cd_cap w)). generalize dependent (psi (pl (cd_dq w')) (cd_cap w)). intros y x Hxy.
    destruct H as [[H1 H2]|(H1 & H2 & H3 & H4 & H5)]; [lia|]. rewrite (B6 H3) by lia. rewrite H4. destruct (Z.eqb_spec (u * 2) 0); lia.
  Qed.
  Lemma am_pop w w' l l' : dinv (cd_dq w) l → dinv (cd_dq w') l' → popped w w' → cd_cost w' + phi w' <= cd_cost w + phi w + 199.
  Proof using.
    clear zero newcap. intros H0 H1 (Hc & Hp & Hs & u & k & Hcc & Hz & H). apply nums in H0 as (A1 & A2 & A3 & A4 & A5 & _). apply nums in H1 as (B1 & B2 & B3 & B4 & B5 & B6).
    unfold phi. unfold roomy in *. 
    generalize dependent (psi (pl (cd_dq w)) (cd_cap w)). generalize dependent (psi (pl (cd_dq w')) (cd_cap w')). intros y x Hxy.
    destruct H as [[H1 H2]|(H1 & H2 & H3 & H4 & H5)]; [lia|].
    assert (us (cd_dq w') = u) as Hu. { destruct (decide (length l' = 0%nat)) as [E|E]; [rewrite Hz by lia; lia|]. rewrite (B6 H3) by lia. done. }
    unfold shrink_bound in H1. rewrite Hu in *. rewrite H2 in *.
    assert (24 * u < 10 * cs (cd_dq w)) as H1'. { pose proof (Z.mul_succ_div_gt (24 * u) 10 ltac:(lia)). lia. }
    pose proof (Z.mul_div_le (cs (cd_dq w)) 2 ltac:(lia)). pose proof (Z.mul_succ_div_gt (cs (cd_dq w)) 2 ltac:(lia)). lia.
  Qed.
  (** calls that only read or overwrite elements *)
  Definition still {A} (m : M (deque T) A) : Prop := ∀ d a d', m d = Ok (a, d') → same d d'.
  Lemma same_refl d : same d d. Proof using. done. Qed.
  Lemma same_trans d1 d2 d3 : same d1 d2 → same d2 d3 → same d1 d3.
  Proof using. unfold same. intros (?&?&?&?&?) (?&?&?&?&?). split_and!; congruence. Qed.
  Lemma st_reads {A} (m : M (deque T) A) : reads m → still m.
  Proof using. intros H d a d' E. rewrite (H _ _ _ E). apply same_refl. Qed.
  Lemma st_bind {A B} (m : M (deque T) A) (f : A → M (deque T) B) : still m → (∀ a, still (f a)) → still (let! a := m in f a).
  Proof using. intros H1 H2 d b d' E. unfold mbind_ in E. destruct (m d) as [[a d1]| |] eqn:E1; try done. eapply same_trans; [by eapply H1|by eapply H2]. Qed.
  Lemma st_panic {A} : still (@mpanic (deque T) A). Proof using. by intros d a d' E. Qed.
  Lemma st_fuel {A} : still (@mfuel (deque T) A). Proof using. by intros d a d' E. Qed.
  Lemma st_if {A} (b : bool) (m1 m2 : M (deque T) A) : still m1 → still m2 → still (if b then m1 else m2).
  Proof using. by destruct b. Qed.
  Lemma st_call {A} p (m : M (segment T) A) : still (call p m). Proof using. intros d a d' E. by eapply same_call. Qed.
  Lemma st_ret {A} (a : A) : still (mret_ a). Proof using. apply st_reads, rd_ret. Qed.
  Ltac st := repeat lazymatch goal with
    | |- still (mret_ _) => apply st_ret | |- still mpanic => apply st_panic | |- still mfuel => apply st_fuel | |- still (mbind_ _ _) => apply st_bind; [|intros ?] | |- still dget => apply st_reads, rd_get | |- still (gomod _ _) => apply st_reads, rd_gomod
    | |- still (seg_get _) => apply st_reads, rd_seg_get | |- still (ask _ _) => apply st_reads, rd_ask | |- still (call _ _) => apply st_call | |- still (if _ then _ else _) => apply st_if
    | |- still first_segment => apply st_reads, rd_first | |- still last_segment => apply st_reads, rd_last | |- still d_len => apply st_reads, rd_len | |- still (d_next _) => apply st_reads, rd_next end.
  Lemma st_step o : at_ends o → match o with DPushFront _ | DPushBack _ | DPopFront | DPopBack => True | _ => still (dq_step zero o) end.
  Proof using.
    clear newcap. destruct o; intros Ho; try done; cbn [dq_step]; unfold dq_set, dq_front, dq_back, dq_at, dq_Size, dq_Empty, d_pos, segment_at; st.
  Qed.
  Lemma ends_call o : at_ends o → is_Some (cd_call zero newcap o).
  Proof using. destruct o; cbn; intros H; try done; by eexists. Qed.
  Hypothesis newcap_ok : ∀ c, 0 <= c → c < newcap c ∧ 5 * c <= 4 * newcap c ∧ newcap c <= 3 * c + 8.
  Lemma am_step o w a w' l l' : at_ends o → dinv (cd_dq w) l → dinv (cd_dq w') l' → pl (cd_dq w) <= cd_cap w → cd_step zero newcap o w = Ok (a, w') →
    cd_cost w' + phi w' <= cd_cost w + phi w + 200 ∧ pl (cd_dq w') <= cd_cap w'.
  Proof using newcap_ok.
    intros Ho Hl Hl' Hp E. unfold cd_step, pay, mbind_ in E.
    pose proof (nums _ _ Hl) as (Hu & Hr & _). cbn zeta in *. set (w1 := MkCD (cd_dq w) (cd_cap w) (cd_cost w + 1)) in *.
    assert (phi w1 = phi w) as Hphi by done. assert (cd_cost w1 = cd_cost w + 1) as Hc1 by done.
    assert (cd_cost w' + phi w' <= cd_cost w1 + phi w1 + 199 ∧ pl (cd_dq w') <= cd_cap w') as H; [|rewrite Hphi, Hc1 in H; clear -H; lia].
    assert (cd_dq w = cd_dq w1) as Ed by done. assert (cd_cap w = cd_cap w1) as Ec by done. clearbody w1. clear Hphi Hc1. rewrite Ed in Hl, Hu, Hr, Hp. rewrite Ec in Hp. clear Ed Ec.
    assert (∀ o, still (dq_step zero o) → free (dq_step zero o) w1 = Ok (a, w') → cd_cost w' + phi w' <= cd_cost w1 + phi w1 + 199 ∧ pl (cd_dq w') <= cd_cap w') as Hst.
    { intros o' Hs E'. unfold free in E'. destruct (dq_step zero o' (cd_dq w1)) as [[b d']| |] eqn:E1; try done. apply Hs in E1. injection E' as <- <-.
      pose proof (same_us _ _ E1) as (S1 & S2 & S3). unfold phi. cbn [cd_dq cd_cap cd_cost]. rewrite S1, S2, S3. clear -Hp. lia. }
    pose proof (st_step o Ho) as Hstep.
    destruct o; try done; cbn [cd_call] in E; try (by eapply Hst).
    - assert (pushed w1 w') as H. { revert E. apply (post_bind (cd_push_front zero x) (λ _, mret_ DUnit) w1 (λ _ w', pushed w1 w')). eapply post_mono; [by apply post_push_front|]. intros ???. by apply post_ret. }
      split; [by eapply am_push|]. destruct H as (H1 & H2 & _). rewrite H1. clear -H2 Hp. lia.
    - assert (pushed w1 w') as H. { revert E. apply (post_bind (cd_push_back zero x) (λ _, mret_ DUnit) w1 (λ _ w', pushed w1 w')). eapply post_mono; [by apply post_push_back|]. intros ???. by apply post_ret. }
      split; [by eapply am_push|]. destruct H as (H1 & H2 & _). rewrite H1. clear -H2 Hp. lia.
    - assert (popped w1 w') as H. { revert E. apply (post_bind (cd_pop_front newcap) (λ x, mret_ (DVal x)) w1 (λ _ w', popped w1 w')). eapply post_mono; [by apply post_pop_front|]. intros ???. by apply post_ret. }
      split; [by eapply am_pop|]. by destruct H.
    - assert (popped w1 w') as H. { revert E. apply (post_bind (cd_pop_back newcap) (λ x, mret_ (DVal x)) w1 (λ _ w', popped w1 w')). eapply post_mono; [by apply post_pop_back|]. intros ???. by apply post_ret. }
      split; [by eapply am_pop|]. by destruct H.
  Qed.
  Lemma am_run ops w l rs d : Forall at_ends ops → dinv (cd_dq w) l → pl (cd_dq w) <= cd_cap w → run (dq_step zero) ops (cd_dq w) = Ok (rs, d) →
    ∃ w', run (cd_step zero newcap) ops w = Ok (rs, w') ∧ cd_dq w' = d ∧ okw w' ∧ cd_cost w' + phi w' <= cd_cost w + phi w + 200 * Z.of_nat (length ops).
  Proof using newcap_ok.
    intros Hf. revert w l rs d. induction Hf as [|o ops Ho Hf IH]; intros w l rs d Hl Hp E.
    - cbn in E. injection E as <- <-. exists w. cbn. split; [done|]. split; [done|]. split; [split; [by exists l|done]|]. clear. lia.
    - cbn [run] in *. pose proof (er_step zero newcap o (ends_call o Ho) w) as He. pose proof (dq_step_agrees zero o (cd_dq w) l Hl) as Ha.
      destruct (dq_step zero o (cd_dq w)) as [[r d1]| |] eqn:E1; try done. destruct (run (dq_step zero) ops d1) as [[rs1 d2]| |] eqn:E2; try done. injection E as <- <-.
      assert (∃ l1, dinv d1 l1) as [l1 Hl1]. { unfold agrees in Ha. destruct (dq_spec o l) as [[r' l1]|]; [|done]. destruct Ha as (d1' & Ea & Hd). injection Ea as <- <-. by exists l1. }
      destruct (cd_step zero newcap o w) as [[r' w1]| |] eqn:E3; try done. injection He as <- ->.
      destruct (am_step _ _ _ _ _ _ Ho Hl Hl1 Hp E3) as [H1 H2]. destruct (IH w1 l1 rs1 d2 Hl1 H2 E2) as (w2 & -> & <- & Hok & H3). exists w2. split_and!; try done. cbn [length]. clear -H1 H3. lia.
  Qed.
  (** C98.  A history of calls other than Insert, EraseAt, EraseRange and Clear on a new deque, counting one unit per call, per slot of each slice made and
      per slot copied, with any amortizing append: the counted run is the run, and its work is at most 200 units per call. *)
  Theorem deque_amortized ops rs d : Forall at_ends ops → run (dq_step zero) ops dq_new = Ok (rs, d) →
    ∃ w, run (cd_step zero newcap) ops cd_new = Ok (rs, w) ∧ cd_dq w = d ∧ cd_cost w <= 200 * Z.of_nat (length ops).
  Proof using newcap_ok.
    intros Hf E. destruct (am_run ops cd_new [] rs d Hf dinv_new ltac:(done) E) as (w & E1 & E2 & _ & E3). exists w. split_and!; try done.
    assert (phi cd_new = 0) as Hz by done. assert (0 <= phi w). { unfold phi, psi, pl. clear. lia. } rewrite Hz in E3. cbn [cd_new cd_cost] in E3. clear - E3 H. lia.
  Qed.
  (** the potential is at most linear in the length *)
  Lemma phi_linear w l : dinv (cd_dq w) l → pl (cd_dq w) <= cd_cap w → phi w <= 120 + Z.of_nat (length l).
  Proof using.
    clear zero newcap newcap_ok. intros Hl Hp. pose proof (storage_dq _ _ Hl) as (_ & _ & Hpool & _). pose proof (nums _ _ Hl) as (A1 & A2 & A3 & A4 & A5 & A6).
    assert (pl (cd_dq w) <= us (cd_dq w) + 1) as Hp1.
    { destruct Hl as (ps & ls & Hinv). pose proof (dinv_pos _ _ _ _ Hinv) as Hpos. destruct Hinv as [Hr Hs Hsh Hc Hsz Hg Hroom Hpl]. unfold dq_pooled, dq_live in Hpool. rewrite (ring_live _ _ _ _ Hr) in Hpool.
      assert (us (cd_dq w) = Z.of_nat (length ps)) as ->; [|unfold pl; clear -Hpool; lia].
      destruct (decide (ps = [])) as [->|Hps].
      - pose proof (store_ok_len _ _ _ _ Hs) as Hlen. destruct ls; [|done]. cbn in Hc. subst l. unfold us. by rewrite Hsz.
      - destruct (Hpos Hps) as (Hz & _). pose proof (seg_used_ok _ ps Hr Hz Hps) as E. rewrite used_is in E. by injection E. }
    unfold phi, psi. cbn zeta in *. clear A6. unfold roomy in *. lia.
  Qed.
  (** C98, one call: its work is at most linear in the number of elements before the call. *)
  Theorem deque_call_linear ops o rs d : Forall at_ends (ops ++ [o]) → run (dq_step zero) (ops ++ [o]) dq_new = Ok (rs, d) →
    ∃ rs0 w0 r w l, run (cd_step zero newcap) ops cd_new = Ok (rs0, w0) ∧ cd_step zero newcap o w0 = Ok (r, w) ∧ cd_dq w = d ∧ rs = rs0 ++ [r] ∧
      srun dq_spec ops [] = Some (rs0, l) ∧ cd_cost w - cd_cost w0 <= 320 + Z.of_nat (length l).
  Proof using newcap_ok.
    intros Hf E. apply Forall_app in Hf as [Hf Ho]. apply Forall_inv in Ho.
    assert (∃ rs0 d0 r, run (dq_step zero) ops dq_new = Ok (rs0, d0) ∧ dq_step zero o d0 = Ok (r, d) ∧ rs = rs0 ++ [r]) as (rs0 & d0 & r & E0 & E1 & ->).
    { clear Hf. revert E. generalize (@dq_new T). revert rs. induction ops as [|o1 ops IH]; intros rs d0 E; cbn [run app] in *.
      - destruct (dq_step zero o d0) as [[r d1]| |] eqn:E1; try done. injection E as <- <-. by exists [], d0, r.
      - destruct (dq_step zero o1 d0) as [[r d1]| |] eqn:E1; try done. destruct (run _ (ops ++ [o]) d1) as [[rs1 d2]| |] eqn:E2; try done. injection E as <- <-.
        apply IH in E2 as (rs0 & d0' & r' & -> & E3 & ->). by eexists (_ :: _), _, _. }
    destruct (am_run ops cd_new [] rs0 d0 Hf dinv_new ltac:(done) E0) as (w0 & F1 & F2 & [_ F3] & _).
    destruct (dq_reach zero ops rs0 d0 E0) as (l & G1 & G2). rewrite <-F2 in *.
    pose proof (er_step zero newcap o (ends_call o Ho) w0) as He. rewrite E1 in He. destruct (cd_step zero newcap o w0) as [[r' w]| |] eqn:E3; try done. injection He as <- ->.
    assert (∃ l1, dinv (cd_dq w) l1) as [l1 Hl1]. { pose proof (dq_step_agrees zero o _ l G2) as Ha. rewrite E1 in Ha. unfold agrees in Ha. destruct (dq_spec o l) as [[r' l1]|]; [|done]. destruct Ha as (d1' & Ea & Hd). injection Ea as <- <-. by exists l1. }
    exists rs0, w0, r, w, l. split_and!; try done.
    destruct (am_step _ _ _ _ _ _ Ho G2 Hl1 F3 E3) as [H1 H2]. pose proof (phi_linear _ _ G2 F3) as H3. assert (0 <= phi w) as H4. { unfold phi, psi, pl. clear. lia. } clear - H1 H3 H4. lia.
  Qed.
End props.
Print Assumptions deque_amortized.
Print Assumptions deque_call_linear.

(** append doubling a slice (as Go does for short ones) satisfies the hypothesis *)
Definition doubling (c : Z) : Z := if c =? 0 then 1 else 2 * c.
Example doubling_ok c : 0 <= c → c < doubling c ∧ 5 * c <= 4 * doubling c ∧ doubling c <= 3 * c + 8.
Proof. unfold doubling. destruct (Z.eqb_spec c 0); lia. Qed.
(** 600 pushes at both ends and 599 pops: segments are made, the table grows and shrinks, the pool is filled and cut *)
Definition busy : list (dq_op Z) := ((λ i, if Nat.even i then DPushBack (Z.of_nat i) else DPushFront (Z.of_nat i)) <$> seq 0 600) ++ ((λ i, if Nat.even i then DPopBack else DPopFront) <$> seq 0 599) ++ [DBack; DSize].
Example busy_ends : Forall at_ends busy.
Proof. unfold busy. rewrite !Forall_app. split_and!; [..|by repeat constructor]; apply Forall_fmap, Forall_forall; intros i _; cbn; by destruct (Nat.even i). Qed.
Example busy_runs : ∃ w, snd <$> (match run (cd_step 0 doubling) busy cd_new with Ok x => Some x | _ => None end) = Some w ∧ cd_cost w = 1887.
Proof. eexists. vm_compute. split; reflexivity. Qed.
