From Verif Require Import Base History BitmapModel BitmapSpec BitmapProofs BloomModel BloomSpec.
Open Scope N_scope.
Ltac Zify.zify_post_hook ::= Z.div_mod_to_equations.
Arguments N.div : simpl never.
Arguments N.modulo : simpl never.
Arguments N.pow : simpl never.
Arguments N.mul : simpl never.
Arguments ceil8 : simpl never.

Lemma words_lookup c data i : (i < c)%nat → words c data !! i = Some (be_word (take 8 (drop (8 * i) data))).
Proof.
  revert data i. induction c as [|c IH]; intros data i H; [lia|]. destruct i as [|i]; simpl.
  - by rewrite drop_0.
  - rewrite IH by lia. rewrite drop_drop. do 4 f_equal. lia.
Qed.
Lemma words_length c data : length (words c data) = c.
Proof. revert data. induction c; intros; simpl; auto. Qed.

Section gen.
  Context (h : list N → list N) (Hh : ∀ d, length (h d) = 64%nat).
  Definition word_at (seed : list N) (i : nat) : N := be_word (take 8 (drop (8 * (i mod 8)) (h seed))).

  Lemma gen_loop_ok fuel seed n acc r :
    length acc = (8 * r)%nat → (∀ i, (i < 8 * r)%nat → acc !! i = Some (word_at seed i)) →
    (n - Z.of_nat (8 * r) <= Z.of_nat fuel)%Z →
    ∃ l, gen_loop h fuel seed n acc = Ok l ∧ (n <= Z.of_nat (length l))%Z ∧
         ∀ i, (i < length l)%nat → l !! i = Some (word_at seed i).
  Proof using Hh.
    revert acc r. induction fuel as [|fuel IH]; intros acc r Hl Hi Hf; cbn [gen_loop].
    - destruct (Z.ltb_spec (Z.of_nat (length acc)) n); [lia|]. exists acc. rewrite Hl in *. split_and!; [done|lia|done].
    - destruct (Z.ltb_spec (Z.of_nat (length acc)) n).
      + apply (IH _ (S r)).
        * rewrite app_length, words_length, Hh, Hl. replace (64 `div` 8)%nat with 8%nat by done. lia.
        * intros i Hlt. destruct (decide (i < 8 * r)%nat).
          -- rewrite lookup_app_l by lia. auto.
          -- rewrite lookup_app_r by lia. rewrite Hh. replace (64 `div` 8)%nat with 8%nat by done.
             rewrite words_lookup by lia. unfold word_at. do 5 f_equal. rewrite Hl.
             apply (Nat.mod_unique _ _ r); lia.
        * lia.
      + exists acc. rewrite Hl in *. split_and!; [done|lia|done].
  Qed.

  Lemma gen_hash_ints_ok seed n : (0 <= n)%Z →
    ∃ l, gen_hash_ints h seed n = Ok l ∧ length l = Z.to_nat n ∧
         ∀ i, (i < Z.to_nat n)%nat → l !! i = Some (word_at seed i).
  Proof using Hh.
    intros Hn. unfold gen_hash_ints.
    destruct (gen_loop_ok (Z.to_nat n) seed n [] 0) as (l & -> & H1 & H2); [done|intros; lia|lia|].
    destruct (Z.ltb_spec n 0); [lia|]. eexists. split_and!; [done| |].
    - rewrite take_length. lia.
    - intros i Hi. rewrite lookup_take by done. apply H2. lia.
  Qed.
  Lemma gen_hash_ints_neg seed n : (n < 0)%Z → gen_hash_ints h seed n = Panic.
  Proof using. clear Hh.
    intros Hn. unfold gen_hash_ints. replace (Z.to_nat n) with 0%nat by lia. cbn [gen_loop].
    cbn [length]. change (Z.of_nat 0) with 0%Z. destruct (Z.ltb_spec 0 n); [lia|]. destruct (Z.ltb_spec n 0); [|lia]. done.
  Qed.

  (** bloom *)
  Definition bf_rel (m k : N) (f : bloom) (added : list (list N)) : Prop :=
    bf_m f = m ∧ bf_k f = k ∧
    ∃ S, bm_rel (bf_b f) (MkBS (ceil8 m) S) ∧
         ∀ p, p ∈ S ↔ ∃ w j, w ∈ added ∧ (j < N.to_nat k)%nat ∧ probe h m w j = p.

  Lemma bm_set_rel b s p : bm_rel b s → p < bs_size s →
    ∃ b', bm_set p b = Ok (true, b') ∧ bm_rel b' (MkBS (bs_size s) ({[p]} ∪ bs_set s)).
  Proof using. clear Hh.
    intros R L. pose proof (bm_step_agrees (BSet p) b s I R) as (b' & E & R'). simpl in E.
    rewrite bool_decide_eq_true_2 in E, R' by done.
    destruct (bm_set p b) as [[r b'']| |]; try done. simplify_eq. eauto.
  Qed.

  Lemma ceil8_ge m : m <= ceil8 m.
  Proof using. clear Hh. unfold ceil8. lia. Qed.

  Lemma add_loop_rel c i hs m b S v :
    0 < m → (∀ j, (j < i + c)%nat → hs !! j = Some (word_at (salt ++ v) j)) →
    bm_rel b (MkBS (ceil8 m) S) →
    ∃ b' S', add_loop c (Z.of_nat i) hs m b = Ok b' ∧ bm_rel b' (MkBS (ceil8 m) S') ∧
      ∀ p, p ∈ S' ↔ p ∈ S ∨ ∃ j, (i <= j < i + c)%nat ∧ probe h m v j = p.
  Proof using. clear Hh.
    intros Hm. revert i b S. induction c as [|c IH]; intros i b S Hhs R; simpl.
    - exists b, S. split_and!; [done|done|]. intros p. split; [tauto|]. intros [?|(j & ? & _)]; [done|lia].
    - rewrite (idx_nat _ _ _ (Hhs i ltac:(lia))). destruct (N.eqb_spec m 0); [lia|].
      assert (word_at (salt ++ v) i mod m < m) as Hlt by (apply N.mod_lt; lia).
      destruct (bm_set_rel b _ (word_at (salt ++ v) i mod m) R) as (b1 & -> & R1).
      { simpl. pose proof (ceil8_ge m). lia. }
      cbn [bs_size bs_set] in R1. replace (Z.of_nat i + 1)%Z with (Z.of_nat (i + 1)) by lia.
      destruct (IH (i + 1)%nat b1 ({[word_at (salt ++ v) i mod m]} ∪ S)) as (b' & S' & E & R' & HS'); [intros; apply Hhs; lia|exact R1|].
      exists b', S'. split_and!; [done|done|]. intros p. rewrite HS'. clear -c. split.
      + intros [Hp|(j & ? & ?)].
        * apply elem_of_union in Hp as [Hp|Hp]; [|by left]. right. apply elem_of_singleton in Hp. subst.
          exists i. split; [lia|done].
        * right. exists j. split; [lia|done].
      + intros [?|(j & ? & Hj)]; [left; set_solver|]. destruct (decide (j = i)) as [->|].
        * left. apply elem_of_union. left. apply elem_of_singleton. subst. done.
        * right. exists j. split; [lia|done].
  Qed.

  Lemma contains_loop_rel c i hs m b S v :
    0 < m → (∀ j, (j < i + c)%nat → hs !! j = Some (word_at (salt ++ v) j)) →
    bm_rel b (MkBS (ceil8 m) S) →
    ∃ r, contains_loop c (Z.of_nat i) hs m b = Ok r ∧
      (r = true ↔ ∀ j, (i <= j < i + c)%nat → probe h m v j ∈ S).
  Proof using. clear Hh.
    intros Hm. revert i. induction c as [|c IH]; intros i Hhs R; simpl.
    - exists true. split; [done|]. split; [intros _ j ?; lia|done].
    - rewrite (idx_nat _ _ _ (Hhs i ltac:(lia))). destruct (N.eqb_spec m 0); [lia|].
      rewrite (bm_isset_rel _ _ _ R). simpl.
      change (word_at (salt ++ v) i mod m) with (probe h m v i).
      case_bool_decide as Hp.
      + replace (Z.of_nat i + 1)%Z with (Z.of_nat (i + 1)) by lia.
        destruct (IH (i + 1)%nat) as (r & E & Hr); [intros; apply Hhs; lia|done|].
        exists r. split; [done|]. rewrite Hr. split.
        * intros H j Hj. destruct (decide (j = i)) as [->|]; [done|]. apply H. lia.
        * intros H j Hj. apply H. lia.
      + exists false. split; [done|]. split; [done|]. intros H. destruct Hp. apply H. lia.
  Qed.

  Lemma to_int_small k : k < 2 ^ 63 → to_int k = Z.of_N k.
  Proof using. clear Hh. intros H. unfold to_int. destruct (N.ltb_spec k (2 ^ 63)); [done|lia]. Qed.

  Lemma le_bytes_length n x : length (le_bytes n x) = n.
  Proof using. clear Hh. revert x. induction n; intros; simpl; auto. Qed.
  Lemma le_word_bytes n x : x < 256 ^ N.of_nat n → le_word (le_bytes n x) = x.
  Proof using. clear Hh.
    revert x. induction n as [|n IH]; intros x H; simpl le_bytes; cbn [le_word].
    - change (256 ^ N.of_nat 0) with 1 in H. lia.
    - rewrite IH; [lia|]. rewrite Nat2N.inj_succ, N.pow_succ_r' in H. apply N.div_lt_upper_bound; lia.
  Qed.

  Lemma bf_new_rel m k : m <= 2 ^ 64 - 8 → bf_rel m k (bf_new m k) [].
  Proof using. clear Hh.
    intros Hm. split_and!; [done|done|]. exists ∅. split; [replace (ceil8 m) with (size_for m) by (unfold size_for; destruct (N.leb_spec m (2 ^ 64 - 8)); [done|lia]); apply bm_new_rel; lia|].
    intros p. split; [set_solver|]. intros (w & j & Hw & _). by apply elem_of_nil in Hw.
  Qed.

  Lemma bf_add_rel m k f added v : 0 < m → k < 2 ^ 63 → bf_rel m k f added →
    ∃ f', bf_add h v f = Ok f' ∧ bf_rel m k f' (v :: added).
  Proof using Hh.
    intros Hm Hk (<- & <- & S & R & HS). unfold bf_add. rewrite to_int_small by done.
    destruct (gen_hash_ints_ok (salt ++ v) (Z.of_N (bf_k f))) as (hs & -> & Hl & Hi); [lia|].
    destruct (add_loop_rel (N.to_nat (bf_k f)) 0 hs (bf_m f) (bf_b f) S v) as (b' & S' & E & R' & HS'); [done|intros; apply Hi; lia|done|].
    change (Z.of_nat 0) with 0%Z in E. rewrite E. eexists. split; [done|]. split_and!; [done|done|].
    exists S'. split; [done|]. intros p. rewrite HS', HS. cbn [bf_k bf_m]. split.
    - intros [(w & j & ? & ?)|(j & ? & ?)]; [exists w, j; split; [by right|done]|].
      exists v, j. split_and!; [by left|lia|done].
    - intros (w & j & Hw & ? & ?). apply elem_of_cons in Hw as [->|Hw]; [right; exists j; split; [lia|done]|].
      left. eauto.
  Qed.
  Lemma bf_contains_rel m k f added v : 0 < m → k < 2 ^ 63 → bf_rel m k f added →
    ∃ r, bf_contains h v f = Ok r ∧ (r = true ↔ covered h m k added v).
  Proof using Hh.
    intros Hm Hk (<- & <- & S & R & HS). unfold bf_contains. rewrite to_int_small by done.
    destruct (gen_hash_ints_ok (salt ++ v) (Z.of_N (bf_k f))) as (hs & -> & Hl & Hi); [lia|].
    destruct (contains_loop_rel (N.to_nat (bf_k f)) 0 hs (bf_m f) (bf_b f) S v) as (r & E & Hr); [done|intros; apply Hi; lia|done|].
    change (Z.of_nat 0) with 0%Z in E. exists r. split; [done|]. rewrite Hr. unfold covered. split.
    - intros H i ?. apply HS, H. lia.
    - intros H j ?. apply HS, H. lia.
  Qed.
  Lemma bf_reload_rel m k f added : m <= 2 ^ 64 - 8 → k < 2 ^ 63 → bf_rel m k f added →
    bf_from_data (bf_Data f) = Ok f.
  Proof using. clear Hh.
    intros Hm Hk (<- & <- & S & R & HS). unfold bf_from_data, bf_Data.
    rewrite !app_length, !le_bytes_length. destruct (Nat.ltb_spec (8 + (8 + length (bm_Data (bf_b f)))) 16); [lia|].
    rewrite (take_app_alt (le_bytes 8 (bf_m f))) by (by rewrite le_bytes_length).
    rewrite (drop_app_alt (le_bytes 8 (bf_m f))) by (by rewrite le_bytes_length).
    rewrite (take_app_alt (le_bytes 8 (bf_k f))) by (by rewrite le_bytes_length).
    rewrite app_assoc. rewrite (drop_app_alt (_ ++ _)) by (by rewrite app_length, !le_bytes_length).
    rewrite !le_word_bytes by (change (256 ^ N.of_nat 8) with (2 ^ 64); lia).
    destruct f as [m k b]; simpl in *. do 2 f_equal. destruct R as ([H1 H2] & _ & _).
    unfold bm_from_data, bm_Data, u64. rewrite N.mod_small by lia. destruct b; simpl in *. f_equal. lia.
  Qed.

  Lemma bf_run_rel m k ops f added : 0 < m <= 2 ^ 64 - 8 → k < 2 ^ 63 → bf_rel m k f added →
    ∃ rs f', run (bf_step h) ops f = Ok (rs, f') ∧ bf_rel m k f' (rev (added_by ops) ++ added).
  Proof using Hh.
    intros Hm Hk. revert f added. induction ops as [|o ops IH]; intros f added R; cbn [run]; [eauto|].
    destruct o as [v|v|]; cbn [bf_step added_by omap list_omap].
    - destruct (bf_add_rel m k f added v) as (f1 & -> & R1); [lia|done|done|].
      destruct (IH f1 _ R1) as (rs & f' & -> & R'). do 2 eexists. split; [done|].
      simpl. rewrite <-app_assoc. done.
    - destruct (bf_contains_rel m k f added v) as (r & -> & Hr); [lia|done|done|].
      destruct (IH f _ R) as (rs & f' & -> & R'). eauto.
    - rewrite (bf_reload_rel m k f added) by (done || lia).
      destruct (IH f _ R) as (rs & f' & -> & R'). eauto.
  Qed.
  Lemma covered_ext m k a1 a2 v : (∀ w, w ∈ a1 ↔ w ∈ a2) → covered h m k a1 v ↔ covered h m k a2 v.
  Proof using. clear Hh. intros H. unfold covered. split; intros G i Hi; destruct (G i Hi) as (w & j & ? & ?); exists w, j; naive_solver. Qed.

  Lemma bf_history m k ops : 0 < m <= 2 ^ 64 - 8 → k < 2 ^ 63 →
    ∃ rs f, run (bf_step h) ops (bf_new m k) = Ok (rs, f) ∧
      ∀ v, ∃ r, bf_contains h v f = Ok r ∧ (r = true ↔ covered h m k (added_by ops) v).
  Proof using Hh.
    intros Hm Hk. destruct (bf_run_rel m k ops _ _ Hm Hk (bf_new_rel m k ltac:(lia))) as (rs & f & E & R).
    exists rs, f. split; [done|]. intros v. destruct (bf_contains_rel m k f _ v ltac:(lia) Hk R) as (r & ? & Hr).
    exists r. split; [done|]. rewrite Hr. apply covered_ext. intros w. rewrite app_nil_r, elem_of_list_In, <-in_rev, <-elem_of_list_In. done.
  Qed.
End gen.

Lemma bloom_wrap_loop c i hs m b : bm_size b = 0 → m ≠ 0 → (i + c <= length hs)%nat →
  add_loop c (Z.of_nat i) hs m b = Ok b.
Proof.
  intros H1 H2. revert i. induction c as [|c IH]; intros i H3; [done|]. cbn [add_loop].
  destruct (lookup_lt_is_Some_2 hs i ltac:(lia)) as [x Hx]. rewrite (idx_nat _ _ _ Hx).
  destruct (N.eqb_spec m 0); [done|]. unfold bm_set. rewrite H1. destruct (N.leb_spec 0 (x mod m)); [|lia].
  replace (Z.of_nat i + 1)%Z with (Z.of_nat (i + 1)) by lia. apply IH. lia.
Qed.
Lemma bloom_wraps h m k v : (∀ d, length (h d) = 64%nat) → 2 ^ 64 - 8 < m < 2 ^ 64 → 0 < k < 2 ^ 63 →
  ∃ f, bf_add h v (bf_new m k) = Ok f ∧ bf_contains h v f = Ok false.
Proof.
  intros Hh Hm Hk. unfold bf_add, bf_contains. cbn [bf_new bf_k bf_m bf_b].
  pose proof (bm_new_wraps m Hm) as E0. unfold bm_Size in E0.
  rewrite to_int_small by lia.
  destruct (gen_hash_ints_ok h Hh (salt ++ v) (Z.of_N k)) as (hs & E1 & Hl & Hi); [lia|]. rewrite E1.
  pose proof (bloom_wrap_loop (N.to_nat k) 0 hs m (bm_new m) E0 ltac:(lia) ltac:(lia)) as E2. change (Z.of_nat 0) with 0%Z in E2. rewrite E2.
  eexists. split; [done|]. cbn [bf_k bf_m bf_b]. rewrite to_int_small by lia. rewrite E1.
  destruct (N.to_nat k) as [|c] eqn:Ek; [lia|]. cbn [contains_loop].
  rewrite (idx_nat hs 0 (word_at h (salt ++ v) 0) (Hi 0%nat ltac:(lia)) : idx hs 0%Z = _).
  destruct (N.eqb_spec m 0); [lia|]. unfold bm_isset. rewrite E0. destruct (N.leb_spec 0 (word_at h (salt ++ v) 0 mod m)); [done|lia].
Qed.
Lemma bloom_zero h k v : (∀ d, length (h d) = 64%nat) → 0 < k < 2 ^ 63 → bf_add h v (bf_new 0 k) = Panic.
Proof.
  intros Hh Hk. unfold bf_add. cbn [bf_new bf_k bf_m bf_b]. rewrite to_int_small by lia.
  destruct (gen_hash_ints_ok h Hh (salt ++ v) (Z.of_N k)) as (hs & E1 & Hl & Hi); [lia|]. rewrite E1.
  destruct (N.to_nat k) as [|c] eqn:Ek; [lia|]. cbn [add_loop].
  by rewrite (idx_nat hs 0 (word_at h (salt ++ v) 0) (Hi 0%nat ltac:(lia)) : idx hs 0%Z = _).
Qed.
(** any m, any k: the parameters never change and the bitmap's size stays eight times its length *)
Definition bf_ok (m k : N) (f : bloom) : Prop := bf_m f = m ∧ bf_k f = k ∧ bm_wf (bf_b f).
Lemma bm_set_wf p b r b' : bm_wf b → bm_set p b = Ok (r, b') → bm_wf b'.
Proof.
  intros [W1 W2] E. unfold bm_set in E. destruct (bm_size b <=? p); [by simplify_eq|].
  destruct (idx (bm_data b) _) as [d| |] eqn:E1; try done.
  destruct (upd (bm_data b) _ _) as [l| |] eqn:E2; try done. simplify_eq. split; cbn [bm_size bm_data]; [|done].
  unfold upd in E2. repeat case_match; simplify_eq; by rewrite ?insert_length.
Qed.
Lemma add_loop_wf c i hs m b b' : bm_wf b → add_loop c i hs m b = Ok b' → bm_wf b'.
Proof.
  revert i b. induction c as [|c IH]; intros i b W E; cbn [add_loop] in E; [by simplify_eq|].
  destruct (idx hs i) as [x| |]; try done. destruct (m =? 0); [done|].
  destruct (bm_set (x mod m) b) as [[r b1]| |] eqn:Es; try done. eapply IH; [|done]. by eapply bm_set_wf.
Qed.
Lemma bf_ok_reload m k f : m < 2 ^ 64 → k < 2 ^ 64 → bf_ok m k f → bf_from_data (bf_Data f) = Ok f.
Proof.
  intros Hm Hk (<- & <- & H1 & H2). unfold bf_from_data, bf_Data.
  rewrite !app_length, !le_bytes_length. destruct (Nat.ltb_spec (8 + (8 + length (bm_Data (bf_b f)))) 16); [lia|].
  rewrite (take_app_alt (le_bytes 8 (bf_m f))) by (by rewrite le_bytes_length).
  rewrite (drop_app_alt (le_bytes 8 (bf_m f))) by (by rewrite le_bytes_length).
  rewrite (take_app_alt (le_bytes 8 (bf_k f))) by (by rewrite le_bytes_length).
  rewrite app_assoc. rewrite (drop_app_alt (_ ++ _)) by (by rewrite app_length, !le_bytes_length).
  rewrite !le_word_bytes by (change (256 ^ N.of_nat 8) with (2 ^ 64); lia).
  destruct f as [m k b]; simpl in *. do 2 f_equal.
  unfold bm_from_data, bm_Data, u64. rewrite N.mod_small by lia. destruct b; simpl in *. f_equal. lia.
Qed.
Lemma bf_run_ok h m k ops f rs f' : m < 2 ^ 64 → k < 2 ^ 64 → bf_ok m k f →
  run (bf_step h) ops f = Ok (rs, f') → bf_ok m k f'.
Proof.
  intros Hm Hk. revert f rs. induction ops as [|o ops IH]; intros f rs W E; cbn [run] in E; [by simplify_eq|].
  destruct (bf_step h o f) as [[r f1]| |] eqn:Es; try done.
  destruct (run (bf_step h) ops f1) as [[rs1 f2]| |] eqn:Er; try done. simplify_eq.
  eapply IH; [|done]. destruct o as [v|v|]; cbn [bf_step] in Es.
  - unfold bf_add in Es. destruct (gen_hash_ints _ _ _) as [hs| |]; try done.
    destruct (add_loop _ _ _ _ _) as [b'| |] eqn:Ea; try done. simplify_eq. destruct W as (? & ? & W).
    split_and!; [done|done|]. cbn [bf_b]. by eapply add_loop_wf.
  - destruct (bf_contains h v f) as [r'| |]; try done. by simplify_eq.
  - rewrite (bf_ok_reload m k f) in Es by done. by simplify_eq.
Qed.
Lemma bloom_round h m k ops rs f : m < 2 ^ 64 → k < 2 ^ 64 →
  run (bf_step h) ops (bf_new m k) = Ok (rs, f) → bf_from_data (bf_Data f) = Ok f.
Proof.
  intros Hm Hk E. apply (bf_ok_reload m k); [done|done|]. eapply bf_run_ok; [done|done| |exact E].
  split_and!; [done|done|]. cbn [bf_new bf_b]. by destruct (bm_new_rel m Hm) as (? & _).
Qed.
