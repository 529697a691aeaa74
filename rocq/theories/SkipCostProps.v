(** Property C101: what a search in a skip list costs on average. *)
From Verif Require Import Base History RbSpec MapSpec SkipModel SkipSpec SkipProofs SkipOps SkipProps CrashModel CrashSpec CrashProofs CrashSkipModel CrashSkipProps
  SkipCostSpec SkipCostAvg SkipCostLevel SkipCostPath.
Open Scope Z_scope.
Open Scope go_scope.

Lemma words_Z : Z.of_nat words = 2 ^ 64.
Proof. unfold words. apply Z2Nat.id. done. Qed.
Lemma words_pos : (0 < words)%nat.
Proof. apply Nat2Z.inj_lt. rewrite words_Z. done. Qed.
Lemma lev_of max w l : randomLevel 64 max w = Ok l → lev max w = Z.to_nat l.
Proof. unfold lev. by intros ->. Qed.
#[local] Opaque words lev.
Lemma sublist_NoDup {X} (a b : list X) : NoDup b → a `sublist_of` b → NoDup a.
Proof.
  intros Hb Hs. induction Hs as [|x a b Hs IH|x a b Hs IH]; [done| |]; apply NoDup_cons in Hb as [Hx Hb]; [|by apply IH].
  apply NoDup_cons. split; [|by apply IH]. intros Hin. apply Hx. clear -Hs Hin. induction Hs as [|y a b _ IH|y a b _ IH]; [done| |by right; apply IH]. apply elem_of_cons in Hin as [->|Hin]; [left|right; by apply IH].
Qed.
Lemma drawn_snoc lv ws w ids : Forall (λ j, (j < length ws)%nat) ids → drawn lv (ws ++ [w]) ids = drawn lv ws ids.
Proof. unfold drawn. induction 1 as [|j ids Hj _ IH]; [done|]. rewrite !fmap_cons, IH. f_equal. by rewrite lookup_total_app_l. Qed.
Lemma drawn_app lv ws a b : drawn lv ws (a ++ b) = drawn lv ws a ++ drawn lv ws b.
Proof. apply fmap_app. Qed.
Lemma drawn_cons lv ws j js : drawn lv ws (j :: js) = lv (ws !!! j) :: drawn lv ws js.
Proof. done. Qed.
Lemma drawn_take lv ws n a : drawn lv ws (take n a) = take n (drawn lv ws a).
Proof. apply fmap_take. Qed.
Lemma drawn_drop lv ws n a : drawn lv ws (drop n a) = drop n (drawn lv ws a).
Proof. apply fmap_drop. Qed.
Lemma drawn_rev lv ws a : rev (drawn lv ws a) = drawn lv ws (rev a).
Proof. symmetry. apply map_rev. Qed.
Lemma drawn_same lv ws js x : Forall (λ j, lv (ws !!! j) = x) js → drawn lv ws js = replicate (length js) x.
Proof. unfold drawn. induction 1 as [|j js Hj _ IH]; [done|]. rewrite fmap_cons, IH, Hj. done. Qed.

Lemma total_sum D n m (f : Z → list Z → Z) : total D n (λ ws, sum_below m (λ i, f i ws)) = sum_below m (λ i, total D n (f i)).
Proof.
  induction m as [|m IH]; cbn [sum_below]; [rewrite total_const; lia|]. rewrite total_plus, IH. done.
Qed.
Lemma run_app1 {O R S} (st : O → M S R) ops o s rs s1 r s2 : run st ops s = Ok (rs, s1) → st o s1 = Ok (r, s2) → run st (ops ++ [o]) s = Ok (rs ++ [r], s2).
Proof.
  revert s rs. induction ops as [|o' ops IH]; intros s rs E1 E2; cbn [run app] in *.
  - injection E1 as <- <-. by rewrite E2.
  - destruct (st o' s) as [[r' s']| |]; [|done|done]. destruct (run st ops s') as [[rs' s'']| |] eqn:E; [|done|done]. injection E1 as <- <-. by rewrite (IH _ _ E E2).
Qed.
Lemma srun_app1 {O R A} (sp : O → A → option (R * A)) ops o a rs a1 r a2 : srun sp ops a = Some (rs, a1) → sp o a1 = Some (r, a2) → srun sp (ops ++ [o]) a = Some (rs ++ [r], a2).
Proof.
  revert a rs. induction ops as [|o' ops IH]; intros a rs E1 E2; cbn [srun app] in *.
  - injection E1 as <- <-. by rewrite E2.
  - destruct (sp o' a) as [[r' a']|]; [|done]. destruct (srun sp ops a') as [[rs' a'']|] eqn:E; [|done]. injection E1 as <- <-. by rewrite (IH _ _ E E2).
Qed.

Section props.
  Context {K V W : Type} (cmp : K → K → Z) (CO : CmpOK cmp).
  Implicit Types (l : list (K * V)) (ops : list (sk_op K V W)).
  Notation u := (tally cmp).

  Lemma tally_agrees : agrees_with u cmp.
  Proof using. intros a b c z c'. unfold tally. by intros [= <- _]. Qed.
  Lemma tally_never : ¬ can_panic u.
  Proof using. intros (a & b & c & c' & E). done. Qed.

  (** one call in one state *)
  Lemma call_cost (max : nat) s xs l (o : sk_op K V W) key : inv cmp max s xs l → looks_for o = Some key →
    Z.of_nat (x_sk_step u o (s, 0%nat)).2.2 <= levels (take (length (before cmp key l)) (hts s xs)) max + 1 ∧
    (o ≠ SGet key → levels (take (length (before cmp key l)) (hts s xs)) max - Z.of_nat max <= Z.of_nat (x_sk_step u o (s, 0%nat)).2.2).
  Proof using CO.
    intros Hinv Ho. destruct (found_exists cmp CO max s xs l key Hinv) as (A & B & la & lb & -> & -> & (Hinv' & HA & HB & Hla & Hlb)).
    rewrite (before_split cmp key la lb Hla Hlb). assert (take (length la) (hts s (A ++ B)) = hts s A) as ->.
    { unfold hts. rewrite fmap_app. apply take_app_alt. by rewrite fmap_length, (Forall2_length _ _ _ HA). }
    assert (comes_from s A max None A) as Hc.
    { split_and!; [done| |cbn; rewrite (inv_head _ _ _ _ _ Hinv); lia|done]. apply lvl_nil. intros p Hp. pose proof (inv_ht _ _ _ _ _ Hinv p ltac:(apply elem_of_app; by left)). lia. }
    assert (∀ n (R : Type) (f : unit → X (skip K V * nat) R), costs 1 (f tt) → levels (hts s A) max - Z.of_nat max <= Z.of_nat (xbind (x_findPrevNodes u key) f (s, n)).2.2 - Z.of_nat n <= levels (hts s A) max + 1) as Hfind.
    { intros n R f Hf. assert (x_findPrevNodes u key (s, n) = x_prev_loop u max (S (length (sk_els s))) key None (s, n)) as Ef.
      { unfold x_findPrevNodes. rewrite (xb_run getmax _ s n (sk_max s) s eq_refl), (xb_run walkfuel _ s n (S (length (sk_els s))) s eq_refl). by rewrite (inv_smax _ _ _ _ _ Hinv), Nat2Z.id. }
      destruct (x_prev_loop_cost cmp max A B la lb key max s None A n Hinv HA HB Hla Hlb Hc (le_n _)) as (c & n' & E & Hn').
      unfold xbind. rewrite Ef, E. specialize (Hf (with_cache s c, n')). cbn [snd] in Hf. lia. }
    destruct o as [w k v|k|k| | |vis w]; cbn [looks_for] in Ho; try done; injection Ho as ->; cbn [x_sk_step].
    - (* Insert *)
      assert (∀ x : X (skip K V * nat) unit, Z.of_nat (xbind x (λ _, xret (SUnit (K := K) (V := V) (W := W))) (s, 0%nat)).2.2 = Z.of_nat (x (s, 0%nat)).2.2) as -> by (intros x; unfold xbind; by destruct (x (s, 0%nat)) as [[?| |] ?]).
      unfold x_sk_Insert. match goal with |- Z.of_nat (xbind _ ?g _).2.2 <= _ ∧ _ => assert (costs 1 (g tt)) as Hg; [|specialize (Hfind 0%nat _ g Hg); lia] end.
      apply (costs_weak (0 + (0 + (1 + 0)))); [|lia]. apply costs_bind; [apply costs_run|]. intros p. apply costs_bind; [apply costs_run|]. intros c. apply costs_bind.
      { destruct c; [|eapply costs_weak; [apply costs_ret|lia]]. apply (costs_weak (0 + (1 + 0))); [|lia]. apply costs_bind; [apply costs_run|]. intros e. apply costs_bind; [apply costs_cmp|]. intros z. apply costs_ret. }
      intros b. apply costs_run.
    - (* Get *)
      assert (∀ x : X (skip K V * nat) (option V), Z.of_nat (xbind x (λ r, xret (SVal (K := K) (W := W) r)) (s, 0%nat)).2.2 = Z.of_nat (x (s, 0%nat)).2.2) as -> by (intros x; unfold xbind; by destruct (x (s, 0%nat)) as [[?| |] ?]).
      unfold x_sk_Get. rewrite (xb_run getmax _ s _ (sk_max s) s eq_refl), (xb_run walkfuel _ s _ (S (length (sk_els s))) s eq_refl). rewrite (inv_smax _ _ _ _ _ Hinv), Nat2Z.id.
      destruct (x_get_loop_cost cmp max s A B la lb key Hinv HA HB Hla Hlb max None A 0%nat Hc) as (o & n' & E & Hn'). rewrite E. cbn [snd]. split; [lia|done].
    - (* Remove *)
      assert (∀ x : X (skip K V * nat) bool, Z.of_nat (xbind x (λ r, xret (SBool (K := K) (V := V) (W := W) r)) (s, 0%nat)).2.2 = Z.of_nat (x (s, 0%nat)).2.2) as -> by (intros x; unfold xbind; by destruct (x (s, 0%nat)) as [[?| |] ?]).
      unfold x_sk_Remove. match goal with |- Z.of_nat (xbind _ ?g _).2.2 <= _ ∧ _ => assert (costs 1 (g tt)) as Hg; [|specialize (Hfind 0%nat _ g Hg); lia] end.
      apply (costs_weak (0 + (0 + 1))); [|lia]. apply costs_bind; [apply costs_run|]. intros p. apply costs_bind; [apply costs_run|]. intros c.
      destruct c; [|eapply costs_weak; [apply costs_ret|lia]]. apply (costs_weak (0 + (1 + 0))); [|lia]. apply costs_bind; [apply costs_run|]. intros e. apply costs_bind; [apply costs_cmp|]. intros z. apply costs_run.
  Qed.
  (** counting does not change what the call does *)
  Lemma call_same (max : nat) s xs l (o : sk_op K V W) : inv cmp max s xs l → sk_op_ok o → ∃ r s' c, sk_step cmp o s = Ok (r, s') ∧ x_sk_step u o (s, 0%nat) = (Ok r, (s', c)).
  Proof using CO.
    intros Hinv Hok. pose proof (step_agrees cmp CO max o s l Hok (ex_intro _ xs Hinv)) as Ha. pose proof (c_step u cmp tally_agrees CO max o s l Hok (ex_intro _ xs Hinv) 0%nat) as Hc.
    assert (∃ r a, sk_spec cmp o l = Some (r, a)) as (r & a & Es) by (destruct o; by eexists _, _). unfold agrees in Ha. rewrite Es in Ha. destruct Ha as (s' & E & _). rewrite E in Hc.
    destruct Hc as [(c' & Hc)|([_ Hp] & _)]; [by exists r, s', c'|]. by destruct (tally_never Hp).
  Qed.

  (** every key in the list got its tower from a word of its own; which one does not depend on the words *)
  Lemma history_towers (max : nat) ops : (1 <= max <= 64)%nat → ∃ rs l ids, srun (sk_spec cmp) ops [] = Some (rs, l) ∧ NoDup ids ∧ Forall (λ j, (j < length ops)%nat) ids ∧ length ids = length l ∧
    ∃ s0, sk_New (Z.of_nat max) = Ok s0 ∧ ∀ ws, draws words (length ops) ws → ∃ s xs, run (sk_step cmp) (with_words ops ws) s0 = Ok (rs, s) ∧ inv cmp max s xs l ∧ hts s xs = drawn (lev (Z.of_nat max)) ws ids.
  Proof using CO.
    intros Hm. destruct (new_inv (V := V) cmp max Hm) as (s0 & E0 & Hinv0). induction ops as [|o ops IH] using rev_ind.
    { exists [], [], []. split_and!; [done|constructor|constructor|done|]. exists s0. split; [done|]. intros ws Hws. exists s0, []. split_and!; [by destruct ws|done|done]. }
    destruct IH as (rs & l & ids & Es & Hnd & Hlt & Hlen & s0' & E0' & Hrun). rewrite E0 in E0'. injection E0' as <-.
    (* the ids after the call *)
    set (n := λ k, length (before cmp k l)).
    set (ids' := match o with
                 | SInsert _ k _ => if existsb (is_k cmp k) l then ids else take (n k) ids ++ length ops :: drop (n k) ids
                 | SRemove k => if existsb (is_k cmp k) l then take (n k) ids ++ drop (S (n k)) ids else ids
                 | _ => ids end).
    destruct (sk_spec cmp o l) as [[r l']|] eqn:Eo; [|by destruct o].
    assert (∀ i, NoDup (take i ids ++ drop i ids)) as Hnd0 by (intros i; by rewrite take_drop).
    assert (Forall (λ j, (j < length (ops ++ [o]))%nat) ids) as Hlt1 by (eapply Forall_impl; [exact Hlt|]; intros j Hj; cbn in Hj; rewrite app_length; lia).
    assert (NoDup ids' ∧ Forall (λ j, (j < length (ops ++ [o]))%nat) ids') as [Hnd' Hlt'].
    { unfold ids'. destruct o as [w k v|k|k| | |vis w]; try done.
      - destruct (existsb (is_k cmp k) l); [done|]. split.
        + rewrite (Permutation_app_comm (take (n k) ids)), <-app_comm_cons. apply NoDup_cons. split; [|by rewrite (Permutation_app_comm (drop _ _))].
          intros Hin. rewrite (Permutation_app_comm (drop _ _)), take_drop in Hin. rewrite Forall_forall in Hlt. specialize (Hlt _ Hin). cbn in Hlt. lia.
        + rewrite <-(take_drop (n k) ids) in Hlt1. apply Forall_app in Hlt1 as [H1 H2]. apply Forall_app. split; [done|]. constructor; [rewrite app_length; cbn; lia|done].
      - destruct (existsb (is_k cmp k) l); [|done]. split.
        + eapply sublist_NoDup; [exact Hnd|]. rewrite <-(take_drop (n k) ids) at 3. apply sublist_app; [done|]. replace (S (n k)) with (n k + 1)%nat by lia. rewrite <-drop_drop. apply sublist_drop.
        + apply Forall_app. split; [by apply Forall_take|by apply Forall_drop]. }
    exists (rs ++ [r]), l', ids'. split_and!; [by eapply srun_app1|done|done| |].
    2:{ exists s0. split; [done|]. intros ws [Hl Hf]. rewrite app_length in Hl. cbn in Hl.
        destruct (rev_ind (λ ws, ws = [] ∨ ∃ ws1 w, ws = ws1 ++ [w]) (or_introl eq_refl) (λ w ws1 _, or_intror (ex_intro _ ws1 (ex_intro _ w eq_refl))) ws) as [->|(ws1 & w & ->)]; [cbn in Hl; lia|].
        rewrite app_length in Hl. cbn in Hl. apply Forall_app in Hf as [Hf Hw]. apply Forall_cons in Hw as [Hw _]. rewrite words_Z in Hw.
        destruct (Hrun ws1) as (s & xs & Er & Hinv & Hh); [by split; [lia|]|].
        assert (with_words (ops ++ [o]) (ws1 ++ [w]) = with_words ops ws1 ++ [set_word o w]) as -> by (unfold with_words; by rewrite zip_with_app by lia).
        assert (Forall (λ j, (j < length ws1)%nat) ids) as Hltw by (eapply Forall_impl; [exact Hlt|]; intros j Hj; cbn in Hj; lia).
        assert (∃ s' xs', sk_step cmp (set_word o w) s = Ok (r, s') ∧ inv cmp max s' xs' l' ∧ hts s' xs' = drawn (lev (Z.of_nat max)) (ws1 ++ [w]) ids') as (s' & xs' & E1 & E2 & E3); [|exists s', xs'; split_and!; [by eapply run_app1|done|done]].
        assert (hts s xs = drawn (lev (Z.of_nat max)) (ws1 ++ [w]) ids) as Hh' by (by rewrite drawn_snoc).
        destruct o as [w0 k v|k|k| | |vis w0]; cbn [set_word sk_step sk_spec] in Eo |- *; injection Eo as <- <-; unfold mbind_.
        - destruct (sk_Insert_hts cmp CO max s xs l w k v Hinv Hw) as (s' & xs' & -> & Hn & Hinv'). exists s', xs'. split_and!; [done|done|]. unfold ids', new_hts in *. destruct (existsb (is_k cmp k) l); [by rewrite Hn|].
          destruct Hn as (lv & Elv & ->). rewrite drawn_app, drawn_cons, drawn_take, drawn_drop, Hh'. f_equal. f_equal.
          rewrite lookup_total_app_r by lia. replace (length ops - length ws1)%nat with 0%nat by lia. cbn [lookup_total list_lookup_total]. symmetry. exact (lev_of _ _ _ Elv).
        - rewrite (sk_Get_ok cmp CO max s xs l k Hinv). by exists s, xs.
        - destruct (sk_Remove_hts cmp CO max s xs l k Hinv) as (s' & xs' & -> & Hn & Hinv'). exists s', xs'. split_and!; [done|done|]. unfold ids', less_hts in *. rewrite Hn, Hh'. destruct (existsb (is_k cmp k) l); [|reflexivity].
          rewrite drawn_app, drawn_take, drawn_drop. reflexivity.
        - unfold sk_Len. rewrite (inv_len _ _ _ _ _ Hinv). by exists s, xs.
        - unfold sk_Keys. rewrite (sk_Traversal_ok cmp _ _ max s xs l Hinv), visit_keys. by exists s, xs.
        - rewrite (sk_Traversal_ok cmp vis w0 max s xs l Hinv). by exists s, xs. }
    (* lengths: through any run *)
    destruct (Hrun (replicate (length ops) 0)) as (s & xs & _ & Hinv & _); [split; [apply replicate_length|apply Forall_replicate; rewrite words_Z; done]|].
    pose proof (inv_asc _ _ _ _ _ Hinv) as Hasc. unfold ids'. destruct o as [w k v|k|k| | |vis w]; cbn [sk_spec] in Eo; injection Eo as <- <-; try done.
    - destruct (sk_Insert_hts cmp CO max s xs l 0 k v Hinv ltac:(lia)) as (s' & xs' & _ & Hn & Hinv'). unfold new_hts in Hn.
      pose proof (Forall2_length _ _ _ (inv_kv _ _ _ _ _ Hinv)) as L1. pose proof (Forall2_length _ _ _ (inv_kv _ _ _ _ _ Hinv')) as L2.
      assert (length (hts s xs) = length l) as L3 by (unfold hts; by rewrite fmap_length). assert (length (hts s' xs') = length (upsert cmp k v l)) as L4 by (unfold hts; by rewrite fmap_length).
      destruct (existsb (is_k cmp k) l); [rewrite Hn in L4; lia|]. destruct Hn as (lv & _ & Hn). rewrite Hn in L4. rewrite app_length in L4 |- *. cbn [length] in L4 |- *. rewrite take_length, drop_length in L4 |- *. fold (n k) in L4. lia.
    - destruct (sk_Remove_hts cmp CO max s xs l k Hinv) as (s' & xs' & _ & Hn & Hinv'). unfold less_hts in Hn.
      pose proof (Forall2_length _ _ _ (inv_kv _ _ _ _ _ Hinv)) as L1. pose proof (Forall2_length _ _ _ (inv_kv _ _ _ _ _ Hinv')) as L2.
      assert (length (hts s xs) = length l) as L3 by (unfold hts; by rewrite fmap_length). assert (length (hts s' xs') = length (erase_k cmp k l)) as L4 by (unfold hts; by rewrite fmap_length).
      rewrite Hn in L4. destruct (existsb (is_k cmp k) l); [|lia]. rewrite app_length, take_length, drop_length in L4 |- *. fold (n k) in L4. lia.
  Qed.

  (** one level, on average: scaled by 2^max *)
  Lemma level_avg (max : Z) n js (h : nat) : 1 <= max <= 64 → NoDup js → Forall (λ j, (j < n)%nat) js → (1 <= h < Z.to_nat max)%nat →
    total words n (λ ws, moves h (drawn (lev max) ws js)) * 2 ^ max <= (2 ^ max + 2 ^ (Z.of_nat h + 1)) * Z.of_nat words ^ Z.of_nat n.
  Proof using.
    clear CO. intros Hm Hnd Hlt Hh. pose proof (moves_avg words (lev max) n h js words_pos Hnd Hlt) as H1. pose proof (words_ratio words max Hm h Hh) as H2.
    pose proof (gt_words_pos words max Hm h words_pos ltac:(lia)) as H3. assert (0 <= Z.of_nat words ^ Z.of_nat n) as HP by (apply Z.pow_nonneg; lia).
    generalize dependent (total words n (λ ws, moves h (drawn (lev max) ws js))). generalize dependent (eq_words words (lev max) h). generalize dependent (gt_words words (lev max) h).
    generalize dependent (Z.of_nat words ^ Z.of_nat n). intros P HP g Hg e He T HT. clear Hnd Hlt.
    assert (2 ^ max = 2 ^ (max - Z.of_nat h) * 2 ^ Z.of_nat h) as E1 by (rewrite <-Z.pow_add_r by lia; f_equal; lia).
    assert (2 ^ (Z.of_nat h + 1) = 2 * 2 ^ Z.of_nat h) as E2 by (rewrite Z.pow_add_r by lia; lia).
    assert (2 ^ 1 <= 2 ^ (max - Z.of_nat h)) as Hb by (apply Z.pow_le_mono_r; lia). assert (0 < 2 ^ Z.of_nat h) as Hq by (apply Z.pow_pos_nonneg; lia).
    rewrite E1, E2. generalize dependent (2 ^ (max - Z.of_nat h)). generalize dependent (2 ^ Z.of_nat h). change (2 ^ 1) with 2. intros q E2 Hq b He E1 Hb. clear E1 E2.
    (* T * (b - 1) <= b * P *)
    assert (T * (b - 1) <= b * P) as H4.
    { apply (Z.mul_le_mono_pos_l _ _ g); [done|]. transitivity (e * (b - 1) * P); [nia|]. transitivity (g * b * P); [|lia]. apply Z.mul_le_mono_nonneg_r; [done|lia]. }
    assert (T * b <= (b + 2) * P) as H5.
    { apply (Z.mul_le_mono_pos_l _ _ (b - 1)); [lia|]. transitivity (b * (b * P)); [nia|]. nia. }
    transitivity (T * b * q); [lia|]. transitivity ((b + 2) * P * q); [|lia]. apply Z.mul_le_mono_nonneg_r; lia.
  Qed.
  Lemma top_avg (max : Z) n js : 1 <= max <= 64 → Forall (λ j, (j < n)%nat) js →
    total words n (λ ws, moves (Z.to_nat max) (drawn (lev max) ws js)) * 2 ^ max <= 2 * Z.of_nat (length js) * Z.of_nat words ^ Z.of_nat n.
  Proof using.
    clear CO. intros Hm Hlt. pose proof (moves_avg_top words (lev max) n (Z.to_nat max) js Hlt) as H1. pose proof (words_top words max Hm words_Z) as H2. pose proof words_pos as H3.
    assert (0 <= Z.of_nat words ^ Z.of_nat n) as HP by (apply Z.pow_nonneg; lia). assert (0 < 2 ^ max) as H4 by (apply Z.pow_pos_nonneg; lia).
    generalize dependent (total words n (λ ws, moves (Z.to_nat max) (drawn (lev max) ws js))). generalize dependent (eq_words words (lev max) (Z.to_nat max)).
    generalize dependent (Z.of_nat words ^ Z.of_nat n). generalize dependent (2 ^ max). generalize dependent words. intros D HD q Hq P HP e He T HT.
    apply (Z.mul_le_mono_pos_r _ _ (Z.of_nat D)); [lia|]. transitivity (Z.of_nat (length js) * e * P * q); [nia|]. transitivity (Z.of_nat (length js) * P * (e * q)); [lia|]. transitivity (Z.of_nat (length js) * P * (2 * Z.of_nat D)); [|lia].
    apply Z.mul_le_mono_nonneg_l; [|done]. apply Z.mul_nonneg_nonneg; lia.
  Qed.
  Lemma levels_avg (max : nat) n js : (1 <= max <= 64)%nat → NoDup js → Forall (λ j, (j < n)%nat) js →
    total words n (λ ws, levels (drawn (lev (Z.of_nat max)) ws js) max) * 2 ^ Z.of_nat max <= Z.of_nat words ^ Z.of_nat n * ((2 * Z.of_nat max + 1) * 2 ^ Z.of_nat max + 2 * Z.of_nat (length js)).
  Proof using.
    clear CO. intros Hm Hnd Hlt. set (P := Z.of_nat words ^ Z.of_nat n). set (lv := lev (Z.of_nat max)).
    assert (∀ ws, rev (drawn lv ws js) = drawn lv ws (rev js)) as Hrev by (intros ws; apply drawn_rev).
    assert (NoDup (rev js)) as Hnd' by (by apply NoDup_ListNoDup, NoDup_rev, NoDup_ListNoDup). assert (Forall (λ j, (j < n)%nat) (rev js)) as Hlt' by (by apply Forall_rev).
    assert (total words n (λ ws, levels (drawn lv ws js) max) = sum_below max (λ i, P + total words n (λ ws, moves (Z.to_nat i + 1) (drawn lv ws (rev js))))) as ->.
    { unfold levels. rewrite total_sum. apply sum_ext. intros i _. rewrite total_plus, total_const, Z.mul_1_r. unfold P. f_equal. apply total_ext. intros ws _. by rewrite Hrev. }
    rewrite sum_plus, sum_const.
    destruct max as [|m]; [lia|]. cbn [sum_below]. rewrite Nat2Z.id.
    pose proof (top_avg (Z.of_nat (S m)) n (rev js) ltac:(lia) Hlt') as Htop. rewrite Nat2Z.id in Htop. fold lv P in Htop. rewrite rev_length in Htop.
    assert (sum_below m (λ i, total words n (λ ws, moves (Z.to_nat i + 1) (drawn lv ws (rev js)))) * 2 ^ Z.of_nat (S m) <= P * (Z.of_nat m * 2 ^ Z.of_nat (S m) + (2 * 2 ^ Z.of_nat (S m) - 4))) as Hsum.
    { rewrite <-sum_scale_r. transitivity (sum_below m (λ i, (2 ^ Z.of_nat (S m) + 2 ^ (i + 2)) * P)).
      - apply sum_le. intros i Hi. pose proof (level_avg (Z.of_nat (S m)) n (rev js) (Z.to_nat i + 1) ltac:(lia) Hnd' Hlt' ltac:(lia)) as H. fold lv P in H. replace (Z.of_nat (Z.to_nat i + 1) + 1) with (i + 2) in H by lia. exact H.
      - rewrite sum_scale_r, sum_plus, sum_const. rewrite (Z.mul_comm P). apply Z.eq_le_incl. f_equal. f_equal.
        assert (∀ j : nat, sum_below j (λ i, 2 ^ (i + 2)) = 2 * 2 ^ Z.of_nat (S j) - 4) as Hg; [|apply Hg].
        induction j as [|j IHj]; [done|]. cbn [sum_below]. rewrite IHj. replace (2 ^ (Z.of_nat j + 2)) with (2 * 2 ^ Z.of_nat (S j)) by (rewrite <-Z.pow_succ_r by lia; f_equal; lia).
        rewrite (Nat2Z.inj_succ (S j)), Z.pow_succ_r by lia. lia. }
    replace (m + 1)%nat with (S m) by lia. assert (0 <= P) as HP by (apply Z.pow_nonneg; lia).
    generalize dependent (sum_below m (λ i, total words n (λ ws, moves (Z.to_nat i + 1) (drawn lv ws (rev js))))). generalize dependent (total words n (λ ws, moves (S m) (drawn lv ws (rev js)))).
    clearbody P. rewrite !Nat2Z.inj_succ. generalize (2 ^ Z.succ (Z.of_nat m)). intros q T HT Sm HS. lia.
  Qed.

  (** C101: whatever the history (fixed before the words are drawn), every sequence of random words
      gives the same answers, and averaged over all of them a call of Insert, Get or Remove compares at most
      2 max + 2 + 2 n / 2^max times, n the number of keys before the one looked for *)
  Theorem skiplist_average_search max ops o key : 1 <= max <= 64 → looks_for o = Some key → sk_op_ok o →
    ∃ s0 rs l, sk_New max = Ok s0 ∧ srun (sk_spec cmp) ops [] = Some (rs, l) ∧
      (∀ ws, length ws = length ops → Forall (λ w, 0 <= w < 2 ^ 64) ws →
         ∃ s s' r, run (sk_step cmp) (with_words ops ws) s0 = Ok (rs, s) ∧ sk_step cmp o s = Ok (r, s') ∧
           x_sk_step (tally cmp) o (s, 0%nat) = (Ok r, (s', Z.to_nat (comparisons cmp max ops o ws)))) ∧
      total words (length ops) (comparisons cmp max ops o) * 2 ^ max <= (2 ^ 64) ^ Z.of_nat (length ops) * ((2 * max + 2) * 2 ^ max + 2 * keys_before cmp key l).
  Proof using CO.
    intros Hm Ho Hok. destruct (history_towers (Z.to_nat max) ops ltac:(lia)) as (rs & l & ids & Es & Hnd & Hlt & Hlen & s0 & E0 & Hrun). rewrite Z2Nat.id in E0, Hrun by lia.
    exists s0, rs, l. split_and!; [done|done| |].
    - intros ws Hl Hf. destruct (Hrun ws) as (s & xs & Er & Hinv & _); [split; [done|by rewrite words_Z]|]. destruct (call_same _ s xs l o Hinv Hok) as (r & s' & c & E1 & E2).
      exists s, s', r. split_and!; [done|done|]. unfold comparisons. rewrite E0, Er, E2. cbn [snd]. by rewrite Nat2Z.id.
    - set (n := length (before cmp key l)).
      assert (total words (length ops) (comparisons cmp max ops o) <= total words (length ops) (λ ws, levels (drawn (lev max) ws (take n ids)) (Z.to_nat max) + 1)) as H1.
      { apply total_le. intros ws Hws. destruct (Hrun ws Hws) as (s & xs & Er & Hinv & Hh). unfold comparisons. rewrite E0, Er. rewrite drawn_take, <-Hh. by apply (call_cost _ s xs l o key). }
      rewrite total_plus, total_const, Z.mul_1_r in H1.
      pose proof (levels_avg (Z.to_nat max) (length ops) (take n ids) ltac:(lia)) as H2. rewrite Z2Nat.id in H2 by lia.
      specialize (H2 ltac:(eapply sublist_NoDup; [exact Hnd|apply sublist_take]) ltac:(by apply Forall_take)).
      assert (length (take n ids) = n) as Hn. { rewrite take_length, Hlen. unfold n, before. pose proof (filter_length (λ kv : K * V, cmp kv.1 key < 0) l). lia. }
      rewrite Hn in H2. unfold keys_before. fold (before cmp key l). fold n. rewrite words_Z in H1, H2.
      assert (0 < 2 ^ max) as Hp by (apply Z.pow_pos_nonneg; lia).
      generalize dependent (total words (length ops) (comparisons cmp max ops o)). generalize dependent (total words (length ops) (λ ws, levels (drawn (lev max) ws (take n ids)) (Z.to_nat max))).
      generalize dependent ((2 ^ 64) ^ Z.of_nat (length ops)). generalize dependent (2 ^ max). intros q Hq P T HT C HC. clear - Hq HT HC. nia.
  Qed.
  (** ... in particular 2 max + 4 if that is no more than 2^max keys *)
  Corollary skiplist_average_search_log max ops o key : 1 <= max <= 64 → looks_for o = Some key → sk_op_ok o →
    ∃ rs l, srun (sk_spec cmp) ops [] = Some (rs, l) ∧ (keys_before cmp key l <= 2 ^ max → total words (length ops) (comparisons cmp max ops o) <= (2 ^ 64) ^ Z.of_nat (length ops) * (2 * max + 4)).
  Proof using CO.
    intros Hm Ho Hok. destruct (skiplist_average_search max ops o key Hm Ho Hok) as (s0 & rs & l & _ & Es & _ & H). exists rs, l. split; [done|]. intros Hk.
    assert (0 < 2 ^ max) as Hp by (apply Z.pow_pos_nonneg; lia). assert (0 <= (2 ^ 64) ^ Z.of_nat (length ops)) as HP by (apply Z.pow_nonneg; lia).
    generalize dependent (total words (length ops) (comparisons cmp max ops o)). generalize dependent ((2 ^ 64) ^ Z.of_nat (length ops)). generalize dependent (2 ^ max). generalize dependent (keys_before cmp key l).
    intros n q Hn Hq P HP T HT. clear -Hn Hq HP HT. apply (Z.mul_le_mono_pos_r _ _ q); [done|]. etransitivity; [exact HT|]. nia.
  Qed.
  (** ... but not with every sequence of words: for each history there is one with which Insert or Remove compares
      with every key before the one looked for *)
  Theorem skiplist_worst_search max ops o key : 1 <= max <= 64 → looks_for o = Some key → o ≠ SGet key →
    ∃ ws rs l, length ws = length ops ∧ Forall (λ w, 0 <= w < 2 ^ 64) ws ∧ srun (sk_spec cmp) ops [] = Some (rs, l) ∧ keys_before cmp key l <= comparisons cmp max ops o ws.
  Proof using CO.
    intros Hm Ho Hne. destruct (history_towers (Z.to_nat max) ops ltac:(lia)) as (rs & l & ids & Es & Hnd & Hlt & Hlen & s0 & E0 & Hrun). rewrite Z2Nat.id in E0, Hrun by lia.
    set (w := 2 ^ max - 2). assert (2 ^ 1 <= 2 ^ max) as Hp1 by (apply Z.pow_le_mono_r; lia). assert (2 ^ max <= 2 ^ 64) as Hp2 by (apply Z.pow_le_mono_r; lia).
    assert (0 <= w < 2 ^ 64) as Hw by (unfold w; lia).
    assert (lev max w = 1%nat) as Hlev.
    { apply lev_eq; [done|lia|lia|]. change (Z.of_nat 1) with 1. replace (max - 1 + 1) with max by lia. assert (2 ^ max = 2 * 2 ^ (max - 1)) as Hd by (rewrite <-Z.pow_succ_r by lia; f_equal; lia).
      assert (1 <= 2 ^ (max - 1)) by (assert (0 < 2 ^ (max - 1)) by (apply Z.pow_pos_nonneg; lia); lia). rewrite Z.mod_small by (unfold w; lia). unfold w. lia. }
    exists (replicate (length ops) w), rs, l. assert (Forall (λ w, 0 <= w < 2 ^ 64) (replicate (length ops) w)) as Hf by (by apply Forall_replicate). split_and!; [apply replicate_length|done|done|].
    destruct (Hrun (replicate (length ops) w)) as (s & xs & Er & Hinv & Hh); [split; [apply replicate_length|by rewrite words_Z]|].
    unfold comparisons. rewrite E0, Er. destruct (call_cost _ s xs l o key Hinv Ho) as [_ Hlo]. specialize (Hlo Hne). etransitivity; [|exact Hlo]. rewrite Hh, <-drawn_take.
    set (n := length (before cmp key l)). assert (length (take n ids) = n) as Hn. { rewrite take_length, Hlen. unfold n, before. pose proof (filter_length (λ kv : K * V, cmp kv.1 key < 0) l). lia. }
    assert (drawn (lev max) (replicate (length ops) w) (take n ids) = replicate n 1%nat) as ->.
    { assert (Forall (λ j, (j < length ops)%nat) (take n ids)) as Hlt' by (by apply Forall_take). rewrite <-Hn at 2. apply drawn_same. eapply Forall_impl; [exact Hlt'|]. intros j Hj. cbv beta in Hj. rewrite lookup_total_replicate_2 by exact Hj. exact Hlev. }
    assert (∀ k, moves 1 (replicate k 1%nat) = Z.of_nat k) as Hk1. { induction k as [|k IH]; [done|]. cbn [replicate moves]. rewrite decide_False by lia. rewrite decide_True by done. rewrite IH. lia. }
    assert (rev (replicate n 1%nat) = replicate n 1%nat) as Hrep by (rewrite <-(reverse_replicate n 1%nat) at 2; unfold reverse; by rewrite <-rev_alt).
    unfold keys_before. fold (before cmp key l). fold n. rewrite <-(Hk1 n). unfold levels. rewrite Hrep. clear -Hm.
    assert (∀ h hs, 0 <= moves h hs) as Hnn. { intros h hs. induction hs as [|x hs IH]; cbn [moves]; [lia|]. repeat case_decide; lia. }
    rewrite sum_plus, sum_const. destruct (Z.to_nat max) as [|m] eqn:Em; [lia|].
    assert (moves 1 (replicate n 1%nat) <= sum_below (S m) (λ i, moves (Z.to_nat i + 1) (replicate n 1%nat))); [|lia].
    clear Em. induction m as [|m IH]; [cbn [sum_below]; change (Z.to_nat (Z.of_nat 0) + 1)%nat with 1%nat; lia|]. cbn [sum_below] in *. pose proof (Hnn (Z.to_nat (Z.of_nat (S m)) + 1)%nat (replicate n 1%nat)). lia.
  Qed.
End props.

(** ten keys: with words that all give level 1 looking for the last costs ten comparisons, with mixed ones four *)
Definition ten : list (sk_op Z Z (list Z)) := (λ k, SInsert 0 k k) <$> [1; 2; 3; 4; 5; 6; 7; 8; 9; 10].
Example ten_flat : comparisons zcmp 4 ten (SGet 10) (replicate 10 14) = 10.
Proof. vm_compute. reflexivity. Qed.
Example ten_mixed : comparisons zcmp 4 ten (SGet 10) [14; 1; 14; 0; 14; 2; 14; 0; 14; 14] = 4.
Proof. vm_compute. reflexivity. Qed.
Example ten_ok : looks_for (SGet 10 : sk_op Z Z (list Z)) = Some 10 ∧ keys_before (V := Z) zcmp 10 ((λ k, (k, k)) <$> [1; 2; 3; 4; 5; 6; 7; 8; 9; 10]) = 9.
Proof. vm_compute. done. Qed.

Print Assumptions skiplist_average_search.
Print Assumptions skiplist_average_search_log.
Print Assumptions skiplist_worst_search.
