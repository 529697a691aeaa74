(** C99, C100: the algorithms on iterators of lists, maps and sets. *)
From Verif Require Import Base Wp ListLib History SortSpec AlgoModel AlgoSpec AlgoProofs AlgoProps NodeAlgoModel NodeAlgoSpec NodeAlgoProofs
  BidlistModel BidlistSpec BidlistCyc BidlistProofs BidlistOps BidlistHist BidlistProps SlistModel SlistSpec SlistProofs TextModel
  RbModel RbTree RbSpec RbFind RbProps RbApi MapModel MapSpec MapProofs SetModel SetSpec SetProofs EraseIterSpec EraseIterProps
  NodeAlgoList NodeAlgoSlist NodeAlgoTree.
From Verif Require Import ListLib AlgoModel.
Open Scope nat_scope.

(** C99: in terms of positions: the read-only algorithms between the iterators at a and b *)
Section algorithms.
  Context {W T : Type} (next : option nat → M W (option nat)) (value : option nat → M W T) (equal : option nat → option nat → bool) (begin : M W (option nat)).
  Context (w : W) (vals : list T) (ps : list nat).
  Notation eq := (λ i j w, Ok (equal i j, w)).
  Let rng (a b : nat) := zip ((λ k, ps !! k) <$> seq a (b - a)) (seg a b vals).
  Lemma rng_snd a b : a <= b <= length vals → (rng a b).*2 = seg a b vals.
  Proof using. intros Hab. apply snd_zip. rewrite fmap_length, seq_length, seg_length; lia. Qed.
  Lemma rng_len a b : a <= b <= length vals → length (rng a b) = b - a.
  Proof using. intros Hab. rewrite <-(fmap_length snd), rng_snd by lia. rewrite seg_length; lia. Qed.
  Lemma rng_at a b k i x : a <= b <= length vals → rng a b !! k = Some (i, x) → a + k < b ∧ i = ps !! (a + k) ∧ vals !! (a + k) = Some x.
  Proof using.
    intros Hab Hk. assert (k < b - a) as Hlt by (rewrite <-(rng_len a b Hab); by eapply lookup_lt_Some). unfold rng in Hk. rewrite lookup_zip_with in Hk. rewrite list_lookup_fmap, lookup_seq_lt in Hk by done. cbn in Hk.
    destruct (seg a b vals !! k) as [y|] eqn:E; [|done]. cbn in Hk. injection Hk as <- <-. rewrite seg_lookup in E by lia. split_and!; [lia|done|done].
  Qed.
  Lemma at_rng a b k x : a <= b <= length vals → a <= k < b → vals !! k = Some x → rng a b !! (k - a) = Some (ps !! k, x).
  Proof using.
    intros Hab Hk Hx. unfold rng. rewrite lookup_zip_with, list_lookup_fmap, lookup_seq_lt by lia. cbn. rewrite seg_lookup by lia. by replace (a + (k - a)) with k by lia; rewrite Hx.
  Qed.
  Lemma at_position Q a b r : a <= b <= length vals → first_such Q (rng a b) (ps !! b) r →
    ∃ k, r = ps !! k ∧ a <= k <= b ∧ (∀ j x, a <= j < k → vals !! j = Some x → ¬ Q x) ∧ (k < b → ∃ x, vals !! k = Some x ∧ Q x).
  Proof using.
    intros Hab [(k & x & Hk & Hx & Hj)|[-> Hn]].
    - destruct (rng_at _ _ _ _ _ Hab Hk) as (Hlt & -> & Hv). exists (a + k). split_and!; [done|lia|lia| |by eauto]. intros j y Hja Hy. apply (Hj (j - a) (ps !! j) y); [lia|]. apply at_rng; [done|lia|done].
    - exists b. split_and!; [done|lia|lia| |lia]. intros j y Hj Hy. apply (Hn (ps !! j) y). apply elem_of_list_lookup. exists (j - a). apply at_rng; [done|lia|done].
  Qed.
  Lemma at_extreme (beats : T → T → Prop) a b r : a <= b <= length vals → first_extreme beats (rng a b) (ps !! b) r →
    ∃ k, r = ps !! k ∧ a <= k <= b ∧ (k = b → a = b) ∧ ∀ x j y, vals !! k = Some x → a <= j < b → vals !! j = Some y → ¬ beats y x ∧ (j < k → beats x y).
  Proof using.
    intros Hab [[Hn ->]|(k & x & Hk & H1 & H2)].
    - exists b. assert (a = b) as ->. { pose proof (rng_len a b Hab) as Hl. rewrite Hn in Hl. cbn in Hl. lia. } split_and!; [done|lia|lia|done|]. lia.
    - destruct (rng_at _ _ _ _ _ Hab Hk) as (Hlt & -> & Hv). exists (a + k). split_and!; [done|lia|lia|lia|]. intros x' j y Hx' Hj Hy. rewrite Hv in Hx'. injection Hx' as <-.
      pose proof (at_rng a b j y Hab Hj Hy) as Hr. split; [apply (H1 (ps !! j)); apply elem_of_list_lookup; by eexists|]. intros Hjk. apply (H2 (j - a) (ps !! j)); [lia|done].
  Qed.
  Context (H : iterators next value equal begin w vals ps).
  Context (cmp : T → T → Z) (OK : CmpOK cmp) (p : option nat → M W bool) (P : T → Prop) `{∀ x, Decision (P x)}.
  (** the caller's function decides P on each element *)
  Context (Hp : ∀ k x, vals !! k = Some x → p (ps !! k) w = Ok (bool_decide (P x), w)).
  Let fun_on a b : a <= b <= length vals → ∀ i x, (i, x) ∈ rng a b → p i w = Ok (bool_decide (P x), w).
  Proof using Hp. intros Hab i x (k & Hk)%elem_of_list_lookup. destruct (rng_at _ _ _ _ _ Hab Hk) as (_ & -> & Hx). by apply Hp. Qed.
  Theorem node_algorithms a b fuel v : a <= b <= length vals → b - a <= fuel →
    let first := ps !! a in let last := ps !! b in let range := seg a b vals in
    count next value eq cmp fuel first last v w = Ok (Z.of_nat (length (filter (λ x, cmp x v = 0%Z) range)), w) ∧
    count_if next eq p fuel first last w = Ok (Z.of_nat (length (filter P range)), w) ∧
    (∃ k, find next value eq cmp fuel first last v w = Ok (ps !! k, w) ∧ a <= k <= b ∧
       (∀ j x, a <= j < k → vals !! j = Some x → cmp x v ≠ 0%Z) ∧ (k < b → ∃ x, vals !! k = Some x ∧ cmp x v = 0%Z)) ∧
    (∃ k, find_if next eq p fuel first last w = Ok (ps !! k, w) ∧ a <= k <= b ∧
       (∀ j x, a <= j < k → vals !! j = Some x → ¬ P x) ∧ (k < b → ∃ x, vals !! k = Some x ∧ P x)) ∧
    (∃ k, max_element next value eq cmp fuel first last w = Ok (ps !! k, w) ∧ a <= k <= b ∧ (k = b → a = b) ∧
       ∀ x j y, vals !! k = Some x → a <= j < b → vals !! j = Some y → (cmp y x <= 0)%Z ∧ (j < k → (cmp y x < 0)%Z)) ∧
    (∃ k, min_element next value eq cmp fuel first last w = Ok (ps !! k, w) ∧ a <= k <= b ∧ (k = b → a = b) ∧
       ∀ x j y, vals !! k = Some x → a <= j < b → vals !! j = Some y → (0 <= cmp y x)%Z ∧ (j < k → (0 < cmp y x)%Z)) ∧
    any_of next eq p fuel first last w = Ok (bool_decide (Exists P range), w) ∧
    all_of next eq p fuel first last w = Ok (bool_decide (Forall P range), w) ∧
    none_of next eq p fuel first last w = Ok (bool_decide (Forall (λ x, ¬ P x) range), w).
  Proof using H Hp OK.
    intros Hab Hf first last range. destruct H as (Hl & _ & Hr). specialize (Hr a b Hab). fold (rng a b) in Hr. assert (length (rng a b) <= fuel) as Hf' by by rewrite rng_len.
    pose proof (fun_on a b Hab) as Hfun. pose proof (rng_snd a b Hab) as Hs. unfold range, first, last.
    pose proof (count_counts next value eq w _ _ _ fuel Hr Hf' cmp v) as R1. pose proof (count_if_counts next value eq w _ _ _ fuel Hr Hf' p P Hfun) as R2.
    pose proof (find_first next value eq w _ _ _ fuel Hr Hf' cmp v) as (r3 & R3 & F3). pose proof (find_if_first next value eq w _ _ _ fuel Hr Hf' p P Hfun) as (r4 & R4 & F4).
    pose proof (max_element_first next value eq w _ _ _ fuel Hr Hf' cmp OK) as (r5 & R5 & F5). pose proof (min_element_first next value eq w _ _ _ fuel Hr Hf' cmp OK) as (r6 & R6 & F6).
    pose proof (quantifiers next value eq w _ _ _ fuel Hr Hf' p P Hfun) as (R7 & R8 & R9). rewrite Hs in R1, R2, R7, R8, R9.
    split_and!; [exact R1|exact R2| | | | |exact R7|exact R8|exact R9].
    - destruct (at_position _ _ _ _ Hab F3) as (k & -> & Hk). by exists k.
    - destruct (at_position _ _ _ _ Hab F4) as (k & -> & Hk). by exists k.
    - destruct (at_extreme _ _ _ _ Hab F5) as (k & -> & Hk & Hkb & Hx). exists k. split_and!; [done|lia|lia|done|]. intros x j y H1 H2 H3. destruct (Hx x j y H1 H2 H3) as [H4 H5]. pose proof (cmp_flip_gt _ OK x y). split; [lia|]. intros Hjk. pose proof (H5 Hjk). lia.
    - destruct (at_extreme _ _ _ _ Hab F6) as (k & -> & Hk & Hkb & Hx). exists k. split_and!; [done|lia|lia|done|]. intros x j y H1 H2 H3. destruct (Hx x j y H1 H2 H3) as [H4 H5]. pose proof (cmp_flip_lt _ OK x y). split; [lia|]. intros Hjk. pose proof (H5 Hjk). lia.
  Qed.
End algorithms.

(** C99: the iterators of each container *)
Lemma law_iterators {W T} next (value : option nat → M W T) equal begin ps (R : W → list T → Prop) w l : node_law next value equal ps R → R w l → begin w = Ok (ps !! 0, w) → iterators next value equal begin w l ps.
Proof. intros L HR Hb. split; [by rewrite (nl_len _ _ _ _ _ L _ _ HR)|]. split; [done|]. intros a b Hab. by apply (range_at L). Qed.

Theorem bidlist_iterators {T} ops (w : bworld T) s k ps : b_reach ops w s → s_lists s !! k = Some ps →
  iterators bi_Next bi_Value bi_Equal (b_FrontNode k) w (vals_of s ps) ps.
Proof.
  intros Hr Hk. destruct (list_start ops w s k ps Hr Hk) as [Hh Hnd]. apply (law_iterators _ _ _ _ _ _ _ _ (list_law s k ps Hk Hnd) Hh).
  unfold b_FrontNode, mbind_. rewrite (ls_ok w k _ (br_list _ _ _ _ (reach_rel _ _ _ Hr) Hk)). cbn. by rewrite head_lookup.
Qed.
Theorem slist_iterators {T} (zero : T) ops w s k ps : s_reach zero ops w s → ss_lists s !! k = Some ps →
  iterators sli_Next sli_Value sli_Equal (s_FrontNode k) w (s_vals_of s ps) ps.
Proof.
  intros Hr Hk. destruct (slist_start zero ops w s k ps Hr Hk) as [Hh Hnd]. apply (law_iterators _ _ _ _ _ _ _ _ (slist_law zero s k ps Hk Hnd) Hh).
  unfold s_FrontNode, mbind_. rewrite (sl_ok w k _ (sr_list _ _ _ _ (s_reach_rel _ _ _ _ Hr) Hk)). cbn. by rewrite head_lookup.
Qed.
Section trees.
  Context {K V : Type} (cmp : K → K → Z) (CO : CmpOK cmp).
  Theorem rbtree_value_iterators (s : rb K V) l : reach cmp s → contents s l → iterators it_Next it_Value it_Equal rb_First s l.*2.*2 l.*1.
  Proof using CO.
    intros Hr Hc. destruct (open cmp CO s l Hr Hc) as (t & H & -> & _). apply (law_iterators _ _ _ _ _ (tree_holds cmp (io t).*1 (io t).*2.*1)); [apply tree_law; [done|by eapply tree_nodup]|by exists t|by eapply tree_begin].
  Qed.
  Lemma map_tree (s : rb K V) t : tinv cmp s t → iterators mi_Next mi_Value mi_Equal map_Begin s (io t).*2.*2 (io t).*1.
  Proof using CO.
    intros H. apply (law_iterators _ _ _ _ _ (tree_holds cmp (io t).*1 (io t).*2.*1)); [apply map_law; [done|by eapply tree_nodup]|by exists t|by eapply tree_begin].
  Qed.
  Lemma mm_history {W} (ops : list (map_op K V W)) rs l : srun (mm_spec cmp) ops [] = Some (rs, l) → ∃ s, run (mm_step cmp) ops map_new = Ok (rs, s) ∧ holds cmp s l.
  Proof using CO.
    intros E1. pose proof (run_agrees (mm_step (W := W) cmp) (mm_spec cmp) (holds cmp) (λ _, True) (λ o s l _ H, mm_agrees cmp CO o s l H) ops map_new []) as H.
    unfold agrees in H. rewrite E1 in H. apply H; [by apply Forall_forall|by apply holds_new].
  Qed.
  Theorem map_value_iterators {W} (ops : list (map_op K V W)) rs l : srun (map_spec cmp) ops [] = Some (rs, l) →
    ∃ s ps, run (map_step cmp) ops map_new = Ok (rs, s) ∧ iterators mi_Next mi_Value mi_Equal map_Begin s l.*2 ps.
  Proof using CO. intros E1. destruct (history_holds cmp CO ops rs l E1) as (s & Er & (t & H & <-) & _). exists s, (io t).*1. split; [done|by apply map_tree]. Qed.
  Theorem multimap_value_iterators {W} (ops : list (map_op K V W)) rs l : srun (mm_spec cmp) ops [] = Some (rs, l) →
    ∃ s ps, run (mm_step cmp) ops map_new = Ok (rs, s) ∧ iterators mi_Next mi_Value mi_Equal mm_Begin s l.*2 ps.
  Proof using CO. intros E1. destruct (mm_history ops rs l E1) as (s & Er & (t & H & <-)). exists s, (io t).*1. split; [done|by apply map_tree]. Qed.
End trees.
Section sets.
  Context {T : Type} (cmp : T → T → Z) (CO : CmpOK cmp).
  Lemma set_tree (s : rb T bool) t : tinv cmp s t → iterators si_Next si_Value si_Equal rb_First s (io t).*2.*1 (io t).*1.
  Proof using CO.
    intros H. apply (law_iterators _ _ _ _ _ (keys_held cmp (io t).*1)); [apply set_law; [done|by eapply tree_nodup]|by exists t|by eapply tree_begin].
  Qed.
  Theorem set_value_iterators {W} (ops : list (set_op T W)) rs l : srun (set_spec cmp) ops [] = Some (rs, l) →
    ∃ s ps, run (set_step cmp) ops set_new = Ok (rs, s) ∧ iterators si_Next si_Value si_Equal set_Begin s l ps.
  Proof using CO.
    intros E1. pose proof (run_agrees (set_step (W := W) cmp) (set_spec cmp) (asholds cmp) (λ _, True) (λ o s l _ H, set_agrees cmp CO o s l H) ops set_new []) as H.
    unfold agrees in H. rewrite E1 in H. destruct H as (s & Er & (t & H & <-) & _); [by apply Forall_forall|split; [by apply sholds_new|constructor]|]. exists s, (io t).*1. split; [done|by apply set_tree].
  Qed.
  Theorem multiset_value_iterators {W} (ops : list (set_op T W)) rs l : srun (ms_spec cmp) ops [] = Some (rs, l) →
    ∃ s ps, run (ms_step cmp) ops set_new = Ok (rs, s) ∧ iterators si_Next si_Value si_Equal ms_Begin s l ps.
  Proof using CO.
    intros E1. pose proof (run_agrees (ms_step (W := W) cmp) (ms_spec cmp) (sholds cmp) (λ _, True) (λ o s l _ H, ms_agrees cmp CO o s l H) ops set_new []) as H.
    unfold agrees in H. rewrite E1 in H. destruct H as (s & Er & (t & H & <-)); [by apply Forall_forall|by apply sholds_new|]. exists s, (io t).*1. split; [done|by apply set_tree].
  Qed.
End sets.

(** C100: Swap and Reverse *)
Section lists.
  Context {T : Type}.
  (** [list_holds s ps w' l'] (NodeAlgoList.v): w' is a world of lists that differs from s only in the values of
      the nodes ps, which are l' *)
  Theorem list_swap ops (w : bworld T) s k ps i j x y : b_reach ops w s → s_lists s !! k = Some ps → vals_of s ps !! i = Some x → vals_of s ps !! j = Some y →
    ∃ w', g_swap bi_Value bi_SetValue (ps !! i) (ps !! j) w = Ok (tt, w') ∧ list_holds s ps w' (exchanged i j x y (vals_of s ps)).
  Proof using.
    intros Hr Hk Hi Hj. destruct (list_start ops w s k ps Hr Hk) as [Hh Hnd].
    exact (swap_at (list_law s k ps Hk Hnd) (list_write s k ps Hk Hnd) w (vals_of s ps) i j x y Hh Hi Hj).
  Qed.
  Theorem list_reverse_partial ops (w : bworld T) s k ps a b fuel : b_reach ops w s → s_lists s !! k = Some ps → a < b < length ps → b - a <= fuel →
    ∃ w', g_reverse bi_Next bi_Prev bi_Value bi_SetValue bi_Equal fuel (ps !! a) (ps !! b) w = Ok (tt, w') ∧ list_holds s ps w' (reversed a b (vals_of s ps)).
  Proof using.
    intros Hr Hk Hab Hf. destruct (list_start ops w s k ps Hr Hk) as [Hh Hnd]. pose proof (nl_len _ _ _ _ _ (list_law s k ps Hk Hnd) _ _ Hh) as Hl. rewrite <-Hl in Hab.
    pose proof (g_reverse_ok (list_law s k ps Hk Hnd) (list_write s k ps Hk Hnd) (list_back s k ps Hk) fuel w _ a b Hh Hab Hf) as Hw. apply wp_Ok in Hw as ([] & w' & E & H). by exists w'.
  Qed.
  Theorem list_reverse_end_refuted ops (w : bworld T) s k ps a fuel : b_reach ops w s → s_lists s !! k = Some ps → a < length ps → 0 < fuel →
    g_reverse bi_Next bi_Prev bi_Value bi_SetValue bi_Equal fuel (ps !! a) None w = Panic.
  Proof using.
    intros Hr Hk Ha Hf. destruct (list_start ops w s k ps Hr Hk) as [Hh Hnd]. pose proof (nl_len _ _ _ _ _ (list_law s k ps Hk Hnd) _ _ Hh) as Hl.
    pose proof (g_reverse_end (list_law s k ps Hk Hnd) (set := bi_SetValue) (list_back s k ps Hk) fuel w _ a Hh ltac:(lia) Hf) as E. by rewrite (lookup_ge_None_2 ps (length (vals_of s ps))) in E by lia.
  Qed.
  Theorem list_reverse_nothing_refuted ops (w : bworld T) s k ps a fuel : b_reach ops w s → s_lists s !! k = Some ps → a < length ps → length ps < fuel + a →
    if decide (length ps = 2 * a)
    then ∃ w', g_reverse bi_Next bi_Prev bi_Value bi_SetValue bi_Equal fuel (ps !! a) (ps !! a) w = Ok (tt, w') ∧ list_holds s ps w' (rev (vals_of s ps))
    else g_reverse bi_Next bi_Prev bi_Value bi_SetValue bi_Equal fuel (ps !! a) (ps !! a) w = Panic.
  Proof using.
    intros Hr Hk Ha Hf. destruct (list_start ops w s k ps Hr Hk) as [Hh Hnd]. pose proof (nl_len _ _ _ _ _ (list_law s k ps Hk Hnd) _ _ Hh) as Hl. rewrite <-Hl in Ha, Hf. rewrite <-Hl.
    pose proof (g_reverse_empty (list_law s k ps Hk Hnd) (list_write s k ps Hk Hnd) (list_back s k ps Hk) fuel w _ a Hh Ha Hf) as E. destruct (decide _); [|exact E]. apply wp_Ok in E as ([] & w' & E & H). by exists w'.
  Qed.
End lists.
Theorem slist_swap {T} (zero : T) ops w s k ps i j x y : s_reach zero ops w s → ss_lists s !! k = Some ps → s_vals_of s ps !! i = Some x → s_vals_of s ps !! j = Some y →
  ∃ w', g_swap sli_Value sli_SetValue (ps !! i) (ps !! j) w = Ok (tt, w') ∧ slist_holds zero s ps w' (exchanged i j x y (s_vals_of s ps)).
Proof.
  intros Hr Hk Hi Hj. destruct (slist_start zero ops w s k ps Hr Hk) as [Hh Hnd].
  exact (swap_at (slist_law zero s k ps Hk Hnd) (slist_write zero s k ps Hk Hnd) w (s_vals_of s ps) i j x y Hh Hi Hj).
Qed.
Section maps.
  Context {K V : Type} (cmp : K → K → Z) (CO : CmpOK cmp).
  Lemma holds_multimap_is (s : rb K V) l : holds cmp s l → multimap_is cmp s l.
  Proof using CO.
    intros Hs W ops. pose proof (run_agrees (mm_step (W := W) cmp) (mm_spec cmp) (holds cmp) (λ _, True) (λ o s l _ H, mm_agrees cmp CO o s l H) ops s l) as H.
    unfold agrees in H. destruct (srun (mm_spec cmp) ops l) as [[rs l']|]; [|apply H; [by apply Forall_forall|done]].
    destruct H as (s' & H & _); [by apply Forall_forall|done|eauto].
  Qed.
  Lemma tree_holds_is ps (l : list (K * V)) (s : rb K V) vs : tree_holds cmp ps l.*1 s vs → length vs = length l → holds cmp s (zip l.*1 vs).
  Proof using. intros (t & H & _ & E2 & E3) _. exists t. split; [done|]. by rewrite <-E2, <-E3, zip_fst_snd. Qed.
  Lemma keys_asc (l l' : list (K * V)) : l'.*1 = l.*1 → MapSpec.ascending cmp l → MapSpec.ascending cmp l'.
  Proof using.
    clear CO. unfold MapSpec.ascending. revert l'. induction l as [|x l IH]; intros l' E H; [by apply fmap_nil_inv in E as ->|]. destruct l' as [|x' l']; [done|]. rewrite !fmap_cons in E. injection E as E1 E2.
    apply StronglySorted_inv in H as [H1 H2]. constructor; [by apply IH|]. rewrite E1. rewrite Forall_forall in *. intros y Hy.
    assert (y.1 ∈ l.*1) as Hy1 by (rewrite <-E2; by apply elem_of_list_fmap_1). apply elem_of_list_fmap in Hy1 as (z & -> & Hz). by apply H2.
  Qed.
  Lemma map_keeps ps (l : list (K * V)) (s : rb K V) vs : tree_holds cmp ps l.*1 s vs → length vs = length l → MapSpec.ascending cmp l → map_is cmp s (zip l.*1 vs).
  Proof using CO.
    intros Hh Hl Ha. apply mholds_is; [done|]. split; [by eapply tree_holds_is|]. eapply keys_asc; [|exact Ha]. rewrite fst_zip; [done|]. by rewrite fmap_length, Hl.
  Qed.
  Lemma rev_len {A} a b (l : list A) : a <= b <= length l → length (reversed a b l) = length l.
  Proof using. clear. intros H. unfold reversed. rewrite !app_length, rev_length, !take_length, !drop_length. lia. Qed.
  Theorem map_swap {W} (ops : list (map_op K V W)) rs l : srun (map_spec cmp) ops [] = Some (rs, l) →
    ∃ s ps, run (map_step cmp) ops map_new = Ok (rs, s) ∧ iterators mi_Next mi_Value mi_Equal map_Begin s l.*2 ps ∧
      ∀ i j x y, l.*2 !! i = Some x → l.*2 !! j = Some y →
        ∃ s', g_swap mi_Value mi_SetValue (ps !! i) (ps !! j) s = Ok (tt, s') ∧ map_is cmp s' (zip l.*1 (exchanged i j x y l.*2)).
  Proof using CO.
    intros E1. destruct (history_holds cmp CO ops rs l E1) as (s & Er & (t & H & <-) & Ha). exists s, (io t).*1. split; [done|]. split; [by apply (map_tree cmp CO)|]. intros i j x y Hi Hj.
    assert (tree_holds cmp (io t).*1 (io t).*2.*1 s (io t).*2.*2) as Hh by by exists t.
    destruct (swap_at (map_law cmp CO _ _ (tree_nodup cmp CO s t H)) (map_write cmp CO _ _) s _ i j x y Hh Hi Hj) as (s' & E & H'). exists s'. split; [done|]. eapply map_keeps; [exact H'| |done].
    unfold exchanged. rewrite (insert_length (<[i := y]> (io t).*2.*2) j x), (insert_length (io t).*2.*2 i y). by rewrite !fmap_length.
  Qed.
  Theorem map_reverse_partial {W} (ops : list (map_op K V W)) rs l : srun (map_spec cmp) ops [] = Some (rs, l) →
    ∃ s ps, run (map_step cmp) ops map_new = Ok (rs, s) ∧ iterators mi_Next mi_Value mi_Equal map_Begin s l.*2 ps ∧
      ∀ a b fuel, a < b < length l → b - a <= fuel →
        ∃ s', g_reverse mi_Next mi_Prev mi_Value mi_SetValue mi_Equal fuel (ps !! a) (ps !! b) s = Ok (tt, s') ∧ map_is cmp s' (zip l.*1 (reversed a b l.*2)).
  Proof using CO.
    intros E1. destruct (history_holds cmp CO ops rs l E1) as (s & Er & (t & H & <-) & Ha). exists s, (io t).*1. split; [done|]. split; [by apply (map_tree cmp CO)|]. intros a b fuel Hab Hf.
    assert (tree_holds cmp (io t).*1 (io t).*2.*1 s (io t).*2.*2) as Hh by by exists t.
    pose proof (g_reverse_ok (map_law cmp CO _ _ (tree_nodup cmp CO s t H)) (map_write cmp CO _ _) (map_back cmp CO _ _) fuel s _ a b Hh ltac:(by rewrite fmap_length) Hf) as Hw.
    apply wp_Ok in Hw as ([] & s' & E & H'). exists s'. split; [done|]. eapply map_keeps; [exact H'| |done]. etrans; [apply (rev_len a b); rewrite fmap_length; lia|]. by rewrite !fmap_length.
  Qed.
  Theorem map_reverse_end_refuted {W} (ops : list (map_op K V W)) rs l : srun (map_spec cmp) ops [] = Some (rs, l) → l ≠ [] →
    ∃ s p, run (map_step cmp) ops map_new = Ok (rs, s) ∧ map_Begin s = Ok (Some p, s) ∧
      ∀ fuel, 0 < fuel → g_reverse mi_Next mi_Prev mi_Value mi_SetValue mi_Equal fuel (Some p) None s = Panic.
  Proof using CO.
    intros E1 Hne. destruct (history_holds cmp CO ops rs l E1) as (s & Er & (t & H & <-) & Ha). assert (0 < length (io t).*2) as Hpos by (destruct (io t); [done|cbn; lia]). rewrite fmap_length in Hpos.
    destruct (lookup_lt_is_Some_2 (io t).*1 0) as [p Hp]; [by rewrite fmap_length|]. exists s, p. split; [done|]. split; [unfold map_Begin; by rewrite (tree_begin cmp CO s t H), Hp|]. intros fuel Hf.
    assert (tree_holds cmp (io t).*1 (io t).*2.*1 s (io t).*2.*2) as Hh by by exists t.
    pose proof (g_reverse_end (map_law cmp CO _ _ (tree_nodup cmp CO s t H)) (set := mi_SetValue) (map_back cmp CO _ _) fuel s _ 0 Hh ltac:(by rewrite !fmap_length) Hf) as E.
    rewrite Hp in E. by rewrite (lookup_ge_None_2 (io t).*1 (length (io t).*2.*2)) in E by by rewrite !fmap_length.
  Qed.
  Theorem multimap_swap {W} (ops : list (map_op K V W)) rs l : srun (mm_spec cmp) ops [] = Some (rs, l) →
    ∃ s ps, run (mm_step cmp) ops map_new = Ok (rs, s) ∧ iterators mi_Next mi_Value mi_Equal mm_Begin s l.*2 ps ∧
      ∀ i j x y, l.*2 !! i = Some x → l.*2 !! j = Some y →
        ∃ s', g_swap mi_Value mi_SetValue (ps !! i) (ps !! j) s = Ok (tt, s') ∧ multimap_is cmp s' (zip l.*1 (exchanged i j x y l.*2)).
  Proof using CO.
    intros E1. destruct (mm_history cmp CO ops rs l E1) as (s & Er & (t & H & <-)). exists s, (io t).*1. split; [done|]. split; [by apply (map_tree cmp CO)|]. intros i j x y Hi Hj.
    assert (tree_holds cmp (io t).*1 (io t).*2.*1 s (io t).*2.*2) as Hh by by exists t.
    destruct (swap_at (map_law cmp CO _ _ (tree_nodup cmp CO s t H)) (map_write cmp CO _ _) s _ i j x y Hh Hi Hj) as (s' & E & H'). exists s'. split; [done|]. apply holds_multimap_is. eapply tree_holds_is; [exact H'|].
    unfold exchanged. rewrite (insert_length (<[i := y]> (io t).*2.*2) j x), (insert_length (io t).*2.*2 i y). by rewrite !fmap_length.
  Qed.
  Theorem multimap_reverse_partial {W} (ops : list (map_op K V W)) rs l : srun (mm_spec cmp) ops [] = Some (rs, l) →
    ∃ s ps, run (mm_step cmp) ops map_new = Ok (rs, s) ∧ iterators mi_Next mi_Value mi_Equal mm_Begin s l.*2 ps ∧
      ∀ a b fuel, a < b < length l → b - a <= fuel →
        ∃ s', g_reverse mi_Next mi_Prev mi_Value mi_SetValue mi_Equal fuel (ps !! a) (ps !! b) s = Ok (tt, s') ∧ multimap_is cmp s' (zip l.*1 (reversed a b l.*2)).
  Proof using CO.
    intros E1. destruct (mm_history cmp CO ops rs l E1) as (s & Er & (t & H & <-)). exists s, (io t).*1. split; [done|]. split; [by apply (map_tree cmp CO)|]. intros a b fuel Hab Hf.
    assert (tree_holds cmp (io t).*1 (io t).*2.*1 s (io t).*2.*2) as Hh by by exists t.
    pose proof (g_reverse_ok (map_law cmp CO _ _ (tree_nodup cmp CO s t H)) (map_write cmp CO _ _) (map_back cmp CO _ _) fuel s _ a b Hh ltac:(by rewrite fmap_length) Hf) as Hw.
    apply wp_Ok in Hw as ([] & s' & E & H'). exists s'. split; [done|]. apply holds_multimap_is. eapply tree_holds_is; [exact H'|]. etrans; [apply (rev_len a b); rewrite fmap_length; lia|]. by rewrite !fmap_length.
  Qed.
End maps.
Print Assumptions node_algorithms. Print Assumptions bidlist_iterators. Print Assumptions slist_iterators. Print Assumptions rbtree_value_iterators.
Print Assumptions map_value_iterators. Print Assumptions multimap_value_iterators. Print Assumptions set_value_iterators. Print Assumptions multiset_value_iterators.
Print Assumptions list_swap. Print Assumptions list_reverse_partial. Print Assumptions list_reverse_end_refuted. Print Assumptions list_reverse_nothing_refuted. Print Assumptions slist_swap.
Print Assumptions map_swap. Print Assumptions map_reverse_partial. Print Assumptions map_reverse_end_refuted. Print Assumptions multimap_swap. Print Assumptions multimap_reverse_partial.

(** concrete cases: a list 1 2 3 4 at nodes 0..3, a map and a multimap with four entries *)
Definition four : list (b_op Z) := [BNew; BPushBack 0 1%Z; BPushBack 0 2%Z; BPushBack 0 3%Z; BPushBack 0 4%Z].
Example four_reached : ∃ w s, b_reach four w s ∧ s_lists s !! 0 = Some [0; 1; 2; 3] ∧ vals_of s [0; 1; 2; 3] = [1; 2; 3; 4]%Z ∧
  (∃ w', g_reverse bi_Next bi_Prev bi_Value bi_SetValue bi_Equal 9 (Some 0) (Some 3) w = Ok (tt, w') ∧ b_Traversal (λ _, true) 9 0 w' = Ok ([3; 2; 1; 4]%Z, w')) ∧
  g_reverse bi_Next bi_Prev bi_Value bi_SetValue bi_Equal 9 (Some 0) None w = Panic ∧
  (∃ w', g_reverse bi_Next bi_Prev bi_Value bi_SetValue bi_Equal 9 (Some 2) (Some 2) w = Ok (tt, w') ∧ b_Traversal (λ _, true) 9 0 w' = Ok ([4; 3; 2; 1]%Z, w')).
Proof.
  eexists _, _. split.
  { split; [by apply b_safe_run_c_ok; vm_compute|eexists; split; vm_compute; reflexivity]. }
  split_and!; [vm_compute; reflexivity|vm_compute; reflexivity|eexists; split; vm_compute; reflexivity|vm_compute; reflexivity|eexists; split; vm_compute; reflexivity].
Qed.
Definition four_entries : list (map_op Z Z unit) := [MInsert 3%Z 30%Z; MInsert 1%Z 10%Z; MInsert 2%Z 20%Z; MInsert 1%Z 5%Z].
Example four_entries_spec : (∃ rs, srun (map_spec zc) four_entries [] = Some (rs, [(1, 5); (2, 20); (3, 30)]%Z)) ∧ ∃ rs, srun (mm_spec zc) four_entries [] = Some (rs, [(1, 10); (1, 5); (2, 20); (3, 30)]%Z).
Proof. split; eexists; vm_compute; reflexivity. Qed.
Example four_map : ∃ s s', (∃ rs, run (map_step zc) four_entries map_new = Ok (rs, s)) ∧ (let! p := map_Begin in let! q := mi_Next p in let! r := mi_Next q in g_reverse mi_Next mi_Prev mi_Value mi_SetValue mi_Equal 9 p r)%go s = Ok (tt, s') ∧
  (∃ s2, map_Get zc 1%Z s' = Ok (Some 20%Z, s2)) ∧ (∃ s2, map_Get zc 2%Z s' = Ok (Some 5%Z, s2)) ∧ (∃ s2, map_Get zc 3%Z s' = Ok (Some 30%Z, s2)) ∧
  (let! p := map_Begin in g_reverse mi_Next mi_Prev mi_Value mi_SetValue mi_Equal 9 p None)%go s = Panic ∧
  (let! p := map_Begin in count mi_Next mi_Value (λ i j w, Ok (mi_Equal i j, w)) zc 9 p None 20%Z)%go s = Ok (1%Z, s).
Proof. do 2 eexists. split_and!; first [eexists; vm_compute; reflexivity|vm_compute; reflexivity]. Qed.
