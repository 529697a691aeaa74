(** The algorithms on iterators of linked structures. *)
From Verif Require Import Base Wp ListLib SortSpec SortProofs PermProofs AlgoModel AlgoSpec AlgoProofs NodeAlgoModel NodeAlgoSpec.
Open Scope nat_scope.
Open Scope go_scope.

#[local] Transparent wp.

Section proofs.
  Context {W T : Type} {next prev : option nat → M W (option nat)} {value : option nat → M W T} {set : option nat → T → M W unit} {equal : option nat → option nat → bool} {ps : list nat} {R : W → list T → Prop}.
  Context (L : node_law next value equal ps R).
  Lemma at_eq i j : i <= length ps → j <= length ps → ps !! i = ps !! j ↔ i = j.
  Proof using L.
    clear set prev. intros Hi Hj. split; [|by intros ->]. intros E. destruct (ps !! i) as [a|] eqn:Ei.
    - eapply NoDup_lookup; [apply (nl_nodup _ _ _ _ _ L)|done|]. by rewrite <-E.
    - symmetry in E. apply lookup_ge_None in E, Ei. lia.
  Qed.
  Lemma eq_at i j : i <= length ps → j <= length ps → equal (ps !! i) (ps !! j) = bool_decide (i = j).
  Proof using L. intros Hi Hj. rewrite (nl_equal _ _ _ _ _ L). apply bool_decide_ext. by apply at_eq. Qed.
  Lemma next_at w l k : R w l → next (ps !! k) w = Ok (ps !! S k, w).
  Proof using L.
    clear set prev. intros HR. destruct (ps !! k) as [a|] eqn:E; [by apply (nl_next _ _ _ _ _ L _ l)|]. rewrite (nl_next_0 _ _ _ _ _ L _ l HR).
    apply lookup_ge_None in E. by rewrite lookup_ge_None_2 by lia.
  Qed.
  Lemma range_at w l a b : R w l → a <= b <= length l →
    irange next value (λ i j w, Ok (equal i j, w)) w (ps !! b) (ps !! a) (zip ((λ k, ps !! k) <$> seq a (b - a)) (seg a b l)).
  Proof using L.
    clear set prev. intros HR. pose proof (nl_len _ _ _ _ _ L _ _ HR) as Hl. remember (b - a) as n eqn:En. revert a En. induction n as [|n IH]; intros a En Hab.
    - assert (b = a) as -> by lia. cbn. constructor. by rewrite eq_at, bool_decide_eq_true_2 by lia.
    - destruct (lookup_lt_is_Some_2 l a ltac:(lia)) as [x Hx]. destruct (lookup_lt_is_Some_2 ps a ltac:(lia)) as [p Hp].
      assert (seg a b l = x :: seg (S a) b l) as ->. { unfold seg. rewrite (drop_S _ _ _ Hx). replace (b - a) with (S (b - S a)) by lia. done. }
      cbn [seq fmap list_fmap zip zip_with]. econstructor.
      + by rewrite eq_at, bool_decide_eq_false_2 by lia.
      + rewrite Hp. by eapply (nl_value _ _ _ _ _ L).
      + by eapply next_at.
      + apply IH; lia.
  Qed.
  Context (Wr : node_write set ps R).
  Lemma swap_at w l i j x y : R w l → l !! i = Some x → l !! j = Some y → ∃ w', g_swap value set (ps !! i) (ps !! j) w = Ok (tt, w') ∧ R w' (<[j := x]> (<[i := y]> l)).
  Proof using L Wr.
    clear prev. intros HR Hx Hy. pose proof (nl_len _ _ _ _ _ L _ _ HR) as Hl. pose proof (lookup_lt_Some _ _ _ Hx). pose proof (lookup_lt_Some _ _ _ Hy).
    destruct (lookup_lt_is_Some_2 ps i ltac:(lia)) as [p Hp]. destruct (lookup_lt_is_Some_2 ps j ltac:(lia)) as [q Hq]. rewrite Hp, Hq.
    unfold g_swap, mbind_. rewrite (nl_value _ _ _ _ _ L _ _ _ _ _ HR Hp Hx), (nl_value _ _ _ _ _ L _ _ _ _ _ HR Hq Hy).
    destruct (nw_set _ _ _ Wr _ _ _ _ y HR Hp) as (w1 & -> & H1). destruct (nw_set _ _ _ Wr _ _ _ _ x H1 Hq) as (w2 & -> & H2). by exists w2.
  Qed.
  Context (B : node_back prev ps R).
  Lemma prev_at w l k : R w l → k < length ps → prev (ps !! S k) w = Ok (if decide (S k < length ps) then ps !! k else None, w).
  Proof using B.
    clear -B. intros HR Hk. destruct (ps !! S k) as [a|] eqn:E.
    - pose proof (lookup_lt_Some _ _ _ E). rewrite decide_True by done. by eapply (nb_prev _ _ _ B).
    - apply lookup_ge_None in E. rewrite decide_False by lia. by eapply (nb_prev_0 _ _ _ B).
  Qed.
  Lemma swap_mid w pre x m y post : R w (pre ++ x :: m ++ y :: post) →
    ∃ w', g_swap value set (ps !! length pre) (ps !! (length pre + S (length m))) w = Ok (tt, w') ∧ R w' (pre ++ y :: m ++ x :: post).
  Proof using L Wr.
    clear B prev. intros HR. destruct (swap_at w _ (length pre) (length pre + S (length m)) x y HR) as (w' & E & H).
    - by rewrite list_lookup_middle.
    - rewrite lookup_app_r by lia. replace (length pre + S (length m) - length pre) with (S (length m)) by lia. change ((x :: m ++ y :: post) !! S (length m)) with ((m ++ y :: post) !! length m). by rewrite list_lookup_middle.
    - exists w'. split; [done|]. rewrite <-(swapl_middle pre x m y post). unfold swapl.
      rewrite (list_lookup_middle pre) by done. rewrite lookup_app_r by lia. replace (length pre + S (length m) - length pre) with (S (length m)) by lia. change ((x :: m ++ y :: post) !! S (length m)) with ((m ++ y :: post) !! length m). by rewrite list_lookup_middle.
  Qed.
  Lemma swap_mid' w pre x m y post : R w (pre ++ x :: m ++ y :: post) →
    ∃ w', g_swap value set (ps !! (length pre + S (length m))) (ps !! length pre) w = Ok (tt, w') ∧ R w' (pre ++ y :: m ++ x :: post).
  Proof using L Wr.
    clear B prev. intros HR. destruct (swap_at w _ (length pre + S (length m)) (length pre) y x HR) as (w' & E & H).
    - rewrite lookup_app_r by lia. replace (length pre + S (length m) - length pre) with (S (length m)) by lia. change ((x :: m ++ y :: post) !! S (length m)) with ((m ++ y :: post) !! length m). by rewrite list_lookup_middle.
    - by rewrite list_lookup_middle.
    - exists w'. split; [done|]. rewrite <-(swapl_middle pre x m y post). unfold swapl.
      rewrite (list_lookup_middle pre) by done. rewrite lookup_app_r by lia. replace (length pre + S (length m) - length pre) with (S (length m)) by lia. change ((x :: m ++ y :: post) !! S (length m)) with ((m ++ y :: post) !! length m). rewrite list_lookup_middle by done.
      by rewrite list_insert_commute by lia.
  Qed.
  Lemma g_loop_ok fuel w pre m post : R w (pre ++ m ++ post) → m ≠ [] → length m <= fuel →
    wp (g_reverse_loop next prev value set equal fuel (ps !! length pre) (ps !! (length pre + length m - 1))) (λ _ w', R w' (pre ++ rev m ++ post)) w.
  Proof using L Wr B.
    revert w pre m post. induction fuel as [|f IH]; intros w pre m post HR Hm Hf; [destruct m; cbn in *; [done|lia]|].
    pose proof (nl_len _ _ _ _ _ L _ _ HR) as Hl. rewrite !app_length in Hl. cbn [g_reverse_loop]. rewrite eq_at by (destruct m; cbn in *; [done|lia]).
    destruct (mid_cases m) as [->|[[x ->]|(x & m' & y & ->)]]; [done| |].
    - cbn [length]. rewrite bool_decide_eq_true_2 by lia. by apply wp_ret.
    - cbn [length] in *. rewrite app_length in *. cbn [length] in *. rewrite bool_decide_eq_false_2 by lia.
      replace (length pre + S (length m' + 1) - 1) with (length pre + S (length m')) by lia.
      rewrite <-app_comm_cons, <-app_assoc in HR. cbn [app] in HR. destruct (swap_mid _ _ _ _ _ _ HR) as (w1 & E1 & HR1). wp_step E1. wp_step (next_at w1 _ (length pre) HR1).
      rewrite eq_at by lia. case_bool_decide as Hc.
      { assert (m' = []) as -> by (destruct m'; cbn in *; [done|lia]). apply wp_ret. exact HR1. }
      replace (length pre + S (length m')) with (S (length pre + length m')) by lia. wp_step (prev_at w1 _ (length pre + length m') HR1 ltac:(lia)). rewrite decide_True by lia.
      specialize (IH w1 (pre ++ [y]) m' (x :: post)). rewrite app_length in IH. cbn [length] in IH.
      replace (S (length pre)) with (length pre + 1) by lia. replace (length pre + length m') with (length pre + 1 + length m' - 1) by lia.
      eapply wp_mono; [apply IH; [| |lia]|].
      + by rewrite <-app_assoc.
      + intros ->. cbn in Hc. lia.
      + intros ? w'. cbv beta. cbn [rev]. rewrite rev_app_distr. cbn [rev app]. rewrite <-!app_assoc. cbn [app]. by rewrite <-?app_assoc.
  Qed.
  Lemma g_reverse_ok fuel w l a b : R w l → a < b < length l → b - a <= fuel →
    wp (g_reverse next prev value set equal fuel (ps !! a) (ps !! b)) (λ _ w', R w' (take a l ++ rev (seg a b l) ++ drop b l)) w.
  Proof using L Wr B.
    intros HR Hab Hf. pose proof (nl_len _ _ _ _ _ L _ _ HR) as Hl. unfold g_reverse. replace b with (S (b - 1)) at 1 by lia. wp_step (prev_at w l (b - 1) HR ltac:(lia)). rewrite decide_True by lia.
    rewrite (split3 a b l) in HR by lia.
    assert (length (take a l) = a) as Ha by (rewrite take_length; lia). assert (length (seg a b l) = b - a) as Hs by (apply seg_length; lia).
    pose proof (g_loop_ok fuel w _ _ _ HR) as G. rewrite Ha, Hs in G. replace (a + (b - a) - 1) with (b - 1) in G by lia. apply G; [|done].
    intros E. rewrite E in Hs. cbn in Hs. lia.
  Qed.
  (** up to the end of the list: the iterator past the end cannot go back *)
  Lemma g_reverse_end fuel w l a : R w l → a < length l → 0 < fuel → g_reverse next prev value set equal fuel (ps !! a) (ps !! length l) w = Panic.
  Proof using L B.
    clear Wr. intros HR Ha Hf. pose proof (nl_len _ _ _ _ _ L _ _ HR) as Hl. unfold g_reverse, mbind_. rewrite (lookup_ge_None_2 ps (length l)) by lia. rewrite (nb_prev_0 _ _ _ B _ _ HR).
    destruct fuel as [|f]; [lia|]. cbn [g_reverse_loop]. rewrite (nl_equal _ _ _ _ _ L). destruct (lookup_lt_is_Some_2 ps a ltac:(lia)) as [p Hp]. destruct (lookup_lt_is_Some_2 l a ltac:(lia)) as [x Hx].
    rewrite Hp, bool_decide_eq_false_2 by done. unfold g_swap, mbind_. by rewrite (nl_value _ _ _ _ _ L _ _ _ _ _ HR Hp Hx), (nl_value_0 _ _ _ _ _ L _ _ HR).
  Qed.
  Lemma g_reverse_nil fuel w l : R w l → g_reverse next prev value set equal fuel None None w = Ok (tt, w).
  Proof using L B.
    intros HR. unfold g_reverse, mbind_. rewrite (nb_prev_0 _ _ _ B _ _ HR). destruct fuel; cbn [g_reverse_loop]; by rewrite (nl_equal _ _ _ _ _ L), bool_decide_eq_true_2.
  Qed.
  (** right before left: the iterators run apart *)
  Lemma g_apart fuel w pre m post : R w (pre ++ m ++ post) → length post < fuel → (pre ≠ [] ∨ post ≠ []) →
    let r := match pre with [] => None | _ => ps !! (length pre - 1) end in
    if decide (length pre = length post)
    then wp (g_reverse_loop next prev value set equal fuel (ps !! (length pre + length m)) r) (λ _ w', R w' (rev post ++ m ++ rev pre)) w
    else g_reverse_loop next prev value set equal fuel (ps !! (length pre + length m)) r w = Panic.
  Proof using L Wr B.
    revert w pre m post. induction fuel as [|f IH]; intros w pre m post HR Hf Hne; [lia|]. pose proof (nl_len _ _ _ _ _ L _ _ HR) as Hl. rewrite !app_length in Hl. cbn zeta. cbn [g_reverse_loop].
    destruct post as [|y post].
    { (* left is past the end *) destruct pre as [|x0 pre0]; [by destruct Hne|]. cbn [length] in *. rewrite decide_False by done. rewrite (lookup_ge_None_2 ps) by lia. rewrite (nl_equal _ _ _ _ _ L).
      destruct (lookup_lt_is_Some_2 ps (S (length pre0) - 1) ltac:(lia)) as [p Hp]. rewrite Hp, bool_decide_eq_false_2 by done. unfold g_swap, mbind_. by rewrite (nl_value_0 _ _ _ _ _ L _ _ HR). }
    destruct pre as [|x pre _] using rev_ind.
    { (* right is before the first *) cbn [length] in *. rewrite decide_False by done. cbn [app] in HR. destruct (lookup_lt_is_Some_2 ps (0 + length m) ltac:(lia)) as [p Hp]. rewrite Hp, (nl_equal _ _ _ _ _ L), bool_decide_eq_false_2 by done.
      unfold g_swap, mbind_. erewrite (nl_value _ _ _ _ _ L); [|done|exact Hp|by rewrite list_lookup_middle]. by rewrite (nl_value_0 _ _ _ _ _ L _ _ HR). }
    assert (∀ A (z z' : A), match pre ++ [x] with [] => z | _ => z' end = z') as Hm by (by destruct pre). rewrite Hm. rewrite app_length in *. cbn [length] in *.
    replace (length pre + 1 - 1) with (length pre) by lia. rewrite eq_at by lia. rewrite bool_decide_eq_false_2 by lia.
    rewrite <-app_assoc in HR. cbn [app] in HR. destruct (swap_mid' _ _ _ _ _ _ HR) as (w1 & E1 & HR1). replace (length pre + 1 + length m) with (length pre + S (length m)) by lia.
    assert (prev (ps !! length pre) w1 = Ok (match pre with [] => None | _ => ps !! (length pre - 1) end, w1)) as Hpv.
    { destruct pre as [|x0 pre0]; cbn [length].
      - destruct (lookup_lt_is_Some_2 ps 0 ltac:(lia)) as [p Hp]. rewrite Hp. by eapply (nb_first _ _ _ B).
      - rewrite (prev_at w1 _ (length pre0) HR1) by (cbn in *; lia). rewrite decide_True by (cbn in *; lia). by replace (S (length pre0) - 1) with (length pre0) by lia. }
    assert (equal (ps !! S (length pre + S (length m))) (ps !! length pre) = false) as Hq. { rewrite eq_at by lia. by rewrite bool_decide_eq_false_2 by lia. }
    match goal with |- if _ then wp ?mm _ _ else _ => assert (mm w = g_reverse_loop next prev value set equal f (ps !! S (length pre + S (length m))) (match pre with [] => None | _ => ps !! (length pre - 1) end) w1) as Hstep end.
    { unfold mbind_ at 1. rewrite E1. unfold mbind_ at 1. rewrite (next_at w1 _ _ HR1). cbv beta iota. rewrite Hq. unfold mbind_ at 1. by rewrite Hpv. }
    destruct (decide (pre = [] ∧ post = [])) as [[-> ->]|Hne'].
    { cbn [length app] in *. rewrite decide_True by lia. unfold wp. rewrite Hstep. rewrite (lookup_ge_None_2 ps) by lia. destruct f; [lia|]. cbn [g_reverse_loop]. rewrite (nl_equal _ _ _ _ _ L), bool_decide_eq_true_2 by done. cbn. done. }
    specialize (IH w1 pre (y :: m ++ [x]) post). cbn zeta in IH. cbn [length] in IH. rewrite app_length in IH. cbn [length] in IH.
    replace (length pre + S (length m + 1)) with (S (length pre + S (length m))) in IH by lia.
    assert (R w1 (pre ++ (y :: m ++ [x]) ++ post)) as HR2. { cbn [app]. by rewrite <-app_assoc. }
    specialize (IH HR2 ltac:(lia)). specialize (IH ltac:(destruct pre; [destruct post; [by destruct Hne'|by right]|by left])).
    destruct (decide (length pre = length post)).
    - rewrite decide_True by lia. unfold wp in *. rewrite Hstep. destruct (g_reverse_loop _ _ _ _ _ f _ _ w1) as [[a w2]| |]; try done.
      assert (rev (y :: post) ++ m ++ rev (pre ++ [x]) = rev post ++ (y :: m ++ [x]) ++ rev pre) as ->; [|done].
      cbn [rev]. rewrite (rev_app_distr pre [x]). cbn [rev app]. rewrite <-!app_assoc. cbn [app]. by rewrite <-?app_assoc.
    - rewrite decide_False by lia. by rewrite Hstep.
  Qed.
  Lemma g_reverse_empty fuel w l a : R w l → a < length l → length l < fuel + a →
    if decide (length l = 2 * a)
    then wp (g_reverse next prev value set equal fuel (ps !! a) (ps !! a)) (λ _ w', R w' (rev l)) w
    else g_reverse next prev value set equal fuel (ps !! a) (ps !! a) w = Panic.
  Proof using L Wr B.
    intros HR Ha Hf. pose proof (nl_len _ _ _ _ _ L _ _ HR) as Hl. pose proof (g_apart fuel w (take a l) [] (drop a l)) as G. cbn [app length] in G. rewrite take_drop, take_length, drop_length in G. cbn zeta in G.
    replace (a `min` length l) with a in G by lia. rewrite Nat.add_0_r in G. specialize (G HR ltac:(lia)).
    assert (prev (ps !! a) w = Ok (match take a l with [] => None | _ => ps !! (a - 1) end, w)) as Hp.
    { destruct a as [|a].
      - cbn. destruct (lookup_lt_is_Some_2 ps 0 ltac:(lia)) as [p Hp]. rewrite Hp. by eapply (nb_first _ _ _ B).
      - rewrite (prev_at w l a HR) by lia. rewrite decide_True by lia. destruct l; [cbn in Ha; lia|]. cbn [take]. by replace (S a - 1) with a by lia. }
    specialize (G ltac:(right; intros E; apply (f_equal length) in E; rewrite drop_length in E; cbn in E; lia)).
    assert (rev (drop a l) ++ rev (take a l) = rev l) as Hrev. { rewrite <-rev_app_distr. by rewrite take_drop. } rewrite Hrev in G.
    unfold g_reverse, wp, mbind_. rewrite Hp. unfold wp in G. destruct (decide (a = length l - a)); [rewrite decide_True by lia|rewrite decide_False by lia]; exact G.
  Qed.
End proofs.
