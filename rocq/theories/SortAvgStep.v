(** One round of quickSort as a function on lists: what it computes, that the run does it, and that it does not
    depend on the names of the elements on either side of the pivot. *)
From Verif Require Import Base Wp ListLib IterModel IterSpec SortModel SortSpec SortProofs CountSpec SortCostProofs.
Open Scope nat_scope.
Ltac Zify.zify_post_hook ::= Z.div_mod_to_equations.

Section pure.
  Context {T : Type} (cmp : T → T → Z).
  (** after doPivot and the move of the median to the place before the last *)
  Definition piv (s : list T) : list T := let n := length s in
    swapl (cswap cmp (cswap cmp (cswap cmp s 0 (n / 2)) 0 (n - 1)) (n / 2) (n - 1)) (n / 2) (n - 2).
  (** the partition loop: left end i, right end r - 1, pivot at b *)
  Fixpoint ploop (fuel : nat) (l : list T) (i r b : nat) : list T * nat :=
    match fuel with
    | 0 => (l, r)
    | S f =>
      if decide (i < r) then
        match l !! i, l !! b, l !! (r - 1) with
        | Some x, Some p, Some y =>
          if (cmp x p <=? 0)%Z then ploop f l (S i) r b
          else if (0 <? cmp y p)%Z then ploop f l i (r - 1) b
          else ploop f (swapl l i (r - 1)) (S i) (r - 1) b
        | _, _, _ => (l, r)
        end
      else (l, r)
    end.
  Definition parted (s : list T) : list T * nat := ploop (length s - 3) (piv s) 1 (length s - 2) (length s - 2).
  (** the rearranged range and the place of the pivot in it *)
  Definition round (s : list T) : list T * nat := (swapl (parted s).1 (length s - 2) (parted s).2, (parted s).2).
  Definition lefts (s : list T) : list T := take (round s).2 (round s).1.
  Definition rights (s : list T) : list T := drop (S (round s).2) (round s).1.
  (** a bound on the accesses *)
  Fixpoint qb (fuel : nat) (s : list T) : nat :=
    match fuel with
    | 0 => 0
    | S f => 10 * length s + (if decide (4 <= length s) then qb f (lefts s) + qb f (rights s) else 0)
    end.

  Lemma cswap_len l i j : length (cswap cmp l i j) = length l.
  Proof. unfold cswap. destruct (l !! i), (l !! j); try done. destruct (0 <? _)%Z; [apply swapl_length|done]. Qed.
  Lemma piv_length s : length (piv s) = length s.
  Proof. unfold piv. by rewrite swapl_length, !cswap_len. Qed.
  Lemma ploop_facts fuel : ∀ l i r b, i <= r → r <= b → b < length l →
    length (ploop fuel l i r b).1 = length l ∧ i <= (ploop fuel l i r b).2 <= r ∧ ∀ k, b <= k → (ploop fuel l i r b).1 !! k = l !! k.
  Proof.
    induction fuel as [|f IH]; intros l i r b Hi Hr Hb; cbn [ploop]; [cbn; split_and!; [done|lia|lia|done]|].
    destruct (decide (i < r)); [|cbn; split_and!; [done|lia|lia|done]].
    destruct (lookup_lt_is_Some_2 l i ltac:(lia)) as [x Hx]. destruct (lookup_lt_is_Some_2 l b ltac:(lia)) as [p ->]. destruct (lookup_lt_is_Some_2 l (r - 1) ltac:(lia)) as [y Hy]. rewrite Hx, Hy.
    destruct (Z.leb_spec (cmp x p) 0); [destruct (IH l (S i) r b) as (H1 & H2 & H3); [lia..|]; split_and!; [done|lia|lia|done]|].
    destruct (Z.ltb_spec 0 (cmp y p)); [destruct (IH l i (r - 1) b) as (H1 & H2 & H3); [lia..|]; split_and!; [done|lia|lia|done]|].
    destruct (decide (S i <= r - 1)) as [Hs|Hs].
    - destruct (IH (swapl l i (r - 1)) (S i) (r - 1) b) as (H1 & H2 & H3); [lia|lia|by rewrite swapl_length|]. split_and!; [by rewrite H1, swapl_length|lia|lia|].
      intros k Hk. rewrite H3 by done. rewrite swapl_lookup by lia. by rewrite !decide_False by lia.
    - exfalso. replace (r - 1) with i in Hy by lia. rewrite Hx in Hy. injection Hy as <-. lia.
  Qed.
  Lemma round_facts (s : list T) : 4 <= length s → length (round s).1 = length s ∧ 0 < (round s).2 < length s - 1 ∧ (round s).1 !! (round s).2 = piv s !! (length s - 2).
  Proof.
    intros Hn. destruct (ploop_facts (length s - 3) (piv s) 1 (length s - 2) (length s - 2)) as (F1 & F2 & F3); [lia|lia|rewrite piv_length; lia|]. fold (parted s) in F1, F2, F3. rewrite piv_length in F1.
    unfold round. cbn [fst snd]. rewrite swapl_length. split_and!; [done|lia|lia|]. rewrite swapl_lookup by lia. rewrite decide_True by done. apply F3. lia.
  Qed.
End pure.

(* ---------- names do not matter ---------- *)
Section names.
  Context {T T' : Type} (cmp : T → T → Z) (cmp' : T' → T' → Z) (f : T → T').
  (** f keeps the result of comparing x with y *)
  Definition keep (x y : T) : Prop := Z.sgn (cmp' (f x) (f y)) = Z.sgn (cmp x y).
  Lemma keep_le x y : keep x y → (cmp' (f x) (f y) <=? 0)%Z = (cmp x y <=? 0)%Z.
  Proof. unfold keep. intros H. destruct (Z.leb_spec (cmp' (f x) (f y)) 0), (Z.leb_spec (cmp x y) 0); lia. Qed.
  Lemma keep_gt x y : keep x y → (0 <? cmp' (f x) (f y))%Z = (0 <? cmp x y)%Z.
  Proof. unfold keep. intros H. destruct (Z.ltb_spec 0 (cmp' (f x) (f y))), (Z.ltb_spec 0 (cmp x y)); lia. Qed.
  Lemma swapl_fmap (l : list T) i j : swapl (f <$> l) i j = f <$> swapl l i j.
  Proof. unfold swapl. rewrite !list_lookup_fmap. destruct (l !! i), (l !! j); try done. cbn. by rewrite !list_fmap_insert. Qed.
  Lemma cswap_fmap (l : list T) i j : (∀ x y, l !! i = Some x → l !! j = Some y → keep x y) → cswap cmp' (f <$> l) i j = f <$> cswap cmp l i j.
  Proof.
    intros H. unfold cswap. rewrite !list_lookup_fmap. destruct (l !! i) as [x|]; [|done]. destruct (l !! j) as [y|]; [|done]. cbn. rewrite keep_gt by (by apply H).
    destruct (0 <? cmp x y)%Z; [apply swapl_fmap|done].
  Qed.
  (** the values at three places *)
  Definition at3 (l : list T) (a b c : nat) (V : list T) : Prop := ∀ k x, k = a ∨ k = b ∨ k = c → l !! k = Some x → x ∈ V.
  Lemma at3_swap (l : list T) a b c V i j : (i = a ∨ i = b ∨ i = c) → (j = a ∨ j = b ∨ j = c) → at3 l a b c V → at3 (cswap cmp l i j) a b c V.
  Proof.
    intros Hi Hj H k x Hk Hx. unfold cswap in Hx. destruct (l !! i) as [y|] eqn:Ei; [|exact (H k x Hk Hx)]. destruct (l !! j) as [z|] eqn:Ej; [|exact (H k x Hk Hx)]. destruct (0 <? cmp y z)%Z; [|exact (H k x Hk Hx)].
    rewrite swapl_lookup in Hx by (by eapply lookup_lt_Some). destruct (decide (k = j)); [rewrite Ei in Hx; injection Hx as <-; exact (H i y Hi Ei)|]. destruct (decide (k = i)); [rewrite Ej in Hx; injection Hx as <-; exact (H j z Hj Ej)|exact (H k x Hk Hx)].
  Qed.
  Lemma piv_fmap (s : list T) V : at3 s 0 (length s / 2) (length s - 1) V → (∀ x y, x ∈ V → y ∈ V → keep x y) → piv cmp' (f <$> s) = f <$> piv cmp s.
  Proof.
    intros H3 Hk. unfold piv. rewrite fmap_length. set (m := length s / 2). set (b := length s - 1).
    assert (∀ (l : list T) i j, (i = 0 ∨ i = m ∨ i = b) → (j = 0 ∨ j = m ∨ j = b) → at3 l 0 m b V → cswap cmp' (f <$> l) i j = f <$> cswap cmp l i j) as Hc.
    { intros l i j Hi Hj H. apply cswap_fmap. intros x y Hx Hy. apply Hk; [exact (H i x Hi Hx)|exact (H j y Hj Hy)]. }
    pose proof (at3_swap s 0 m b V 0 m ltac:(tauto) ltac:(tauto) H3) as H4. pose proof (at3_swap _ 0 m b V 0 b ltac:(tauto) ltac:(tauto) H4) as H5.
    rewrite Hc by (tauto || done). rewrite Hc by (tauto || done). rewrite Hc by (tauto || done). apply swapl_fmap.
  Qed.
  Lemma ploop_fmap p fuel : ∀ (l : list T) i r b, r <= b → l !! b = Some p → (∀ x, x ∈ l → keep x p) → ploop cmp' fuel (f <$> l) i r b = (f <$> (ploop cmp fuel l i r b).1, (ploop cmp fuel l i r b).2).
  Proof.
    induction fuel as [|n IH]; intros l i r b Hr Hp Hk; cbn [ploop]; [done|]. destruct (decide (i < r)); [|done]. pose proof (lookup_lt_Some _ _ _ Hp) as Hb.
    rewrite !list_lookup_fmap. destruct (lookup_lt_is_Some_2 l i ltac:(lia)) as [x Hx]. destruct (lookup_lt_is_Some_2 l (r - 1) ltac:(lia)) as [y Hy]. rewrite Hx, Hp, Hy. cbn [fmap option_fmap option_map].
    rewrite keep_le by (apply Hk; by eapply elem_of_list_lookup_2). destruct (cmp x p <=? 0)%Z; [by apply IH|].
    rewrite keep_gt by (apply Hk; by eapply elem_of_list_lookup_2). destruct (0 <? cmp y p)%Z; [apply IH; [lia|done|done]|].
    rewrite swapl_fmap. apply IH; [lia| |].
    - rewrite swapl_lookup by lia. by rewrite !decide_False by lia.
    - intros z Hz. apply Hk. by rewrite swapl_perm in Hz.
  Qed.
  (** a round, if the pivot is p *)
  Lemma round_fmap (s : list T) V p : 4 <= length s → at3 s 0 (length s / 2) (length s - 1) V → (∀ x y, x ∈ V → y ∈ V → keep x y) →
    piv cmp s !! (length s - 2) = Some p → (∀ x, x ∈ piv cmp s → keep x p) → round cmp' (f <$> s) = (f <$> (round cmp s).1, (round cmp s).2).
  Proof.
    intros Hn H3 Hk Hp Hkp. assert (parted cmp' (f <$> s) = (f <$> (parted cmp s).1, (parted cmp s).2)) as E.
    { unfold parted. rewrite fmap_length, (piv_fmap s V) by done. by apply (ploop_fmap p). }
    unfold round. rewrite E, fmap_length. cbn [fst snd]. by rewrite swapl_fmap.
  Qed.
End names.

(* ---------- the run ---------- *)
Section run.
  Context {W T : Type} (csize : nat → M W Z) (cat : nat → Z → M W T) (cset : nat → Z → T → M W unit).
  Context (o : nat) (R : W → list T → Prop) (L : ra_law csize cat cset o R) (cmp : T → T → Z) (OK : CmpOK cmp).
  Implicit Types (s pre post : list T).
  Notation csz := (csize_c csize). Notation ct := (cat_c cat). Notation cs := (cset_c cset).
  Notation it p := (MkIter o p).
  Notation at_ p := (MkIter o (Z.of_nat p)).
  Lemma mid_lookup pre s post i : i < length s → (pre ++ s ++ post) !! (length pre + i) = s !! i.
  Proof using. intros Hi. rewrite lookup_app_r by lia. rewrite lookup_app_l by lia. f_equal. lia. Qed.
  Lemma mid_insert pre s post i x : i < length s → <[length pre + i := x]> (pre ++ s ++ post) = pre ++ <[i := x]> s ++ post.
  Proof using. intros Hi. rewrite insert_app_r. by rewrite insert_app_l. Qed.
  Lemma mid_swap pre s post i j : i < length s → j < length s → swapl (pre ++ s ++ post) (length pre + i) (length pre + j) = pre ++ swapl s i j ++ post.
  Proof using.
    intros Hi Hj. unfold swapl. rewrite !mid_lookup by done. destruct (lookup_lt_is_Some_2 s i Hi) as [x ->]. destruct (lookup_lt_is_Some_2 s j Hj) as [y ->].
    rewrite mid_insert by done. rewrite mid_insert by (by rewrite insert_length). done.
  Qed.
  Lemma mid_cswap pre s post i j : i < length s → j < length s → cswap cmp (pre ++ s ++ post) (length pre + i) (length pre + j) = pre ++ cswap cmp s i j ++ post.
  Proof using.
    intros Hi Hj. unfold cswap. rewrite !mid_lookup by done. destruct (lookup_lt_is_Some_2 s i Hi) as [x ->]. destruct (lookup_lt_is_Some_2 s j Hj) as [y ->].
    destruct (0 <? cmp x y)%Z; [by apply mid_swap|done].
  Qed.
  Lemma run_swap w pre s post i j : R w (pre ++ s ++ post) → i < length s → j < length s →
    ∃ w', swap_value cat cset (at_ (length pre + i)) (at_ (length pre + j)) w = Ok (tt, w') ∧ R w' (pre ++ swapl s i j ++ post).
  Proof using L.
    intros H Hi Hj. destruct (swap_ok csize cat cset o R L w _ (length pre + i) (length pre + j) H) as (w' & E & H'); [rewrite !app_length; lia..|]. exists w'. split; [done|]. by rewrite mid_swap in H'.
  Qed.
  Lemma run_swap_if w pre s post i j : R w (pre ++ s ++ post) → i < length s → j < length s →
    ∃ w', swap_if_gt cat cset cmp (at_ (length pre + i)) (at_ (length pre + j)) w = Ok (tt, w') ∧ R w' (pre ++ cswap cmp s i j ++ post).
  Proof using L OK.
    intros H Hi Hj. destruct (swap_if_ok csize cat cset o R L cmp OK w _ (length pre + i) (length pre + j) H) as (w' & E & H'); [rewrite !app_length; lia..|]. exists w'. split; [done|]. by rewrite mid_cswap in H'.
  Qed.
  Lemma run_pivot w pre s post : 3 <= length s → R w (pre ++ s ++ post) →
    ∃ w1 w2, do_pivot cat cset cmp (at_ (length pre)) (at_ (length pre + length s / 2)) (at_ (length pre + (length s - 1))) w = Ok (tt, w1) ∧
      swap_value cat cset (at_ (length pre + length s / 2)) (at_ (length pre + (length s - 2))) w1 = Ok (tt, w2) ∧ R w2 (pre ++ piv cmp s ++ post).
  Proof using L OK.
    intros Hn H. set (m := length s / 2). assert (m < length s - 1) as Hm by lia. replace (at_ (length pre)) with (at_ (length pre + 0)) by (f_equal; lia).
    destruct (run_swap_if w pre s post 0 m H) as (w1 & E1 & H1); [lia..|]. destruct (run_swap_if w1 pre _ post 0 (length s - 1) H1) as (w2 & E2 & H2); [rewrite !cswap_len; lia..|].
    destruct (run_swap_if w2 pre _ post m (length s - 1) H2) as (w3 & E3 & H3); [rewrite !cswap_len; lia..|]. destruct (run_swap w3 pre _ post m (length s - 2) H3) as (w4 & E4 & H4); [rewrite !cswap_len; lia..|].
    exists w3, w4. split_and!; [|done|done]. unfold do_pivot, mbind_. by rewrite E1, E2.
  Qed.
  Lemma run_ploop fuel : ∀ w pre s post i r b, R w (pre ++ s ++ post) → (0 < length pre + i) → i <= r → r <= b → b < length s → r - i <= fuel →
    ∃ w', part_loop csize cat cset cmp fuel (at_ (length pre + i)) (it (Z.of_nat (length pre + r) - 1)) (at_ (length pre + b)) w = Ok (it (Z.of_nat (length pre + (ploop cmp fuel s i r b).2) - 1), w') ∧
      R w' (pre ++ (ploop cmp fuel s i r b).1 ++ post).
  Proof using L OK.
    induction fuel as [|f IH]; intros w pre s post i r b H H0 Hi Hr Hb Hf; cbn [part_loop ploop]; unfold it_position; cbn [it_pos].
    { destruct (Z.leb_spec (Z.of_nat (length pre + i)) (Z.of_nat (length pre + r) - 1)); [lia|]. by exists w. }
    destruct (Z.leb_spec (Z.of_nat (length pre + i)) (Z.of_nat (length pre + r) - 1)). 2:{ rewrite decide_False by lia. by exists w. }
    rewrite decide_True by lia.
    destruct (lookup_lt_is_Some_2 s i ltac:(lia)) as [x Hx]. destruct (lookup_lt_is_Some_2 s b ltac:(lia)) as [p Hp]. destruct (lookup_lt_is_Some_2 s (r - 1) ltac:(lia)) as [y Hy]. rewrite Hx, Hp, Hy.
    assert (∀ k z, s !! k = Some z → it_value cat (at_ (length pre + k)) w = Ok (z, w)) as Hv.
    { intros k z Hz. apply (value_ok csize cat cset o R L w _ _ _ H). rewrite mid_lookup; [done|]. by eapply lookup_lt_Some. }
    unfold mbind_. rewrite (Hv i x Hx), (Hv b p Hp). destruct (Z.leb_spec (cmp x p) 0).
    { rewrite (next_ok csize cat cset o R L w _ _ H) by (rewrite !app_length; lia). rewrite <-Nat.add_succ_r. apply IH; lia || done. }
    replace (Z.of_nat (length pre + r) - 1)%Z with (Z.of_nat (length pre + (r - 1))) by lia. rewrite (Hv (r - 1) y Hy), (Hv b p Hp). destruct (Z.ltb_spec 0 (cmp y p)).
    { rewrite prev_ok. apply IH; lia || done. }
    assert (S i <= r - 1) as Hs. { destruct (decide (r - 1 = i)) as [E|]; [|lia]. exfalso. rewrite E, Hx in Hy. injection Hy as <-. lia. }
    destruct (run_swap w pre s post i (r - 1) H) as (w1 & E1 & HR1); [lia..|]. rewrite E1.
    rewrite (next_ok csize cat cset o R L w1 _ _ HR1) by (rewrite !app_length, swapl_length; lia). rewrite prev_ok. rewrite <-Nat.add_succ_r. apply IH; try done; try lia. by rewrite swapl_length.
  Qed.
  Lemma run_partition w pre s post : 4 <= length s → R w (pre ++ piv cmp s ++ post) →
    ∃ w', partition csize cat cset cmp (at_ (length pre)) (at_ (length pre + (length s - 1))) w = Ok (Z.of_nat (length pre + (round cmp s).2), w') ∧ R w' (pre ++ (round cmp s).1 ++ post).
  Proof using L OK.
    intros Hn H. unfold partition, it_position, it_at. cbn [it_pos it_obj].
    replace (Z.of_nat (length pre + (length s - 1)) - 1)%Z with (Z.of_nat (length pre + (length s - 2))) by lia. replace (Z.of_nat (length pre) + 1)%Z with (Z.of_nat (length pre + 1)) by lia.
    replace (Z.of_nat (length pre + (length s - 1)) - 2)%Z with (Z.of_nat (length pre + (length s - 2)) - 1)%Z by lia.
    replace (Z.to_nat (Z.of_nat (length pre + (length s - 2)) - 1 - Z.of_nat (length pre + 1) + 1)) with (length s - 3) by lia.
    destruct (run_ploop (length s - 3) w pre (piv cmp s) post 1 (length s - 2) (length s - 2) H) as (w1 & E1 & H1); [lia|lia|lia|rewrite piv_length; lia|lia|].
    fold (parted cmp s) in E1, H1. destruct (ploop_facts cmp (length s - 3) (piv cmp s) 1 (length s - 2) (length s - 2)) as (F1 & F2 & F3); [lia|lia|rewrite piv_length; lia|]. fold (parted cmp s) in F1, F2, F3. rewrite piv_length in F1.
    unfold mbind_. rewrite E1. replace (Z.of_nat (length pre + (parted cmp s).2) - 1)%Z with (Z.of_nat (length pre + ((parted cmp s).2 - 1))) by lia.
    rewrite (next_ok csize cat cset o R L w1 _ _ H1) by (rewrite !app_length; lia). replace (S (length pre + ((parted cmp s).2 - 1))) with (length pre + (parted cmp s).2) by lia.
    destruct (run_swap w1 pre _ post (length s - 2) (parted cmp s).2 H1) as (w2 & E2 & H2); [lia|lia|]. rewrite E2. cbn [it_pos mret_]. by exists w2.
  Qed.
  (** the accesses of quickSort *)
  Lemma sim_sort fuel : ∀ w pre s post, R w (pre ++ s ++ post) → length s <= fuel →
    sim (qb cmp fuel s) (quick_sort csize cat cset cmp fuel (at_ (length pre)) (it (Z.of_nat (length pre + length s) - 1))) (quick_sort csz ct cs cmp fuel (at_ (length pre)) (it (Z.of_nat (length pre + length s) - 1))) w.
  Proof using L OK.
    induction fuel as [|f IH]; intros w pre s post H Hf; cbn [quick_sort qb]; unfold it_position; cbn [it_pos].
    { destruct (Z.leb_spec (Z.of_nat (length pre + length s) - 1) (Z.of_nat (length pre))); [|lia]. apply sim_ret. }
    destruct (Z.leb_spec (Z.of_nat (length pre + length s) - 1) (Z.of_nat (length pre))); [eapply sim_mono; [apply sim_ret|apply Nat.le_0_l]|].
    destruct (Z.ltb_spec (Z.of_nat (length pre + length s) - 1 - Z.of_nat (length pre) + 1) 3). { eapply sim_mono; [apply sim_swap_if|lia]. }
    unfold it_at. cbn [it_obj].
    replace (Z.of_nat (length pre) + Z.quot (Z.of_nat (length pre + length s) - 1 - Z.of_nat (length pre) + 1) 2)%Z with (Z.of_nat (length pre + length s / 2)) by (rewrite Z.quot_div_nonneg by lia; lia).
    replace (Z.of_nat (length pre + length s) - 1 - 1)%Z with (Z.of_nat (length pre + (length s - 2))) by lia. replace (Z.of_nat (length pre + length s) - 1)%Z with (Z.of_nat (length pre + (length s - 1))) by lia.
    destruct (run_pivot w pre s post ltac:(lia) H) as (w1 & w2 & E1 & E2 & H2).
    destruct (decide (4 <= length s)) as [H4|H4].
    2:{ eapply sim_mono; [apply (sim_bind 18 4); [apply sim_pivot|]|lia]. intros [] w1' E1'. apply (sim_bind 4 0); [apply sim_swap|]. intros [] w2' _. destruct (Z.eqb_spec (Z.of_nat (length pre + (length s - 1)) - Z.of_nat (length pre) + 1) 3); [apply sim_ret|lia]. }
    destruct (run_partition w2 pre s post H4 H2) as (w3 & E3 & H3). destruct (round_facts cmp s H4) as (F1 & F2 & F3).
    eapply sim_mono; [apply (sim_bind 18 (4 + (8 * (length s - 3) + 4 + (qb cmp f (lefts cmp s) + qb cmp f (rights cmp s))))); [apply sim_pivot|]|lia]. intros [] w1' E1'. rewrite E1 in E1'. injection E1' as <-.
    apply sim_bind; [apply sim_swap|]. intros [] w2' E2'. rewrite E2 in E2'. injection E2' as <-. destruct (Z.eqb_spec (Z.of_nat (length pre + (length s - 1)) - Z.of_nat (length pre) + 1) 3); [lia|].
    apply sim_bind; [eapply sim_mono; [apply sim_partition|cbn [it_pos]; lia]|]. intros mz w3' E3'. rewrite E3 in E3'. assert (mz = Z.of_nat (length pre + (round cmp s).2) ∧ w3' = w3) as [-> ->] by (by split; congruence). clear E3'.
    unfold lefts, rights. set (l2 := (round cmp s).1) in *. set (r := (round cmp s).2) in *.
    destruct (lookup_lt_is_Some_2 l2 r ltac:(lia)) as [p Hp]. pose proof (take_drop_middle l2 r p Hp) as Esplit. assert (length (take r l2) = r) as Ltk by (rewrite take_length; lia).
    set (rest := p :: drop (S r) l2 ++ post).
    assert (R w3 (pre ++ take r l2 ++ rest)) as H3'. { unfold rest. rewrite <-Esplit in H3. rewrite <-!app_assoc in H3. exact H3. }
    apply sim_bind.
    - replace (Z.of_nat (length pre + r) - 1)%Z with (Z.of_nat (length pre + length (take r l2)) - 1)%Z by (rewrite Ltk; done). apply (IH w3 pre (take r l2) rest); [done|]. rewrite Ltk. lia.
    - intros [] w4 E4. assert (length (pre ++ take r l2 ++ rest) = length pre + length s + length post) as Lall. { unfold rest. rewrite !app_length, Ltk. cbn [length]. rewrite app_length, drop_length. lia. }
      pose proof (wp_elim _ _ _ _ _ (quick_sort_ok _ _ _ o R L cmp OK f w3 _ (length pre) (length pre + r) H3' ltac:(lia) ltac:(lia)) E4) as (l4 & HR4 & Hp4 & _).
      assert (length l4 = length pre + length s + length post) as Ll4 by (rewrite (perm_in_length _ _ _ _ Hp4); done).
      apply (sim_bind 0); [apply sim_next|]. intros nx w5 E5. rewrite (next_ok _ _ _ o R L w4 l4 (length pre + r) HR4 ltac:(lia)) in E5. injection E5 as <- <-.
      destruct (perm_in_seg (length pre) (length pre + r) _ _ ltac:(lia) Hp4) as (_ & _ & Ed).
      assert (l4 = take (S (length pre + r)) l4 ++ drop (S r) l2 ++ post) as E5.
      { rewrite <-(take_drop (S (length pre + r)) l4) at 1. f_equal. replace (S (length pre + r)) with (length pre + r + 1) by lia. rewrite <-drop_drop, Ed, app_assoc, drop_app_alt by (rewrite app_length, Ltk; done). done. }
      assert (length (take (S (length pre + r)) l4) = S (length pre + r)) as Lt4 by (rewrite take_length; lia). rewrite E5 in HR4.
      pose proof (IH w4 _ _ _ HR4 ltac:(rewrite drop_length; lia)) as G. rewrite Lt4, drop_length in G. replace (S (length pre + r) + (length l2 - S r)) with (length pre + length s) in G by lia.
      replace (Z.of_nat (length pre + (length s - 1))) with (Z.of_nat (length pre + length s) - 1)%Z by lia. exact G.
  Qed.
End run.

(* ---------- what a round does, by running it on a list ---------- *)
Section facts.
  Context {T : Type} (cmp : T → T → Z) (OK : CmpOK cmp).
  Implicit Types s : list T.
  Definition lsz (_ : nat) : M (list T) Z := λ l, Ok (Z.of_nat (length l), l).
  Definition lat (_ : nat) (i : Z) : M (list T) T := λ l, match (if bool_decide (0 <= i)%Z then l !! Z.to_nat i else None) with Some x => Ok (x, l) | None => Panic end.
  Definition lset (_ : nat) (i : Z) (x : T) : M (list T) unit := λ l, Ok (tt, if bool_decide (0 <= i)%Z then <[Z.to_nat i := x]> l else l).
  Lemma list_law : ra_law lsz lat lset 0 eq.
  Proof using. split; [by intros w l ->|by intros w l i ->|]. intros w l i x ->. by eexists. Qed.
  Lemma piv_perm s : piv cmp s ≡ₚ s.
  Proof using.
    assert (∀ l i j, cswap cmp l i j ≡ₚ l) as Hc. { intros l i j. unfold cswap. destruct (l !! i), (l !! j); try done. destruct (0 <? _)%Z; [apply swapl_perm|done]. }
    unfold piv. by rewrite swapl_perm, !Hc.
  Qed.
  Lemma ploop_perm fuel : ∀ (l : list T) i r b, (ploop cmp fuel l i r b).1 ≡ₚ l.
  Proof using.
    induction fuel as [|f IH]; intros l i r b; cbn [ploop]; [done|]. destruct (decide (i < r)); [|done]. destruct (l !! i), (l !! b), (l !! (r - 1)); try done.
    destruct (_ <=? 0)%Z; [apply IH|]. destruct (0 <? _)%Z; [apply IH|]. by rewrite IH, swapl_perm.
  Qed.
  Lemma round_perm s : (round cmp s).1 ≡ₚ s.
  Proof using. unfold round, parted. cbn [fst]. by rewrite swapl_perm, ploop_perm, piv_perm. Qed.
  (** the pivot is the middle one of three *)
  Lemma piv_order s : 3 <= length s → ∃ u p v, piv cmp s !! 0 = Some u ∧ piv cmp s !! (length s - 2) = Some p ∧ piv cmp s !! (length s - 1) = Some v ∧ (cmp u p <= 0)%Z ∧ (cmp p v <= 0)%Z.
  Proof using OK.
    intros Hn. destruct (run_pivot lsz lat lset 0 eq list_law cmp OK s [] s [] Hn ltac:(by rewrite app_nil_r)) as (w1 & w2 & E1 & E2 & E3). cbn [length Nat.add app] in *. rewrite app_nil_r in E3. subst w2.
    pose proof (pivot_ok lsz lat lset 0 eq list_law cmp OK s s 0 (length s - 1) (length s / 2) eq_refl ltac:(lia) ltac:(lia)) as Hw. apply wp_Ok in Hw as (u & w' & E & l' & <- & _ & P1 & P2).
    replace (length s - 1 - 1) with (length s - 2) in * by lia. unfold mbind_ in E. rewrite E1, E2 in E. injection E as _ <-.
    destruct (lookup_lt_is_Some_2 (piv cmp s) 0) as [x Hx]; [rewrite piv_length; lia|]. destruct (lookup_lt_is_Some_2 (piv cmp s) (length s - 2)) as [p Hp]; [rewrite piv_length; lia|]. destruct (lookup_lt_is_Some_2 (piv cmp s) (length s - 1)) as [v Hv]; [rewrite piv_length; lia|].
    exists x, p, v. split_and!; [done..|by apply P1|by apply P2].
  Qed.
  Lemma round_order s : 4 <= length s → ∃ p, piv cmp s !! (length s - 2) = Some p ∧ (round cmp s).1 = lefts cmp s ++ p :: rights cmp s ∧ (∀ x, x ∈ lefts cmp s → (cmp x p <= 0)%Z) ∧ (∀ x, x ∈ rights cmp s → (cmp p x <= 0)%Z).
  Proof using OK.
    intros Hn. destruct (run_pivot lsz lat lset 0 eq list_law cmp OK s [] s [] ltac:(lia) ltac:(by rewrite app_nil_r)) as (w1 & w2 & E1 & E2 & E3). destruct (run_partition lsz lat lset 0 eq list_law cmp OK w2 [] s [] Hn E3) as (w3 & E4 & E5).
    destruct (piv_order s ltac:(lia)) as (u & p & v & Hu & Hp & Hv & C1 & C2). destruct (round_facts cmp s Hn) as (F1 & F2 & F3). rewrite Hp in F3.
    cbn [length Nat.add app] in *. rewrite app_nil_r in E3, E5. subst w2 w3.
    assert (pivoted cmp (piv cmp s) 0 (length s - 1)) as Hpv. { unfold pivoted, le_at. replace (length s - 1 - 1) with (length s - 2) by lia. split; intros x y Hx Hy; congruence. }
    pose proof (partition_ok lsz lat lset 0 eq list_law cmp OK (piv cmp s) (piv cmp s) 0 (length s - 1) eq_refl ltac:(lia) ltac:(rewrite piv_length; lia) Hpv) as Hw.
    apply wp_elim with (a := Z.of_nat (round cmp s).2) (s' := (round cmp s).1) in Hw; [|exact E4]. destruct Hw as (l' & m & x & Em & El & Hm & _ & Hx & Hle & Hge). apply Nat2Z.inj in Em. subst l' m. rewrite F3 in Hx. injection Hx as <-.
    exists p. split_and!; [done|unfold lefts, rights; by rewrite take_drop_middle| |].
    - intros x Hx. apply elem_of_list_lookup in Hx as [k Hk]. unfold lefts in Hk. pose proof (lookup_lt_Some _ _ _ Hk) as Hlt. rewrite take_length in Hlt. rewrite lookup_take in Hk by lia. apply (Hle k x); [lia|done].
    - intros x Hx. apply elem_of_list_lookup in Hx as [k Hk]. unfold rights in Hk. rewrite lookup_drop in Hk. pose proof (lookup_lt_Some _ _ _ Hk) as Hlt. apply (Hge (S (round cmp s).2 + k) x); [lia|done].
  Qed.
End facts.
