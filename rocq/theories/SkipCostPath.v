(** The path of a search, counted. *)
From Verif Require Import Base Wp RbSpec MapSpec SkipModel SkipSpec SkipProofs SkipOps CrashModel CrashSpec CrashProofs CrashSkipModel SkipCostSpec SkipCostAvg.
Open Scope Z_scope.
Open Scope go_scope.
Open Scope x_scope.

(** x makes at most m comparisons, whatever it does *)
Definition costs {S A} (m : nat) (x : X (S * nat) A) : Prop := ∀ w, (w.2 <= (x w).2.2 <= w.2 + m)%nat.
Section costs.
  Context {S : Type}.
  Lemma costs_ret {A} (a : A) : costs (S := S) 0 (xret a).
  Proof. intros w. cbn. lia. Qed.
  Lemma costs_run {A} (m : M S A) : costs 0 (xrun m).
  Proof. intros w. unfold xrun. destruct (m w.1) as [[a s]| |]; cbn; lia. Qed.
  Lemma costs_cmp {K} (cmp : K → K → Z) a b : costs (S := S) 1 (xcmp (tally cmp) a b).
  Proof. intros w. cbn. lia. Qed.
  Lemma costs_bind {A B} m n (x : X (S * nat) A) (f : A → X (S * nat) B) : costs m x → (∀ a, costs n (f a)) → costs (m + n) (xbind x f).
  Proof. intros H1 H2 w. unfold xbind. specialize (H1 w). destruct (x w) as [[a| |] w1]; cbn in *; [specialize (H2 a w1)| |]; lia. Qed.
  Lemma costs_weak {A} m n (x : X (S * nat) A) : costs m x → (m <= n)%nat → costs n x.
  Proof. intros H Hmn w. specialize (H w). lia. Qed.
End costs.

Section path.
  Context {K V : Type} (cmp : K → K → Z).
  Notation skip := (skip K V).
  Implicit Types (s : skip) (A B Y : list nat) (r : option nat).
  Notation u := (tally cmp).

  (** r is where a search comes down from level lv: no tower behind it reaches that level *)
  Definition comes_from s A (lv : nat) r Y : Prop := after A r Y ∧ lvl (ht s) lv Y = [] ∧ (lv <= hgt s r)%nat ∧ ∀ p, r = Some p → (lv < ht s p)%nat.
  Lemma is_prev_comes s A i r : is_prev s A i r → ∃ Y, comes_from s A i r Y.
  Proof using. intros (Y & Ha & Hl & Hh). exists Y. split_and!; [done|done|lia|]. by intros p ->. Qed.
  Lemma moves_app h hs hs' : Forall (λ x, (x <= h)%nat) hs → moves h (hs ++ hs') = moves h hs + moves h hs'.
  Proof using. induction 1 as [|x hs Hx _ IH]; [done|]. cbn [app moves]. rewrite decide_False by lia. rewrite IH. rewrite (decide_False (P := (h < x)%nat)) by lia. lia. Qed.
  Lemma moves_lvl s A i r Y : comes_from s A (S i) r Y → Z.of_nat (length (lvl (ht s) i Y)) = moves (S i) (rev (hts s A)).
  Proof using.
    intros (Ha & Hl & _ & Hr).
    assert (Forall (λ x, (x <= S i)%nat) (rev (hts s Y))) as Hle.
    { apply Forall_rev. unfold hts. apply Forall_fmap. apply Forall_forall. intros p Hp. cbn. pose proof (proj1 (lvl_nil _ _ _) Hl p Hp). lia. }
    assert (moves (S i) (rev (hts s A)) = moves (S i) (rev (hts s Y))) as ->.
    { destruct r as [p|]; cbn in Ha; [|by subst]. destruct Ha as [l1 ->]. unfold hts. rewrite fmap_app, fmap_cons, rev_app_distr. cbn [rev]. rewrite <-app_assoc.
      fold (hts s Y). rewrite moves_app by done. cbn [app moves]. rewrite decide_True by (by apply Hr). lia. }
    clear -Hle Hl. induction Y as [|p Y IH]; [done|]. unfold hts. rewrite fmap_cons. cbn [rev]. fold (hts s Y).
    unfold hts in Hle. rewrite fmap_cons in Hle. cbn [rev] in Hle. fold (hts s Y) in Hle. apply Forall_app in Hle as [H1 H2]. apply Forall_cons in H2 as [H2 _].
    rewrite moves_app by done. cbn [moves]. rewrite decide_False by lia.
    assert (lvl (ht s) (S i) Y = []) as Hl'. { apply lvl_nil. intros q Hq. apply (proj1 (lvl_nil _ _ _) Hl). by right. }
    rewrite <-(IH Hl' H1). unfold lvl. rewrite filter_cons. fold (lvl (ht s) i Y). repeat case_decide; cbn [length]; lia.
  Qed.
  (** the cost of the levels below lv: a look at the end of each and one for each tower passed *)
  Definition levels (hs : list nat) (lv : nat) : Z := sum_below lv (λ i, 1 + moves (Z.to_nat i + 1) (rev hs)).
  Lemma levels_S hs lv : levels hs (S lv) = levels hs lv + (1 + moves (S lv) (rev hs)).
  Proof using. unfold levels. cbn [sum_below]. rewrite Nat2Z.id, Nat.add_1_r. done. Qed.

    Lemma next_after s A i r Y q rest : after A r Y → lvl (ht s) i Y = q :: rest → q ∈ A ∧ (i < ht s q)%nat ∧ ∃ Y2, after A (Some q) Y2 ∧ rest = lvl (ht s) i Y2.
    Proof using.
      intros Ha EY. apply lvl_cons_inv in EY as (Y1 & Y2 & -> & H1 & Hq & ->). split_and!; [|done|].
      - destruct r as [p|]; [|cbn in Ha; rewrite <- Ha; apply elem_of_app; right; apply elem_of_list_here]. eapply after_elem; [exact Ha|]. apply elem_of_app; right; apply elem_of_list_here.
      - exists Y2. split; [|done]. destruct r as [p|]; cbn in Ha |- *; [destruct Ha as [l1 ->]; exists (l1 ++ p :: Y1); by rewrite <- app_assoc | exists Y1; congruence].
    Qed.
  Section walk.
    Context (max : nat) s A B la lb (key : K) (Hinv : inv cmp max s (A ++ B) (la ++ lb))
            (HA : Forall2 (λ p kv, kvof s p = Some kv) A la) (HB : Forall2 (λ p kv, kvof s p = Some kv) B lb)
            (Hla : Forall (λ kv, cmp kv.1 key < 0) la) (Hlb : Forall (λ kv, 0 <= cmp kv.1 key) lb).
    Lemma x_walk_cost f : ∀ (i : nat) r Y n, after A r Y → (i < hgt s r)%nat → (length (lvl (ht s) i Y) < f)%nat →
      ∃ r' n', x_walk u f key (Z.of_nat i) r (head (lvl (ht s) i (Y ++ B))) (s, n) = (Ok r', (s, n')) ∧ is_prev s A i r' ∧ (n + length (lvl (ht s) i Y) <= n' <= n + length (lvl (ht s) i Y) + 1)%nat.
    Proof using HA HB Hinv Hla Hlb.
      induction f as [|f IH]; intros i r Y n Ha Hh Hf; [lia|]. cbn [x_walk]. rewrite lvl_app.
      destruct (lvl (ht s) i Y) as [|q rest] eqn:EY.
      - cbn [app]. destruct (head (lvl (ht s) i B)) as [q|] eqn:E; [|exists r, n; split; [done|split; [by exists Y|cbn; lia]]].
        destruct (kv_B _ s B lb key HB Hlb q) as (kv & Hkv & Hge); [by eapply head_lvl_elem|]. destruct (el_ok _ _ _ Hkv) as (e & He & Hek & _).
        rewrite (xb_run _ _ _ _ _ _ He). unfold xbind at 1, xcmp, tally. cbn [fst snd]. rewrite Hek, Z.geb_leb. destruct (Z.leb_spec 0 (cmp kv.1 key)); [|lia].
        exists r, (S n). split; [done|split; [by exists Y|cbn; lia]].
      - cbn [app head]. destruct (next_after s A i r Y q rest Ha EY) as (HqA & Hq & Y2 & Haq & ->).
        destruct (kv_A _ s A la key HA Hla q HqA) as (kv & Hkv & Hlt). destruct (el_ok _ _ _ Hkv) as (e & He & Hek & _).
        rewrite (xb_run _ _ _ _ _ _ He). unfold xbind at 1, xcmp, tally at 1. cbn [fst snd]. rewrite Hek, Z.geb_leb. destruct (Z.leb_spec 0 (cmp kv.1 key)); [lia|].
        rewrite (xb_run _ _ _ _ _ _ (nextat_ok _ _ _ _ (inv_links _ _ _ _ _ Hinv (Some q) (Y2 ++ B) i (after_app _ _ _ _ Haq) Hq))).
        destruct (IH i (Some q) Y2 (S n) Haq Hq) as (r' & n' & E1 & E2 & E3); [cbn [length] in Hf; lia|]. exists r', n'. split; [exact E1|split; [done|cbn [length]; lia]].
    Qed.
    Lemma x_get_walk_cost f : ∀ (i : nat) r Y n, after A r Y → (i < hgt s r)%nat → (length (lvl (ht s) i Y) < f)%nat →
      ∃ o n', x_get_walk u f key (Z.of_nat i) r (head (lvl (ht s) i (Y ++ B))) (s, n) = (Ok o, (s, n')) ∧
        (n' <= n + length (lvl (ht s) i Y) + 1)%nat ∧ match o with inl _ => True | inr r' => is_prev s A i r' end.
    Proof using HA HB Hinv Hla Hlb.
      induction f as [|f IH]; intros i r Y n Ha Hh Hf; [lia|]. cbn [x_get_walk]. rewrite lvl_app.
      destruct (lvl (ht s) i Y) as [|q rest] eqn:EY.
      - cbn [app]. destruct (head (lvl (ht s) i B)) as [q|] eqn:E; [|exists (inr r), n; split_and!; [done|cbn; lia|by exists Y]].
        destruct (kv_B _ s B lb key HB Hlb q) as (kv & Hkv & Hge); [by eapply head_lvl_elem|]. destruct (el_ok _ _ _ Hkv) as (e & He & Hek & _).
        rewrite (xb_run _ _ _ _ _ _ He). unfold xbind at 1, xcmp, tally at 1. cbn [fst snd]. rewrite Hek. destruct (Z.eqb_spec (cmp kv.1 key) 0).
        { exists (inl (e_val e)), (S n). split_and!; [done|cbn; lia|done]. }
        rewrite Z.gtb_ltb. destruct (Z.ltb_spec 0 (cmp kv.1 key)); [|lia]. exists (inr r), (S n). split_and!; [done|cbn; lia|by exists Y].
      - cbn [app head]. destruct (next_after s A i r Y q rest Ha EY) as (HqA & Hq & Y2 & Haq & ->).
        destruct (kv_A _ s A la key HA Hla q HqA) as (kv & Hkv & Hlt). destruct (el_ok _ _ _ Hkv) as (e & He & Hek & _).
        rewrite (xb_run _ _ _ _ _ _ He). unfold xbind at 1, xcmp, tally at 1. cbn [fst snd]. rewrite Hek, Z.gtb_ltb. destruct (Z.eqb_spec (cmp kv.1 key) 0); [lia|]. destruct (Z.ltb_spec 0 (cmp kv.1 key)); [lia|].
        rewrite (xb_run _ _ _ _ _ _ (nextat_ok _ _ _ _ (inv_links _ _ _ _ _ Hinv (Some q) (Y2 ++ B) i (after_app _ _ _ _ Haq) Hq))).
        destruct (IH i (Some q) Y2 (S n) Haq Hq) as (o & n' & E1 & E2 & E3); [cbn [length] in Hf; lia|]. exists o, n'. split_and!; [exact E1|cbn [length]; lia|done].
    Qed.
    Lemma x_get_loop_cost (lv : nat) : ∀ r Y n, comes_from s A lv r Y →
      ∃ o n', x_get_loop u lv (S (length (sk_els s))) key r (s, n) = (Ok o, (s, n')) ∧ Z.of_nat n' <= Z.of_nat n + levels (hts s A) lv.
    Proof using HA HB Hinv Hla Hlb.
      induction lv as [|lv IH]; intros r Y n Hc; cbn [x_get_loop]; [exists None, n; split; [done|cbn; lia]|]. assert (Hc' := Hc). destruct Hc' as (Ha & Hl & Hh & Hr).
      rewrite (xb_run _ _ _ _ _ _ (nextat_ok _ _ _ _ (inv_links _ _ _ _ _ Hinv r (Y ++ B) lv (after_app _ _ _ _ Ha) ltac:(lia)))).
      destruct (x_get_walk_cost (S (length (sk_els s))) lv r Y n Ha ltac:(lia) (lvl_fuel cmp max s A B la lb Hinv _ _ _ Ha)) as (o1 & n1 & E & Hn1 & Hw).
      rewrite levels_S. rewrite <-(moves_lvl s A lv r Y Hc).
      assert (0 <= levels (hts s A) lv) as Hnn.
      { unfold levels. apply sum_nonneg. intros w _. generalize (rev (hts s A)). intros hs. assert (0 <= moves (Z.to_nat w + 1) hs); [|lia]. induction hs as [|x hs IHh]; cbn [moves]; [lia|]. repeat case_decide; lia. }
      unfold xbind at 1; rewrite E. destruct o1 as [v|r'].
      - exists (Some v), n1. split; [done|lia].
      - destruct (is_prev_comes _ _ _ _ Hw) as [Y' Hc']. destruct (IH r' Y' n1 Hc') as (o & n' & E1 & H1). exists o, n'. split; [done|lia].
    Qed.
  End walk.

  Lemma x_prev_loop_cost max A B la lb key (lv : nat) : ∀ s r Y n, inv cmp max s (A ++ B) (la ++ lb) →
    Forall2 (λ p kv, kvof s p = Some kv) A la → Forall2 (λ p kv, kvof s p = Some kv) B lb →
    Forall (λ kv, cmp kv.1 key < 0) la → Forall (λ kv, 0 <= cmp kv.1 key) lb →
    comes_from s A lv r Y → (lv <= max)%nat →
    ∃ c n', x_prev_loop u lv (S (length (sk_els s))) key r (s, n) = (Ok tt, (with_cache s c, n')) ∧ Z.of_nat n + (levels (hts s A) lv - Z.of_nat lv) <= Z.of_nat n' <= Z.of_nat n + levels (hts s A) lv.
  Proof using.
    induction lv as [|lv IH]; intros s r Y n Hinv HA HB Hla Hlb Hc Hm; cbn [x_prev_loop].
    { exists (sk_cache s), n. split; [by destruct s|cbn; lia]. }
    assert (Hc' := Hc). destruct Hc' as (Ha & Hl & Hh & Hr).
    assert (Hh0 : (lv < hgt s None)%nat) by (cbn; rewrite (inv_head _ _ _ _ _ Hinv); lia).
    rewrite (xb_run _ _ _ _ _ _ (nextat_ok _ _ _ _ (inv_links _ _ _ _ _ Hinv None (A ++ B) lv eq_refl Hh0))).
    assert (∃ r' n1, is_prev s A lv r' ∧ (n + length (lvl (ht s) lv Y) <= n1 <= n + length (lvl (ht s) lv Y) + 1)%nat ∧ (match head (lvl (ht s) lv (A ++ B)) with Some _ => let? next := xrun (nextat r (Z.of_nat lv)) in x_walk u (S (length (sk_els s))) key (Z.of_nat lv) r next | None => xret r end) (s, n) = (Ok r', (s, n1))) as (r' & n1 & Hp & Hn1 & E).
    { destruct (head (lvl (ht s) lv (A ++ B))) as [q|] eqn:Eh.
      - destruct (x_walk_cost max s A B la lb key Hinv HA HB Hla Hlb (S (length (sk_els s))) lv r Y n) as (r' & n1 & Ew & Hp & Hn1); [done | lia | by eapply lvl_fuel|]. exists r', n1. split; [done|split; [lia|]].
        rewrite (xb_run _ _ _ _ _ _ (nextat_ok _ _ _ _ (inv_links _ _ _ _ _ Hinv r (Y ++ B) lv (after_app _ _ _ _ Ha) ltac:(lia)))). exact Ew.
      - assert (lvl (ht s) lv Y = []) as HY; [|exists r, n; rewrite HY; cbn [length]; split; [exists Y; split_and!; [done|done|lia]|split; [lia|done]]]. destruct (lvl (ht s) lv (A ++ B)) as [|q rest] eqn:El; [|done].
        rewrite lvl_app in El. apply app_eq_nil in El as [El _]. apply lvl_nil. intros p Hp. apply (proj1 (lvl_nil _ _ _) El).
        destruct r as [a|]; [by eapply after_elem | cbn in Ha; by rewrite <- Ha]. }
    unfold xbind at 1. rewrite E.
    assert (setprev (Z.of_nat lv) r' s = Ok (tt, with_cache s (<[lv:=Some r']> (sk_cache s)))) as Es by (unfold setprev; rewrite upd_nat by (rewrite (inv_cache _ _ _ _ _ Hinv); lia); done).
    rewrite (xb_run _ _ _ _ _ _ Es). destruct (is_prev_comes _ _ _ _ Hp) as [Y' Hc'].
    assert (Hinv' : inv cmp max (with_cache s (<[lv:=Some r']> (sk_cache s))) (A ++ B) (la ++ lb)) by (apply inv_with_cache; [done | by rewrite insert_length]).
    destruct (IH (with_cache s (<[lv:=Some r']> (sk_cache s))) r' Y' n1 Hinv' HA HB Hla Hlb Hc' ltac:(lia)) as (c & n' & Ec & Hn').
    exists c, n'. split; [exact Ec|]. rewrite levels_S, <-(moves_lvl s A lv r Y Hc). change (hts (with_cache s _) A) with (hts s A) in Hn'. lia.
  Qed.
End path.
