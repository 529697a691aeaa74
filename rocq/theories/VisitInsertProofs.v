(** Proofs for C112. *)
From Coq Require Import Sorting.Sorted.
From Verif Require Import Base Wp History RbModel RbTree RbRot RbIns RbIns2 RbDel RbNav RbDel2 RbSpec RbFind RbProps RbApi MapModel SetModel MapSpec MapProofs SetSpec SetProofs TreeIterSpec TreeIterProofs VisitInsertModel VisitInsertSpec.
Open Scope Z_scope.
Local Open Scope go_scope.

(** * Unique keys, on lists *)
Section unique.
  Context {K D W : Type} (cmp : K → K → Z) (CO : CmpOK cmp) (kd : D → K) (put : D → list D → list D) (vis : D → W → list D * (bool * W)).
  Implicit Types (l : list D) (tr : list (D * list D)).
  Notation asc := (StronglySorted (λ x y, cmp (kd x) (kd y) < 0)).
  Notation has := (has_key cmp kd).
  Context (put_asc : ∀ d l, asc l → asc (put d l)).
  Context (put_key : ∀ d l q, asc l → has q (put d l) ↔ cmp q (kd d) = 0 ∨ has q l).
  Context (put_len : ∀ d l, asc l → ∀ k, (length (filter (λ e, (cmp k (kd e) < 0)%Z) (put d l)) <= S (length (filter (λ e, (cmp k (kd e) < 0)%Z) l)))%nat).
  Definition above (k : option K) (d : D) : Prop := match k with Some k => cmp k (kd d) < 0 | None => True end.
  Global Instance above_dec k d : Decision (above k d). Proof using. destruct k as [k|]; cbn [above]; apply _. Defined.
  Fixpoint walk (f : nat) l (k : option K) (w : W) : option (list (D * list D) * list D) :=
    match head (filter (above k) l) with
    | None => Some ([], l)
    | Some d => match f with O => None | S f =>
        let r := vis d w in let l' := puts put r.1 l in
        if r.2.1 then x ← walk f l' (Some (kd d)) r.2.2; Some ((d, r.1) :: x.1, x.2) else Some ([(d, r.1)], l') end
    end.
  Lemma puts_asc ds : ∀ l, asc l → asc (puts put ds l).
  Proof using put_asc. induction ds as [|d ds IH]; intros l Hl; [done|]. apply IH, put_asc, Hl. Qed.
  Lemma puts_key ds q : ∀ l, asc l → has q (puts put ds l) ↔ (∃ d, d ∈ ds ∧ cmp q (kd d) = 0) ∨ has q l.
  Proof using put_asc put_key.
    induction ds as [|d ds IH]; intros l Hl; cbn [puts foldl]; [split; [by right|intros [(d & Hd & _)|H]; [by apply not_elem_of_nil in Hd|done]]|].
    change (foldl _ (put d l) ds) with (puts put ds (put d l)). rewrite (IH (put d l)) by by apply put_asc. rewrite put_key by done. split.
    - intros [(e & He & H)|[H|H]]; [left; exists e; split; [by right|done]|left; exists d; split; [by left|done]|by right].
    - intros [(e & [->|He]%elem_of_cons & H)|H]; [right; by left|left; eauto|by right; right].
  Qed.
  Lemma puts_app ds ds' l : puts put (ds ++ ds') l = puts put ds' (puts put ds l).
  Proof using. clear. unfold puts. apply foldl_app. Qed.
  (** the first entry above k *)
  Lemma next_above k l d : asc l → head (filter (above k) l) = Some d → d ∈ l ∧ above k d ∧ ∀ e, e ∈ l → above k e → e = d ∨ cmp (kd d) (kd e) < 0.
  Proof using.
    clear -k. induction l as [|e l IH]; intros Ha Hh; [done|]. apply SS_cons in Ha as [Hl Hx]. rewrite filter_cons in Hh. destruct (decide (above k e)) as [He|He].
    - injection Hh as <-. split_and!; [by left|done|]. intros e' [->|He']%elem_of_cons _; [by left|]. right. by apply Hx.
    - destruct (IH Hl Hh) as (H1 & H2 & H3). split_and!; [by right|done|]. intros e' [->|He']%elem_of_cons Ha; [done|]. by apply H3.
  Qed.
  Lemma none_above k l e : head (filter (above k) l) = None → e ∈ l → ¬ above k e.
  Proof using. clear. intros H He Ha. destruct (filter (above k) l) as [|x y] eqn:E; [|done]. assert (e ∈ filter (above k) l) as H' by by apply elem_of_list_filter. rewrite E in H'. by apply not_elem_of_nil in H'. Qed.
  Lemma walk_ok f : ∀ l k w tr l', asc l → walk f l k w = Some (tr, l') → asc l' ∧ l' = puts put (inserted tr) l ∧ Forall (above k) tr.*1 ∧ asc tr.*1 ∧
    (∀ tr1 d ds tr2, tr = tr1 ++ (d, ds) :: tr2 → d ∈ puts put (inserted tr1) l) ∧
    ∃ done, answers vis w tr done ∧ (∀ q, done = true ∨ (∃ d, d ∈ tr.*1 ∧ cmp q (kd d) <= 0) → match k with Some k => cmp k q < 0 | None => True end →
      has q tr.*1 ↔ has q l ∨ ∃ d ds d', (d, ds) ∈ tr ∧ d' ∈ ds ∧ cmp q (kd d') = 0 ∧ cmp (kd d) q < 0).
  Proof using CO put_asc put_key put_len.
    induction f as [|f IH]; intros l k w tr l' Ha Hw; cbn [walk] in Hw; destruct (head (filter (above k) l)) as [d|] eqn:Eh; try done.
    1, 3: injection Hw as <- <-; split_and!; [done|done|by apply Forall_nil|apply SSorted_nil|by intros []|]; exists true; split; [done|]; intros q _ Hq; split; [intros (d & Hd & _); by apply not_elem_of_nil in Hd|];
      intros [(d & Hd & E)|(d & ds & d' & Hd & _)]; [|by apply not_elem_of_nil in Hd]; exfalso; apply (none_above k l d Eh Hd); destruct k as [k|]; [|done]; cbn; eapply cmp_lt_le_trans; [done|exact Hq|lia].
    destruct (next_above k l d Ha Eh) as (Hd & Hkd & Hmin).
    assert (∀ q, match k with Some k => cmp k q < 0 | None => True end → has q l → cmp q (kd d) = 0 ∨ cmp (kd d) q < 0) as Hq0.
    { intros q Hq (e & He & E). destruct (Hmin e He) as [->|Hlt].
      - destruct k as [k|]; [|done]. cbn. eapply cmp_lt_le_trans; [done|exact Hq|lia].
      - by left.
      - right. eapply cmp_lt_le_trans; [done|exact Hlt|]. apply cmp_flip_eq in E; [lia|done]. }
    destruct ((vis d w).2.1) eqn:Eb.
    - destruct (walk f _ _ _) as [[tr' lf]|] eqn:Ew; [|done]. cbn in Hw. injection Hw as <- <-.
      destruct (IH _ _ _ _ _ (puts_asc _ _ Ha) Ew) as (H1 & H2 & H3 & H4 & H5 & dn & H6 & H7). split_and!.
      + done.
      + unfold inserted. rewrite fmap_cons. cbn [concat snd]. rewrite puts_app. exact H2.
      + rewrite fmap_cons. constructor; [done|]. eapply Forall_impl; [exact H3|]. cbn. intros e He. destruct k as [k|]; [|done]. cbn in *. eapply cmp_lt_le_trans; [done|exact Hkd|]. lia.
      + rewrite fmap_cons. apply SS_cons. split; [done|]. intros y Hy. rewrite Forall_forall in H3. by apply H3.
      + intros [|[d1 ds1] tr1] d2 ds tr2 E; cbn [app] in E; injection E as E1 E2; [by subst d2|]. subst d1 ds1. unfold inserted. rewrite fmap_cons. cbn [concat snd]. rewrite puts_app. by eapply H5.
      + exists dn. split; [cbn [answers]; rewrite Eb; done|]. intros q Hdn Hq. rewrite fmap_cons in Hdn |- *. cbn [fst] in *.
        assert (cmp (kd d) q < 0 → has q tr'.*1 ↔ has q (puts put (vis d w).1 l) ∨ (∃ d1 ds d', (d1, ds) ∈ tr' ∧ d' ∈ ds ∧ cmp q (kd d') = 0 ∧ cmp (kd d1) q < 0)) as H7'.
        { intros Hdq. apply H7; [|done]. destruct Hdn as [Hdn|(e & [->|He]%elem_of_cons & Hle)]; [by left| |right; by exists e]. apply (cmp_flip_le _ CO) in Hle. lia. }
        clear H7. rename H7' into H7. unfold has_key at 1. split.
        * intros (e & [->|He]%elem_of_cons & E); [left; by exists d|].
          assert (cmp (kd d) q < 0) as Hdq. { rewrite Forall_forall in H3. specialize (H3 e He). cbn in H3. eapply cmp_lt_le_trans; [done|exact H3|]. apply cmp_flip_eq in E; [lia|done]. }
          destruct (proj1 (H7 Hdq)) as [H|(d0 & ds & d' & Hin & H)]; [by exists e| |right; exists d0, ds, d'; split; [by right|done]].
          apply puts_key in H as [(d' & Hd' & E')|H]; [|by left|done]. right. exists d, (vis d w).1, d'. split_and!; [by left|done|done|done].
        * intros [H|(d0 & ds & d' & Hin & Hd' & E' & Hlt)].
          -- destruct (Hq0 q Hq H) as [E|Hdq]; [exists d; split; [by left|done]|].
             destruct (proj2 (H7 Hdq)) as (e & He & E); [left; apply puts_key; [done|by right]|]. exists e. split; [by right|done].
          -- assert (cmp (kd d) q < 0) as Hdq. { apply elem_of_cons in Hin as [[= -> ->]|Hin]; [done|]. rewrite Forall_forall in H3. specialize (H3 d0). cbn in H3. eapply cmp_lt_le_trans; [done| |]; [apply H3; apply elem_of_list_fmap; by exists (d0, ds)|lia]. }
             destruct (proj2 (H7 Hdq)) as (e & He & E); [|exists e; split; [by right|done]].
             apply elem_of_cons in Hin as [[= -> ->]|Hin]; [left; apply puts_key; [done|]; left; eauto|right; exists d0, ds, d'; done].
    - injection Hw as <- <-. split_and!.
      + by apply puts_asc.
      + unfold inserted. cbn. by rewrite app_nil_r.
      + by repeat constructor.
      + by repeat constructor.
      + intros [|? [|]] d2 ds tr2 E; try done. injection E as <- <- <-. done.
      + exists false. split; [cbn [answers]; by rewrite Eb|]. intros q [?|(e & He & Hle)] Hq; [done|]. cbn in He. apply elem_of_list_singleton in He as ->. split.
        * intros (e & He & E). cbn in He. apply elem_of_list_singleton in He as ->. left. by exists d.
        * intros [H|(d0 & ds & d' & Hin & Hd' & E' & Hlt)].
          -- destruct (Hq0 q Hq H) as [E|Hdq]; [exists d; split; [by left|done]|]. apply (cmp_flip_le _ CO) in Hle. lia.
          -- apply elem_of_list_singleton in Hin as [= -> ->]. apply (cmp_flip_le _ CO) in Hle. lia.
  Qed.
  Lemma puts_len ds k : ∀ l, asc l → (length (filter (above (Some k)) (puts put ds l)) <= length ds + length (filter (above (Some k)) l))%nat.
  Proof using put_asc put_len.
    induction ds as [|d ds IH]; intros l Hl; [done|]. change (puts put (d :: ds) l) with (puts put ds (put d l)). etrans; [apply IH; by apply put_asc|]. cbn [length].
    assert (length (filter (above (Some k)) (put d l)) <= S (length (filter (above (Some k)) l)))%nat as H by exact (put_len d l Hl k). clear -H. lia.
  Qed.
  Lemma walk_ends b : budget vis b → ∀ f l k w, asc l → (length (filter (above k) l) + b w <= f)%nat → is_Some (walk f l k w).
  Proof using CO put_asc put_len put_key.
    intros Hb. induction f as [|f IH]; intros l k w Ha Hf; cbn [walk]; destruct (head (filter (above k) l)) as [d|] eqn:Eh; [|done| |done].
    { destruct (filter (above k) l); [done|]. cbn in Hf. lia. }
    destruct (next_above k l d Ha Eh) as (Hd & Hkd & Hmin). destruct ((vis d w).2.1); [|done].
    destruct (IH (puts put (vis d w).1 l) (Some (kd d)) (vis d w).2.2) as [x ->]; [by apply puts_asc| |done].
    pose proof (puts_len (vis d w).1 (kd d) l Ha) as H1. pose proof (Hb d w) as H2.
    assert (length (filter (above (Some (kd d))) l) < length (filter (above k) l))%nat; [|lia].
    destruct (filter (above k) l) as [|d' L] eqn:E; [done|]. injection Eh as ->. cbn [length]. apply le_n_S.
    assert (filter (above (Some (kd d))) l = filter (above (Some (kd d))) (filter (above k) l)) as ->.
    { rewrite list_filter_filter. apply list_filter_iff. intros e. split; [|by intros [??]]. intros He. split; [done|]. destruct k as [k|]; [|done]. cbn in *. eapply cmp_lt_le_trans; [done|exact Hkd|lia]. }
    rewrite E, filter_cons, decide_False; [apply filter_length|]. cbn. rewrite (cmp_refl _ CO). lia.
  Qed.
End unique.

(** * Equal keys allowed, on lists *)
Section multi.
  Context {K D W : Type} (cmp : K → K → Z) (CO : CmpOK cmp) (kd : D → K) (put : D → list D → list D) (vis : D → W → list D * (bool * W)).
  Implicit Types (l : list D) (tr : list (D * list D)).
  Notation srt := (StronglySorted (λ x y, cmp (kd x) (kd y) <= 0)).
  (** behind the entries with keys up to its own *)
  Context (put_at : ∀ d l, srt l → ∃ L R, l = L ++ R ∧ put d l = L ++ d :: R ∧ (∀ x, x ∈ L → cmp (kd x) (kd d) <= 0) ∧ (∀ x, x ∈ R → cmp (kd d) (kd x) < 0)).
  (** the insertions ds while the entry at i is being visited: where it stands then *)
  Definition shift (e : D) (ds : list D) : nat := length (filter (λ d, cmp (kd d) (kd e) < 0) ds).
  Fixpoint iwalk (f : nat) l (i : nat) (w : W) : option (list (D * list D) * list D) :=
    match l !! i with
    | None => Some ([], l)
    | Some d => match f with O => None | S f =>
        let r := vis d w in let l' := puts put r.1 l in
        if r.2.1 then x ← iwalk f l' (S (i + shift d r.1)) r.2.2; Some ((d, r.1) :: x.1, x.2) else Some ([(d, r.1)], l') end
    end.
  Lemma sublist_in (l1 l2 : list D) x : l1 `sublist_of` l2 → x ∈ l1 → x ∈ l2.
  Proof using. clear. intros H1 H2. apply elem_of_list_In in H2. apply elem_of_list_In. induction H1; cbn in *; [done| |]; intuition. Qed.
  Lemma put_srt d l : srt l → srt (put d l).
  Proof using CO put_at.
    clear vis.
    intros H. destruct (put_at d l H) as (L & R & -> & -> & H1 & H2). apply SS_app in H as (A & B & C). apply SS_app. split_and!; [done| |].
    - apply SS_cons. split; [done|]. intros y Hy. specialize (H2 y Hy). lia.
    - intros x y Hx [->|Hy]%elem_of_cons; [by apply H1|by apply C].
  Qed.
  (** one insertion while e at i is being visited *)
  Lemma put_step d e l i : srt l → l !! i = Some e → let j := (i + shift e [d])%nat in
    put d l !! j = Some e ∧ take (S i) l `sublist_of` take (S j) (put d l) ∧ take (S j) (put d l) ≡ₚ take (S i) l ++ filter (λ d, cmp (kd d) (kd e) < 0) [d] ∧ length (put d l) = S (length l).
  Proof using CO put_at.
    clear vis.
    intros Hs Hi. destruct (put_at d l Hs) as (L & R & -> & -> & H1 & H2). apply SS_app in Hs as (_ & _ & _). unfold shift. rewrite filter_cons, filter_nil. apply lookup_app_Some in Hi as [Hi|[Hge Hi]].
    - rewrite decide_False. 2: { intros Hlt. pose proof (H1 e (elem_of_list_lookup_2 _ _ _ Hi)) as Hle. apply (cmp_flip_le _ CO) in Hle. lia. }
      cbn [length]. cbv zeta. rewrite Nat.add_0_r, app_nil_r. pose proof (lookup_lt_Some _ _ _ Hi). rewrite !take_app_le by lia. split_and!; [by rewrite lookup_app_l|done|done|]. rewrite !app_length. cbn [length]. lia.
    - rewrite decide_True. 2: { apply (H2 e (elem_of_list_lookup_2 _ _ _ Hi)). }
      cbn [length]. cbv zeta. split_and!.
      + rewrite lookup_app_r by lia. replace (i + 1 - length L)%nat with (S (i - length L)) by lia. done.
      + rewrite !take_app_ge by lia. replace (S (i + 1) - length L)%nat with (S (S i - length L)) by lia. cbn [take]. apply sublist_app; [done|]. by apply sublist_cons.
      + rewrite !take_app_ge by lia. replace (S (i + 1) - length L)%nat with (S (S i - length L)) by lia. cbn [take]. rewrite <-app_assoc. apply Permutation_app_head. apply Permutation_cons_append.
      + rewrite !app_length. cbn [length]. lia.
  Qed.
  Lemma puts_step ds e : ∀ l i, srt l → l !! i = Some e → let j := (i + shift e ds)%nat in
    srt (puts put ds l) ∧ puts put ds l !! j = Some e ∧ take (S i) l `sublist_of` take (S j) (puts put ds l) ∧ take (S j) (puts put ds l) ≡ₚ take (S i) l ++ filter (λ d, cmp (kd d) (kd e) < 0) ds ∧ length (puts put ds l) = (length l + length ds)%nat.
  Proof using CO put_at.
    clear vis.
    induction ds as [|d ds IH]; intros l i Hs Hi; cbv zeta.
    - unfold shift. rewrite filter_nil. cbn [length puts foldl]. rewrite Nat.add_0_r, app_nil_r. split_and!; [done|done|done|done|lia].
    - change (puts put (d :: ds) l) with (puts put ds (put d l)). destruct (put_step d e l i Hs Hi) as (A & B & C & N). destruct (IH (put d l) _ (put_srt d l Hs) A) as (A1 & A2 & A3 & A4 & A5).
      assert (i + shift e (d :: ds) = i + shift e [d] + shift e ds)%nat as ->. { unfold shift. rewrite (filter_cons _ d ds), (filter_cons _ d []). rewrite filter_nil. destruct (decide _); cbn [length]; lia. }
      split_and!; [done|done|by etrans| |cbn [length]; lia]. rewrite A4, C, <-app_assoc. apply Permutation_app_head. rewrite (filter_cons _ d ds), (filter_cons _ d []), filter_nil. by destruct (decide _).
  Qed.
  Lemma iwalk_ok f : ∀ l i w tr l', srt l → iwalk f l i w = Some (tr, l') → srt l' ∧ l' = puts put (inserted tr) l ∧ take i l ++ tr.*1 `sublist_of` l' ∧
    ∃ done rest, answers vis w tr done ∧ l' ≡ₚ take i l ++ tr.*1 ++ missed cmp kd tr ++ rest ∧ (done = true → rest = []) ∧ (∀ d e, d ∈ take i l ++ tr.*1 → e ∈ rest → cmp (kd d) (kd e) <= 0).
  Proof using CO put_at.
    induction f as [|f IH]; intros l i w tr l' Hs Hw; cbn [iwalk] in Hw; destruct (l !! i) as [d|] eqn:Ei; try done.
    1, 3: injection Hw as <- <-; apply lookup_ge_None in Ei; split_and!; [done|done|cbn [fmap list_fmap]; rewrite app_nil_r; apply sublist_take|]; exists true, []; split; [done|]; cbn; rewrite app_nil_r, take_ge by lia; split_and!; [done|done|]; intros ? ? _ He; by apply not_elem_of_nil in He.
    destruct (puts_step (vis d w).1 d l i Hs Ei) as (A1 & A2 & A3 & A4 & _). rewrite (take_S_r l i d Ei) in A3, A4.
    destruct ((vis d w).2.1) eqn:Eb.
    - destruct (iwalk f _ _ _) as [[tr' lf]|] eqn:Ew; [|done]. cbn in Hw. injection Hw as <- <-. destruct (IH _ _ _ _ _ A1 Ew) as (H1 & H2 & H3 & dn & rest & H4 & H5 & H6 & H7). split_and!.
      + done.
      + unfold inserted. rewrite fmap_cons. cbn [concat snd]. rewrite (puts_app put). exact H2.
      + rewrite fmap_cons. cbn [fst]. etrans; [|exact H3]. change (d :: tr'.*1) with ([d] ++ tr'.*1). rewrite app_assoc. by apply sublist_app.
      + exists dn, rest. split; [cbn [answers]; by rewrite Eb|]. split_and!.
        * rewrite H5, A4. unfold missed. rewrite !fmap_cons. cbn [concat fst snd].
          rewrite <-!app_assoc. apply Permutation_app_head. cbn [app]. apply perm_skip. rewrite !app_assoc. do 2 apply Permutation_app_tail. apply Permutation_app_comm.
        * done.
        * intros x e Hx. apply H7. rewrite fmap_cons in Hx. cbn [fst] in Hx. change (d :: tr'.*1) with ([d] ++ tr'.*1) in Hx. rewrite app_assoc in Hx. apply elem_of_app in Hx as [Hx|Hx]; apply elem_of_app; [left|by right]. by eapply sublist_in.
    - injection Hw as <- <-. split_and!.
      + done.
      + unfold inserted. cbn. by rewrite app_nil_r.
      + cbn. etrans; [exact A3|]. apply sublist_take.
      + exists false, (drop (S (i + shift d (vis d w).1)) (puts put (vis d w).1 l)). split; [cbn [answers]; by rewrite Eb|]. split_and!; [|done|].
        * rewrite <-(take_drop (S (i + shift d (vis d w).1)) (puts put (vis d w).1 l)) at 1. rewrite A4. unfold missed. cbn. rewrite app_nil_r, <-!app_assoc. done.
        * intros x e Hx He. rewrite <-(take_drop (S (i + shift d (vis d w).1)) (puts put (vis d w).1 l)) in A1. apply SS_app in A1 as (_ & _ & A1). apply A1; [|done]. by eapply sublist_in.
  Qed.
  Lemma iwalk_ends b : budget vis b → ∀ f l i w, srt l → (length l - i + b w <= f)%nat → is_Some (iwalk f l i w).
  Proof using CO put_at.
    intros Hb. induction f as [|f IH]; intros l i w Ha Hf; cbn [iwalk]; destruct (l !! i) as [d|] eqn:Ei; [|done| |done]; apply lookup_lt_Some in Ei as Hlt; [lia|].
    destruct (puts_step (vis d w).1 d l i Ha Ei) as (A1 & _ & _ & _ & A5). destruct ((vis d w).2.1); [|done].
    destruct (IH (puts put (vis d w).1 l) (S (i + shift d (vis d w).1)) (vis d w).2.2 A1) as [x ->]; [|done]. pose proof (Hb d w). lia.
  Qed.
End multi.

(** * The tree *)
Section tree.
  Context {K V D W : Type} (cmp : K → K → Z) (CO : CmpOK cmp) (kd : D → K) (seen : K → V → D) (kd_seen : ∀ k v, kd (seen k v) = k).
  Context (put : D → list D → list D) (vis : D → W → list D * (bool * W)) (read : ptr → M (rb K V) D) (ins : D → M (rb K V) unit).
  Context (read_ok : ∀ a s k v, key (Some a) s = Ok (k, s) → value (Some a) s = Ok (v, s) → read (Some a) s = Ok (seen k v, s)).
  Notation cont l := ((λ x : nat * (K * V), seen x.2.1 x.2.2) <$> l).
  Notation loop := (visit_loop read ins vis).
  Notation lk l := (StronglySorted (λ x y, cmp (kd x) (kd y) <= 0) (cont l)).
  Lemma inv_srt s l n : inv cmp s l n → lk l.
  Proof using kd_seen.
    intros (t & [_ H] & <- & _). induction H as [|x l Hl IH Hx]; [constructor|]. rewrite fmap_cons. constructor; [done|]. apply Forall_fmap. eapply Forall_impl; [exact Hx|]. intros y Hy. cbn. rewrite !kd_seen. exact Hy.
  Qed.
  Lemma entry_at (s : rb K V) l n a k v : inv cmp s l n → (a, (k, v)) ∈ l → key (Some a) s = Ok (k, s) ∧ value (Some a) s = Ok (v, s).
  Proof using.
    intros Hi Hin. pose proof (inv_nodup _ _ _ _ Hi) as N. destruct Hi as (t & H & <- & Hn). apply elem_of_list_split in Hin as (L & R & E). pose proof (tinv_rep _ _ _ H) as Hp. split; [by eapply key_ok|by eapply value_ok].
  Qed.
  Lemma next_at (s : rb K V) l n L a kv R : inv cmp s l n → l = L ++ (a, kv) :: R → next (Some a) s = Ok (fst <$> head R, s).
  Proof using.
    intros Hi E. pose proof (inv_nodup _ _ _ _ Hi) as N. rewrite (next_inv cmp s l n a Hi). 2: { rewrite E, fmap_app. apply elem_of_app. right. by left. }
    unfold after. rewrite E in N |- *. apply nd_mid in N as [N _]. by rewrite suffix_mid.
  Qed.
  Section unique.
    Notation asc := (StronglySorted (λ x y, cmp (kd x) (kd y) < 0)).
    Context (put_asc : ∀ d l, asc l → asc (put d l)).
    Context (ins_ok : ∀ s l n d, inv cmp s l n → asc (cont l) → ∃ s' l' n', ins d s = Ok (tt, s') ∧ inv cmp s' l' n' ∧ cont l' = put d (cont l) ∧ ∀ a k v, (a, (k, v)) ∈ l → ∃ v', (a, (k, v')) ∈ l').
    Lemma ins_all_ok ds : ∀ s l n, inv cmp s l n → asc (cont l) → ∃ s' l' n', insert_all ins ds s = Ok (tt, s') ∧ inv cmp s' l' n' ∧ cont l' = puts put ds (cont l) ∧ asc (cont l') ∧ ∀ a k v, (a, (k, v)) ∈ l → ∃ v', (a, (k, v')) ∈ l'.
    Proof using put_asc ins_ok.
      clear -put_asc ins_ok. induction ds as [|d ds IH]; intros s l n Hi Ha; cbn [insert_all]; [exists s, l, n; split_and!; eauto|].
      destruct (ins_ok s l n d Hi Ha) as (s1 & l1 & n1 & E1 & H1 & C1 & K1). unfold mbind_. rewrite E1. destruct (IH s1 l1 n1 H1) as (s2 & l2 & n2 & E2 & H2 & C2 & A2 & K2); [rewrite C1; by apply put_asc|].
      exists s2, l2, n2. split_and!; [done|done|by rewrite C2, C1|done|]. intros a k v Hin. destruct (K1 a k v Hin) as (v' & Hin'). by eapply K2.
    Qed.
    Lemma head_filter (P : D → Prop) `{∀ d, Decision (P d)} (l : list (nat * (K * V))) : head (filter P (cont l)) = (λ x : nat * (K * V), seen x.2.1 x.2.2) <$> head (filter (λ x, P (seen x.2.1 x.2.2)) l).
    Proof using. clear. induction l as [|x l IH]; [done|]. rewrite fmap_cons, !filter_cons. destruct (decide _); done. Qed.
    Lemma after_above L a k v R : asc (cont (L ++ (a, (k, v)) :: R)) → fst <$> head R = fst <$> head (filter (λ x, above cmp kd (Some k) (seen x.2.1 x.2.2)) (L ++ (a, (k, v)) :: R)).
    Proof using CO kd_seen.
      clear put_asc ins_ok read_ok. intros Ha. rewrite fmap_app, fmap_cons in Ha. apply SS_app in Ha as (_ & H2 & H3). apply SS_cons in H2 as [_ H2]. cbn [fst snd] in *. f_equal. rewrite filter_app, filter_cons. cbn [snd fst].
      rewrite decide_False. 2: { cbn. rewrite kd_seen, (cmp_refl _ CO). lia. }
      assert (filter (λ x, above cmp kd (Some k) (seen x.2.1 x.2.2)) L = []) as ->.
      { apply elem_of_nil_inv. intros x [Hx Hin]%elem_of_list_filter. cbn in Hx. specialize (H3 (seen x.2.1 x.2.2) (seen k v)). rewrite !kd_seen in *.
        assert (cmp x.2.1 k < 0) as Hlt. { apply H3; [|by left]. apply elem_of_list_fmap. by exists x. } apply (cmp_flip_lt _ CO) in Hlt. lia. }
      cbn [app]. destruct R as [|x R]; [done|]. rewrite filter_cons, decide_True; [done|]. cbn. specialize (H2 (seen x.2.1 x.2.2)). rewrite !kd_seen in *. apply H2. rewrite fmap_cons. by left.
    Qed.
    Lemma loop_unique f : ∀ s l n k w p, inv cmp s l n → asc (cont l) → p = fst <$> head (filter (λ x, above cmp kd k (seen x.2.1 x.2.2)) l) →
      match loop f p w s with
      | Ok (tr, s') => ∃ l' n', walk cmp kd put vis f (cont l) k w = Some (tr, cont l') ∧ inv cmp s' l' n' ∧ asc (cont l')
      | Fuel => walk cmp kd put vis f (cont l) k w = None
      | Panic => False end.
    Proof using CO kd_seen read_ok put_asc ins_ok.
      induction f as [|f IH]; intros s l n k w p Hi Ha ->; cbn [visit_loop walk]; rewrite head_filter; destruct (head (filter _ l)) as [[a [k1 v1]]|] eqn:Eh; cbn [fmap option_fmap option_map fst snd]; [done|exists l, n; done| |exists l, n; done].
      assert ((a, (k1, v1)) ∈ l) as Hin. { destruct (filter _ l) as [|y] eqn:E; [done|]. injection Eh as ->. assert ((a, (k1, v1)) ∈ filter (λ x, above cmp kd k (seen x.2.1 x.2.2)) l) as H by (rewrite E; by left). by apply elem_of_list_filter in H as [_ H]. }
      destruct (entry_at s l n a k1 v1 Hi Hin) as [Ek Ev]. unfold mbind_. rewrite (read_ok a s k1 v1 Ek Ev). set (r := vis (seen k1 v1) w).
      destruct (ins_all_ok r.1 s l n Hi Ha) as (s1 & l1 & n1 & E1 & H1 & C1 & A1 & K1). rewrite E1. rewrite <-C1. destruct (r.2.1); cbn [negb]; [|exists l1, n1; done].
      destruct (K1 a k1 v1 Hin) as (v2 & Hin1). apply elem_of_list_split in Hin1 as (L & R & El). rewrite (next_at s1 l1 n1 L a (k1, v2) R H1 El).
      specialize (IH s1 l1 n1 (Some (kd (seen k1 v1))) r.2.2 (fst <$> head R) H1 A1). rewrite kd_seen in IH |- *.
      destruct (visit_loop _ _ _ f _ _ s1) as [[tr s2]| |]; [| |].
      - destruct IH as (l2 & n2 & E2 & H2 & A2); [rewrite El; rewrite El in A1; by apply after_above with (v := v2)|]. rewrite E2. cbn. exists l2, n2. done.
      - apply IH. rewrite El. rewrite El in A1. by apply after_above with (v := v2).
      - rewrite IH; [done|]. rewrite El. rewrite El in A1. by apply after_above with (v := v2).
    Qed.
    Context (put_key : ∀ d l q, asc l → has_key cmp kd q (put d l) ↔ cmp q (kd d) = 0 ∨ has_key cmp kd q l).
    Context (put_len : ∀ d l, asc l → ∀ k, (length (filter (λ e, (cmp k (kd e) < 0)%Z) (put d l)) <= S (length (filter (λ e, (cmp k (kd e) < 0)%Z) l)))%nat).
    Lemma all_above (l : list (nat * (K * V))) : filter (λ x, above cmp kd None (seen x.2.1 x.2.2)) l = l.
    Proof using. clear. induction l as [|x l IH]; [done|]. rewrite filter_cons, decide_True by done. by rewrite IH. Qed.
    Lemma visit_unique f s l n w : inv cmp s l n → asc (cont l) →
      match visit_all read ins vis f w s with
      | Ok (tr, s') => ∃ l' n', visits_unique cmp kd put vis (cont l) w tr (cont l') ∧ inv cmp s' l' n' ∧ asc (cont l')
      | Panic => False
      | Fuel => ∀ b, budget vis b → (f < length (cont l) + b w)%nat end.
    Proof using CO kd_seen read_ok put_asc ins_ok put_key put_len.
      intros Hi Ha. unfold visit_all, mbind_. rewrite (begin_inv cmp s l n Hi). pose proof (loop_unique f s l n None w _ Hi Ha eq_refl) as H. rewrite all_above in H.
      destruct (visit_loop _ _ _ _ _ _ _) as [[tr s']| |]; [|done|].
      - destruct H as (l' & n' & Ew & Hi' & Ha'). exists l', n'. split_and!; [|done|done]. destruct (walk_ok cmp CO kd put vis put_asc put_key put_len f _ _ _ _ _ Ha Ew) as (A1 & A2 & A3 & A4 & A5 & dn & A6 & A7).
        split; [|done|done|done]. exists dn. split; [done|]. intros q Hd. by apply A7.
      - intros b Hb. apply Nat.nle_gt. intros Hf. destruct (walk_ends cmp CO kd put vis put_asc put_key put_len b Hb f (cont l) None w Ha) as [x Hx]; [|congruence].
        etrans; [|exact Hf]. apply Nat.add_le_mono_r. apply filter_length.
    Qed.
  End unique.
  Section multi.
    Context (ins_ok : ∀ s l n d, inv cmp s l n → ∃ s' l' n', ins d s = Ok (tt, s') ∧ inv cmp s' l' n' ∧ cont l' = put d (cont l) ∧
      ∀ L a kv R, l = L ++ (a, kv) :: R → ∃ L' R', l' = L' ++ (a, kv) :: R' ∧ length L' = (length L + shift cmp kd (seen kv.1 kv.2) [d])%nat).
    Lemma ins_all_multi ds : ∀ s l n, inv cmp s l n → ∃ s' l' n', insert_all ins ds s = Ok (tt, s') ∧ inv cmp s' l' n' ∧ cont l' = puts put ds (cont l) ∧
      ∀ L a kv R, l = L ++ (a, kv) :: R → ∃ L' R', l' = L' ++ (a, kv) :: R' ∧ length L' = (length L + shift cmp kd (seen kv.1 kv.2) ds)%nat.
    Proof using ins_ok.
      clear -ins_ok. induction ds as [|d ds IH]; intros s l n Hi; cbn [insert_all]; [exists s, l, n; split_and!; [done|done|done|]; intros L a kv R ->; exists L, R; split; [done|]; unfold shift; rewrite filter_nil; cbn; clear; lia|].
      destruct (ins_ok s l n d Hi) as (s1 & l1 & n1 & E1 & H1 & C1 & K1). unfold mbind_. rewrite E1. destruct (IH s1 l1 n1 H1) as (s2 & l2 & n2 & E2 & H2 & C2 & K2).
      exists s2, l2, n2. split_and!; [done|done|by rewrite C2, C1|]. intros L a kv R E. destruct (K1 L a kv R E) as (L1 & R1 & EL & Hl). destruct (K2 L1 a kv R1 EL) as (L2 & R2 & EL2 & Hl2). exists L2, R2. split; [done|].
      rewrite Hl2, Hl. unfold shift. rewrite (filter_cons _ d ds), (filter_cons _ d []), filter_nil. clear. destruct (decide _); cbn [length]; lia.
    Qed.
    Lemma loop_multi f : ∀ s l n i w p, inv cmp s l n → p = fst <$> head (drop i l) →
      match loop f p w s with
      | Ok (tr, s') => ∃ l' n', iwalk cmp kd put vis f (cont l) i w = Some (tr, cont l') ∧ inv cmp s' l' n'
      | Fuel => iwalk cmp kd put vis f (cont l) i w = None
      | Panic => False end.
    Proof using kd_seen read_ok ins_ok.
      induction f as [|f IH]; intros s l n i w p Hi ->; cbn [visit_loop iwalk]; rewrite list_lookup_fmap, <-head_drop; destruct (head (drop i l)) as [[a [k1 v1]]|] eqn:Eh; cbn [fmap option_fmap option_map fst snd]; [done|exists l, n; done| |exists l, n; done].
      rewrite head_drop in Eh. pose proof (take_drop_middle _ _ _ Eh) as El. assert ((a, (k1, v1)) ∈ l) as Hin by by eapply elem_of_list_lookup_2.
      destruct (entry_at s l n a k1 v1 Hi Hin) as [Ek Ev]. unfold mbind_. rewrite (read_ok a s k1 v1 Ek Ev). set (r := vis (seen k1 v1) w).
      destruct (ins_all_multi r.1 s l n Hi) as (s1 & l1 & n1 & E1 & H1 & C1 & K1). rewrite E1. rewrite <-C1. destruct (r.2.1); cbn [negb]; [|exists l1, n1; done].
      destruct (K1 _ _ _ _ (eq_sym El)) as (L & R & EL & Hlen). rewrite take_length in Hlen. apply lookup_lt_Some in Eh as Hlt. rewrite Nat.min_l in Hlen by lia. cbn [fst snd] in Hlen. rewrite (next_at s1 l1 n1 L a (k1, v1) R H1 EL).
      specialize (IH s1 l1 n1 (S (i + shift cmp kd (seen k1 v1) r.1)) r.2.2 (fst <$> head R) H1).
      assert (fst <$> head R = fst <$> head (drop (S (i + shift cmp kd (seen k1 v1) r.1)) l1)) as Hp. { rewrite <-Hlen, EL. rewrite drop_app_ge by lia. replace (S (length L) - length L)%nat with 1%nat by lia. done. }
      specialize (IH Hp). destruct (visit_loop _ _ _ f _ _ s1) as [[tr s2]| |]; [|done|by rewrite IH].
      destruct IH as (l2 & n2 & E2 & H2). rewrite E2. cbn. exists l2, n2. done.
    Qed.
    Context (put_at : ∀ d l, StronglySorted (λ x y, cmp (kd x) (kd y) <= 0) l → ∃ L R, l = L ++ R ∧ put d l = L ++ d :: R ∧ (∀ x, x ∈ L → cmp (kd x) (kd d) <= 0) ∧ (∀ x, x ∈ R → cmp (kd d) (kd x) < 0)).
    Lemma visit_multi f s l n w : inv cmp s l n →
      match visit_all read ins vis f w s with
      | Ok (tr, s') => ∃ l' n', visits_multi cmp kd put vis (cont l) w tr (cont l') ∧ inv cmp s' l' n'
      | Panic => False
      | Fuel => ∀ b, budget vis b → (f < length (cont l) + b w)%nat end.
    Proof using CO kd_seen read_ok ins_ok put_at.
      intros Hi. unfold visit_all, mbind_. rewrite (begin_inv cmp s l n Hi). pose proof (inv_srt _ _ _ Hi) as Ha. pose proof (loop_multi f s l n 0%nat w (fst <$> head l) Hi eq_refl) as H.
      destruct (visit_loop _ _ _ _ _ _ _) as [[tr s']| |]; [|done|].
      - destruct H as (l' & n' & Ew & Hi'). exists l', n'. split_and!; [|done]. destruct (iwalk_ok cmp CO kd put vis put_at f _ _ _ _ _ Ha Ew) as (A1 & A2 & A3 & dn & rest & A4 & A5 & A6 & A7).
        split; [|done|done]. by exists dn, rest.
      - intros b Hb. apply Nat.nle_gt. intros Hf. destruct (iwalk_ends cmp CO kd put vis put_at b Hb f (cont l) 0%nat w Ha) as [x Hx]; [lia|congruence].
    Qed.
  End multi.
End tree.
