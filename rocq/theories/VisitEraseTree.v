(** C113, containers on the red-black tree: proofs. *)
From Coq Require Import Sorting.Sorted.
From Verif Require Import Base Wp History RbModel RbTree RbRot RbIns RbIns2 RbDel RbNav RbDel2 RbSpec RbFind RbProps RbApi RbFrame VisitInsertProps VisitEraseModel VisitEraseSpec.
Open Scope nat_scope.
Open Scope go_scope.

Section tree.
  Context {K V D C W : Type} (cmp : K → K → Z) (CO : CmpOK cmp) (kd : D → K) (seen : K → V → D) (kd_seen : ∀ k v, kd (seen k v) = k).
  Context (read : nat → M (rb K V) D) (act : C → M (rb K V) unit) (rem : D → C) (vis : D → W → list C * (bool * W)) (pick : D → bool).
  Context (Hread : ∀ a s k v, key (Some a) s = Ok (k, s) → value (Some a) s = Ok (v, s) → read a s = Ok (seen k v, s)).
  Context (Hact : ∀ d s z, rb_FindNode cmp (kd d) s = Ok (Some z, s) → act (rem d) s = rb_Delete (Some z) s).
  Context (Hvis : ∀ d u, vis d u = (if pick d then [rem d] else [], (true, u))).
  Notation cont l := ((λ x : nat * (K * V), seen x.2.1 x.2.2) <$> l).
  Definition asc (l : list (nat * (K * V))) : Prop := StronglySorted (λ x y, (cmp x.2.1 y.2.1 < 0)%Z) l.
  Definition ok (s : rb K V) t : Prop := rbinv s t ∧ asc (io t).
  Lemma asc_kle l : asc l → StronglySorted (kle cmp) l.
  Proof using. induction 1 as [|x l _ IH H]; constructor; [done|]. eapply Forall_impl; [exact H|]. intros y Hy. unfold kle. clear -Hy. cbv beta in Hy. lia. Qed.
  Lemma asc_at L z k v R : asc (L ++ (z, (k, v)) :: R) → (∀ x, x ∈ L → (cmp x.2.1 k < 0)%Z) ∧ (∀ x, x ∈ R → (cmp k x.2.1 < 0)%Z) ∧ asc (L ++ R).
  Proof using.
    unfold asc. intros (H1 & H2 & H3)%SS_app. apply SS_cons in H2 as [H2 H4]. split_and!; [intros x Hx; apply (H3 x (z, (k, v)) Hx), elem_of_list_here|done|]. apply SS_app. split_and!; [done|done|]. intros x y Hx Hy. apply H3; [done|by right].
  Qed.
  Lemma act_is s t L z k v R : ok s t → io t = L ++ (z, (k, v)) :: R → act (rem (seen k v)) s = rb_Delete (Some z) s.
  Proof using CO kd_seen Hact.
    clear Hvis Hread vis read pick. intros [Hi Ha] E. apply Hact. rewrite kd_seen. destruct (findnode_ok cmp CO k t s (ri_rep _ _ Hi) (asc_kle _ Ha)) as (p & Ep & Hm). rewrite Ep. rewrite E in Ha, Hm. destruct (asc_at _ _ _ _ _ Ha) as (H1 & H2 & _). pose proof (cmp_refl cmp CO k) as Hk.
    destruct p as [a|].
    - destruct Hm as (L1 & [k1 v1] & R1 & E1 & Hk1 & _). cbn in Hk1. destruct (two_splits _ _ _ _ _ E1) as [(M & -> & ->)|([|m M] & -> & E2)].
      + specialize (H2 (a, (k1, v1)) ltac:(set_solver)). cbn in H2. lia.
      + cbn in E2. by injection E2 as -> -> -> ->.
      + cbn in E2. injection E2 as <- ->. specialize (H1 (a, (k1, v1)) ltac:(set_solver)). cbn in H1. apply (cmp_flip_eq _ CO) in Hk1. lia.
    - cbn [first_match] in Hm. rewrite Forall_forall in Hm. exfalso. apply (Hm (z, (k, v))); [set_solver|done].
  Qed.
  (** the removal, and where the loop goes on *)
  Lemma removed s t L z k v R : ok s t → io t = L ++ (z, (k, v)) :: R →
    ∃ s' t' p, act (rem (seen k v)) s = Ok (tt, s') ∧ ok s' t' ∧ cont (io t') = cont (L ++ R) ∧ next (Some z) s' = Ok (p, s') ∧
      (match p with None => True | Some a => a ∈ ads t' end) ∧ (L = [] → io t' = R ∧ p = fst <$> head R).
  Proof using CO kd_seen Hact.
    clear Hvis Hread vis read pick. intros Ho E. rewrite (act_is _ _ _ _ _ _ _ Ho E). destruct Ho as [Hi Ha]. destruct (delete_next s t L R z k v Hi E) as (s' & t' & p & E1 & Hi' & _ & Hn & Hd). exists s', t', p. split_and!; [done| | |done| |].
    - split; [done|]. rewrite E in Ha. destruct Hd as [(_ & y & [k1 v1] & R' & -> & -> & _)|[[-> _]|[-> _]]]; [|by apply asc_at in Ha as (_ & _ & ?)..].
      destruct (asc_at _ _ _ _ _ Ha) as (H1 & _ & Ha'). unfold asc in Ha' |- *. apply SS_app in Ha' as (A1 & A2 & A3). apply SS_cons in A2 as [A2 A4]. apply SS_app. split_and!; [done|apply SS_cons; split; [done|exact A4]|].
      intros x y' Hx [->|Hy]%elem_of_cons; [apply (A3 x (y, (k1, v1)) Hx); left|apply A3; [done|by right]].
    - destruct Hd as [(_ & y & [k1 v1] & R' & -> & -> & _)|[[-> _]|[-> _]]]; [|done..]. by rewrite !fmap_app.
    - unfold ads. destruct Hd as [(_ & y & kv & R' & -> & -> & ->)|[[-> ->]|(-> & a & -> & Ha')]].
      + destruct R' as [|[a ?] R']; [done|]. cbn. rewrite fmap_app. set_solver.
      + destruct R as [|[a ?] R]; [done|]. cbn. rewrite fmap_app. set_solver.
      + rewrite fmap_app. set_solver.
    - intros ->. destruct Hd as [(? & _)|[?|(_ & a & _ & Ha')]]; [done|done|]. by apply elem_of_nil in Ha'.
  Qed.
  Lemma cont_distinct L z k v R d : asc (L ++ (z, (k, v)) :: R) → d ∈ cont (L ++ R) → d ≠ seen k v.
  Proof using CO kd_seen.
    clear Hvis Hread Hact vis read pick act rem. intros (H1 & H2 & _)%asc_at Hd ->. apply elem_of_list_fmap in Hd as ([a [k1 v1]] & Hd & Hin). cbn in Hd. assert (k1 = k) as -> by (rewrite <-(kd_seen k1 v1), <-(kd_seen k v); by rewrite Hd).
    pose proof (cmp_refl cmp CO k). apply elem_of_app in Hin as [Hin|Hin]; [specialize (H1 _ Hin)|specialize (H2 _ Hin)]; cbn in *; lia.
  Qed.
  Lemma loop_safe : ∀ f s t x u, ok s t → match x with None => True | Some z => ∃ L kv R, io t = L ++ (z, kv) :: R ∧ length R + length (io t) * length (io t) < f end →
    ∃ tr s' t', visits_loop read next act vis f x u s = Ok (tr, s') ∧ ok s' t' ∧ (∀ d, d ∈ tr.*1 → d ∈ cont (io t)) ∧
      cont (io t') `sublist_of` cont (io t) ∧ ∀ d, d ∈ cont (io t') ↔ d ∈ cont (io t) ∧ (pick d = false ∨ d ∉ tr.*1).
  Proof using CO kd_seen Hread Hact Hvis.
    induction f as [|f IH]; intros s t x u Ho Hx.
    { destruct x as [z|]; [destruct Hx as (L & kv & R & _ & Hf); lia|]. exists [], s, t. split_and!; [done|done|intros d Hd; by apply elem_of_nil in Hd|done|]. intros d. split; [intros ?; split; [done|right; by apply not_elem_of_nil]|by intros [? _]]. }
    destruct x as [z|]. 2:{ exists [], s, t. split_and!; [done|done|intros d Hd; by apply elem_of_nil in Hd|done|]. intros d. split; [intros ?; split; [done|right; by apply not_elem_of_nil]|by intros [? _]]. }
    destruct Hx as (L & [k v] & R & E & Hf). pose proof (ri_rep _ _ (proj1 Ho)) as Hp. set (d := seen k v).
    assert (Er : read z s = Ok (d, s)) by (apply Hread; [by eapply key_ok|by eapply value_ok]).
    destruct (pick d) eqn:Ep.
    - destruct (removed s t L z k v R Ho E) as (s1 & t1 & p & E1 & Ho1 & Hc1 & Hn & Hin & _).
      assert (Hlen : length (io t1) = length L + length R) by (rewrite <-(fmap_length (λ x : nat * (K * V), seen x.2.1 x.2.2) (io t1)), Hc1, fmap_length, app_length; done).
      destruct (IH s1 t1 p u Ho1) as (tr & s' & t' & E2 & Ho' & Htr & Hsub & Hmem).
      { destruct p as [a|]; [|done]. unfold ads in Hin. apply elem_of_list_fmap in Hin as ([a' kv] & -> & Hin). apply elem_of_list_split in Hin as (L1 & R1 & Et1). exists L1, kv, R1. split; [done|].
        assert (length R1 < length (io t1)) by (rewrite Et1, app_length; cbn; lia). rewrite E, app_length in Hf. cbn [length] in Hf. nia. }
      exists ((d, [rem d]) :: tr), s', t'. rewrite E. pose proof (proj2 Ho) as Ha. rewrite E in Ha. split_and!.
      + cbn [visits_loop]. unfold mbind_ at 1. rewrite Er. cbv zeta. rewrite Hvis, Ep. cbn [fst snd negb act_all]. unfold mbind_ at 1 2. unfold d. rewrite E1. cbn [mret_]. unfold mbind_ at 1. rewrite Hn. unfold mbind_ at 1. by rewrite E2.
      + done.
      + cbn. intros e [->|He]%elem_of_cons; [rewrite fmap_app, fmap_cons; apply elem_of_app; right; left|]. specialize (Htr e He). rewrite Hc1 in Htr. rewrite fmap_app in Htr. rewrite fmap_app, fmap_cons. set_solver.
      + etrans; [exact Hsub|]. rewrite Hc1, !fmap_app, fmap_cons. apply sublist_app; [done|]. by apply sublist_cons.
      + intros e. rewrite Hmem, Hc1. cbn [fmap list_fmap fst]. split.
        * intros [He Hpe]. pose proof (cont_distinct _ _ _ _ _ e Ha He) as Hne. split; [rewrite fmap_app in He; rewrite fmap_app, fmap_cons; set_solver|]. destruct Hpe as [?|Hpe]; [by left|right]. intros [->|?]%elem_of_cons; done.
        * intros [He Hpe]. assert (e ≠ d) as Hne by (intros ->; destruct Hpe as [Hpe|Hpe]; [congruence|apply Hpe; left]).
          split; [rewrite fmap_app, fmap_cons in He; rewrite fmap_app; set_solver|]. destruct Hpe as [?|Hpe]; [by left|right; set_solver].
    - destruct (IH s t (fst <$> head R) u Ho) as (tr & s' & t' & E2 & Ho' & Htr & Hsub & Hmem).
      { destruct R as [|[a kv] R]; [done|]. exists (L ++ [(z, (k, v))]), kv, R. split; [by rewrite E, <-app_assoc|cbn in Hf; lia]. }
      exists ((d, []) :: tr), s', t'. split_and!.
      + cbn [visits_loop]. unfold mbind_ at 1. rewrite Er. cbv zeta. rewrite Hvis, Ep. cbn [fst snd negb act_all]. unfold mbind_ at 1, mret_ at 1. unfold mbind_ at 1. rewrite (next_ok _ _ _ _ _ _ _ Hp E). unfold mbind_ at 1. by rewrite E2.
      + done.
      + cbn. intros e [->|He]%elem_of_cons; [|by apply Htr]. rewrite E, fmap_app, fmap_cons. apply elem_of_app. right. left.
      + done.
      + intros e. rewrite Hmem. cbn [fmap list_fmap fst]. split; intros [He Hpe]; (split; [done|]).
        * destruct (pick e) eqn:Epe; [right|by left]. destruct Hpe as [?|Hpe]; [done|]. intros [->|?]%elem_of_cons; [congruence|done].
        * destruct Hpe as [?|Hpe]; [by left|right; set_solver].
  Qed.
  (** only entries at the front are removed *)
  Lemma loop_front : ∀ R1 f s t R2 u, ok s t → io t = R1 ++ R2 → (∀ d, d ∈ cont R1 → pick d = true) → (∀ d, d ∈ cont R2 → pick d = false) → length (io t) ≤ f →
    ∃ tr s', visits_loop read next act vis f (fst <$> head (io t)) u s = Ok (tr, s') ∧ tr.*1 = cont (io t) ∧ ∃ t', ok s' t' ∧ io t' = R2.
  Proof using CO kd_seen Hread Hact Hvis.
    induction R1 as [|[z [k v]] R1 IH]; intros f s t R2 u Ho E Hp1 Hp2 Hf.
    - cbn [app] in E. assert (Hl : ∀ R f L u, io t = L ++ R → (∀ d, d ∈ cont R → pick d = false) → length R ≤ f → ∃ tr, visits_loop read next act vis f (fst <$> head R) u s = Ok (tr, s) ∧ tr.*1 = cont R).
      { clear -Ho Hread Hvis. induction R as [|[z [k v]] R IH]; intros f L u E Hp Hf; [exists []; by destruct f|]. destruct f as [|f]; [cbn in Hf; lia|]. pose proof (ri_rep _ _ (proj1 Ho)) as Hr.
        assert (Er : read z s = Ok (seen k v, s)) by (apply Hread; [by eapply key_ok|by eapply value_ok]). destruct (IH f (L ++ [(z, (k, v))]) u) as (tr & E2 & Htr); [by rewrite <-app_assoc|intros d Hd; apply Hp; by right|cbn in Hf; lia|].
        exists ((seen k v, []) :: tr). split; [|cbn; by rewrite Htr]. cbn [visits_loop fmap option_fmap option_map head fst]. unfold mbind_ at 1. rewrite Er. cbv zeta. rewrite Hvis, (Hp (seen k v)) by left. cbn [fst snd negb act_all]. unfold mbind_ at 1, mret_ at 1. unfold mbind_ at 1. rewrite (next_ok _ _ _ _ _ _ _ Hr E). unfold mbind_ at 1. by rewrite E2. }
      destruct (Hl (io t) f [] u eq_refl) as (tr & E2 & Htr); [by rewrite E|done|]. exists tr, s. split_and!; [done|done|]. by exists t.
    - pose proof (ri_rep _ _ (proj1 Ho)) as Hr. assert (Er : read z s = Ok (seen k v, s)) by (apply Hread; [by apply (key_ok s t [] (R1 ++ R2) z k v)|by apply (value_ok s t [] (R1 ++ R2) z k v)]).
      destruct f as [|f]; [rewrite E in Hf; cbn in Hf; lia|]. destruct (removed s t [] z k v (R1 ++ R2) Ho E) as (s1 & t1 & p & E1 & Ho1 & _ & Hn & _ & H0). destruct (H0 eq_refl) as [Et1 ->].
      destruct (IH f s1 t1 R2 u Ho1 Et1) as (tr & s' & E2 & Htr & Ht'); [intros d Hd; apply Hp1; by right|done|rewrite E in Hf; cbn in Hf; rewrite Et1; lia|]. rewrite Et1 in E2, Htr.
      exists ((seen k v, [rem (seen k v)]) :: tr), s'. split_and!; [|rewrite E; cbn; by rewrite Htr|done]. rewrite E. cbn [visits_loop fmap option_fmap option_map head fst app]. unfold mbind_ at 1. rewrite Er. cbv zeta. rewrite Hvis, (Hp1 (seen k v)) by left. cbn [fst snd negb act_all]. unfold mbind_ at 1 2. rewrite E1. cbn [mret_]. unfold mbind_ at 1. rewrite Hn. unfold mbind_ at 1. by rewrite E2.
  Qed.
End tree.
