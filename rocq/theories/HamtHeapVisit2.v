(** A Traversal whose visitor erases any entries it has been handed so far. *)
From Verif Require Import Base History HamtModel HamtSpec HamtProofs HamtProps VisitEraseModel VisitEraseSpec HamtHeapModel HamtHeapRep HamtHeapPlace HamtHeapIns HamtHeapErase HamtHeapErase2 HamtHeapSim HamtHeapVisit HamtVisitSpec.
Open Scope nat_scope.

Section more.
  Context {T : Type} (hf : key → N) (Hhf : ∀ k, is_bytes k → (hf k < 2 ^ 64)%N).
  Implicit Types (h : heap T) (ch : list (option (entry T))) (es : list (item T)) (m : gmap key T) (t : hamt T).
  Lemma erase_any h t es m k : good hf h t es m → is_bytes k → ∃ b h' t' es', hh_Erase hf k h = Ok (b, h') ∧ good hf h' t' es' (delete k m) ∧ keeps [k] h es h' es' ∧ cuts k h h' es es' ∧ (∀ x, x < length h → x ∉ owns es → h' !! x = h !! x).
  Proof using Hhf.
    intros Hg Hk. assert (Hg0 := Hg). destruct Hg as (Hr & Hn & Hh & Hb). destruct (step_ok (W := unit) hf Hhf (HErase k) t m) as (a & t' & E & Ha & Hh'); [done|done|]. cbn [hm_step hm_answer hm_after] in *. unfold hm_Erase in E.
    destruct (bn_erase levels 0 (hf k) k t.1 t.2) as [[[b1 bm'] ch']| |] eqn:E1; try done. cbn [bindr fst snd] in E. injection E as <- <-. injection Ha as ->.
    case_bool_decide as Hmk.
    2: { assert (Hmk0 : m !! k = None) by (by apply eq_None_not_Some). exists false, h, t, es. split_and!.
      - by eapply (h_erase_miss levels 0 (hf k) k 0 0 t.1 t.2 es).
      - by rewrite delete_notin.
      - split; [done|eauto].
      - intros a hash L v R o Hit. exfalso. assert (m !! k = Some v); [|congruence]. eapply good_key; [exact Hg0|exact Hit|]. cbn. apply elem_of_app. right. left.
      - done. }
    inversion Hr as [|? ? ? c sl ? ess Eb Ec Hs]; subst. assert (Hh0 := Hh). assert (Hh1 := Hh'). destruct Hh as [Hw _]. destruct Hh' as [Hw' _]. cbn [fst snd] in *.
    destruct (h_erase_hit levels 0 (hf k) k 0 0 t.1 c sl t.2 ess h bm' ch' Eb Ec Hs Hn ltac:(by eapply wf_full) ltac:(by eapply wf_full) ltac:(eapply wf_nodup; [exact Hw|done]) E1) as (h' & c' & sl' & ess' & Ee & Eb' & Ec' & Hs' & Hn' & _ & _ & Hfr & P1 & P2 & P3).
    assert (Hr' : rep_e h' (EB 0) (Bm 0 bm' ch') ((EB 0, Bm 0 bm' ch', [0; c']) :: concat ess')) by (by econstructor).
    assert (Hroot : k ∈ ikeys (EB 0, Bm 0 t.1 t.2, [0; c])). { unfold ikeys. cbn [fst snd]. rewrite eflat_at. by eapply erase_true. }
    exists true, h', (bm', ch'), ((EB 0, Bm 0 bm' ch', [0; c']) :: concat ess'). split_and!; [done| | | |].
    - split_and!; [done|done|done|]. intros k' [v' Hv']. apply Hb. apply lookup_delete_Some in Hv' as [_ ?]. eauto.
    - assert (HF : ∀ it : item T, free [k] it → k ∉ ikeys it) by (intros it Hf Hx; apply (Hf k Hx); left). split.
      + intros it [->|Hit]%elem_of_cons Hf%HF; [done|]. destruct (P1 it Hit Hf) as [Q1 Q2]. split; [by right|done].
      + intros x l j e t0 o0 Ex Ej Hit Hf%HF. apply (P2 x l j e Ex Ej). intros t1 o1 Hto. assert ((e, t0, o0) = (e, t1, o1)) as <-; [|done]. eapply item_unique; [exact Hr|exact Hn|done|by right].
    - intros a hash L v1 R o [Hit|Hit]%elem_of_cons; [done|]. destruct (P3 _ _ _ _ _ _ Hit) as (pl & p & pr & -> & Q1 & Q2 & Q3). exists pl, p, pr. split_and!; [done..|]. intros Q4. right. by apply Q3.
    - exact Hfr.
  Qed.

  Lemma cut_left k0 h h' es es' a hash L (X : list (key * T)) pl px : cuts k0 h h' es es' → (EK a, Kv hash (L ++ X), a :: pl ++ px) ∈ es → length pl = length L → X ≠ [] → k0 ∈ L.*1 →
    ∃ L' pl', length pl' = length L' ∧ (EK a, Kv hash (L' ++ X), a :: pl' ++ px) ∈ es' ∧ ∀ x, x ∈ px → h' !! x = h !! x.
  Proof using.
    clear hf Hhf. intros Hcut Hit Hl HX Hk. apply elem_of_list_fmap in Hk as ([k1 v0] & -> & Hin). cbn [fst] in *. apply elem_of_list_split in Hin as (L1 & L2 & ->). rewrite <-app_assoc in Hit. cbn [app] in Hit.
    destruct (Hcut _ _ _ _ _ _ Hit) as (pl1 & p1 & pr1 & Eo & Hl1 & Hun & Hnew). injection Eo as Eo.
    assert (∃ plA q plB, pl = plA ++ q :: plB ∧ length plA = length L1 ∧ length plB = length L2) as (plA & q & plB & -> & HA & HB).
    { rewrite app_length in Hl. cbn in Hl. destruct (drop (length L1) pl) as [|q plB] eqn:Ed; [apply (f_equal length) in Ed; rewrite drop_length in Ed; cbn in Ed; lia|]. exists (take (length L1) pl), q, plB. split; [by rewrite <-Ed, take_drop|]. split; [rewrite take_length; lia|]. apply (f_equal length) in Ed. rewrite drop_length in Ed. cbn in Ed. lia. }
    rewrite <-app_assoc in Eo. cbn [app] in Eo. apply app_inj_1 in Eo as [<- Eo]; [|lia]. injection Eo as <- <-.
    exists (L1 ++ L2), (plA ++ plB). split_and!.
    - rewrite !app_length. lia.
    - rewrite <-!app_assoc. apply Hnew. destruct L1; [|done]. destruct L2; [|done]. done.
    - intros x Hx. apply Hun. right. apply elem_of_app. by right.
  Qed.

  (** where the loop over a chain is *)
  Definition stays h es m a hash k v (R : list (key * T)) p (pr : list nat) : Prop := h !! p = Some (OPair k v (head pr)) ∧
    ((∃ L pl, length pl = length L ∧ (EK a, Kv hash (L ++ (k, v) :: R), a :: pl ++ p :: pr) ∈ es) ∨
     (m !! k = None ∧ (R ≠ [] → ∃ L pl, length pl = length L ∧ (EK a, Kv hash (L ++ R), a :: pl ++ pr) ∈ es))).

  (** a pair whose key is not in the map is not part of the trie *)
  Lemma gone_pair h t es m p k v nx : good hf h t es m → m !! k = None → h !! p = Some (OPair k v nx) → p ∉ owns es.
  Proof using.
    intros Hg Hk Ep (it & Hit & Hp)%elem_owns. assert (Hg0 := Hg). destruct Hg as (Hr & _). destruct (proj1 (rep_item h) _ _ _ Hr it Hit) as (r & _ & Hi & _). destruct it as [[e u] q]. cbn in Hi, Hp.
    inversion Hi as [a hash hd kvs ps Hne Ea Hc|b' bm' pos' c' sl' chb essb Eb' Ec' Hsb]; subst.
    - apply elem_of_cons in Hp as [->|Hp]; [congruence|]. assert (∃ v', (k, v') ∈ kvs) as [v' Hin].
      { clear -Hc Hp Ep. unfold chain in Hc. revert hd ps Hc Hp. induction kvs as [|[k1 v1] kvs IH]; intros hd [|p1 ps]; cbn [seg_to]; try done; [by intros _ ?%elem_of_nil|]. intros (-> & nx1 & E1 & Hc) [->|Hp]%elem_of_cons; [|destruct (IH _ _ Hc Hp) as [v' ?]; exists v'; by right].
        rewrite E1 in Ep. injection Ep as -> -> ->. exists v. left. }
      assert (m !! k = Some v'); [|congruence]. by eapply (good_key hf h t es m (EK a, Kv hash kvs, a :: ps)).
    - apply elem_of_cons in Hp as [->|Hp]; [congruence|]. apply elem_of_list_singleton in Hp as ->. congruence.
  Qed.

  Lemma stays_erase h t es m a hash k v R p pr k0 b h' t' es' : good hf h t es m → stays h es m a hash k v R p pr → NoDup ((k, v) :: R).*1 → k0 ∉ R.*1 → good hf h' t' es' (delete k0 m) → keeps [k0] h es h' es' → cuts k0 h h' es es' → (∀ x, x < length h → x ∉ owns es → h' !! x = h !! x) →
    hh_Erase hf k0 h = Ok (b, h') → stays h' es' (delete k0 m) a hash k v R p pr.
  Proof using.
    clear Hhf. intros Hg [Ep Hst] HnR HkR Hg' Hk Hcut Hfr _. destruct Hst as [(L & pl & Hl & Hit)|[Hmk Hit]].
    - destruct (decide (k0 ∈ L.*1)) as [HkL|HkL].
      + destruct (cut_left _ _ _ _ _ _ _ _ _ _ _ Hcut Hit Hl ltac:(done) HkL) as (L' & pl' & Hl' & Hit' & Hun). split; [rewrite Hun; [done|left]|]. left. eauto.
      + destruct (decide (k0 = k)) as [->|Hne].
        * destruct (Hcut _ _ _ _ _ _ Hit) as (pl0 & p0 & pr0 & Eo & Hl0 & Hun & Hnew). injection Eo as Eo. apply app_inj_1 in Eo as [<- Eo]; [|lia]. injection Eo as <- <-. split; [rewrite Hun; [done|left]|]. right.
          split; [apply lookup_delete|]. intros HR. exists L, pl. split; [done|]. apply Hnew. destruct L; [|done]. by destruct R.
        * assert (Hf : free [k0] (EK a, Kv hash (L ++ (k, v) :: R), a :: pl ++ p :: pr)).
          { intros k1 Hk1 ->%elem_of_list_singleton. unfold ikeys in Hk1. cbn in Hk1. rewrite fmap_app in Hk1. cbn in Hk1. rewrite elem_of_app, elem_of_cons in Hk1. tauto. }
          destruct (proj1 Hk _ Hit Hf) as [Hit' Hun]. split; [rewrite Hun; [done|]; cbn; right; apply elem_of_app; right; left|]. left. eauto.
    - assert (Hp := gone_pair _ _ _ _ _ _ _ _ Hg Hmk Ep). split; [rewrite Hfr; [done|by eapply lookup_lt_Some|done]|]. right. split; [by apply lookup_delete_None; right|]. intros HR. destruct (Hit HR) as (L & pl & Hl & Hi).
      destruct (decide (k0 ∈ L.*1)) as [HkL|HkL].
      + destruct (cut_left _ _ _ _ _ _ _ _ _ _ _ Hcut Hi Hl HR HkL) as (L' & pl' & Hl' & Hit' & Hun). eauto.
      + assert (Hf : free [k0] (EK a, Kv hash (L ++ R), a :: pl ++ pr)). { intros k1 Hk1 ->%elem_of_list_singleton. unfold ikeys in Hk1. cbn in Hk1. rewrite fmap_app, elem_of_app in Hk1. tauto. }
        destruct (proj1 Hk _ Hi Hf) as [Hit' _]. eauto.
  Qed.
End more.

Section visit.
  Context {T W : Type} (hf : key → N) (Hhf : ∀ k, is_bytes k → (hf k < 2 ^ 64)%N).
  Context (vis : key * T → W → list (kv_call key T) * (bool * W)) (done_ : W → key → Prop) (Hv : erases_handed vis done_).
  Implicit Types (h : heap T) (ch : list (option (entry T))) (es : list (item T)) (m : gmap key T) (t : hamt T).

  Lemma fed_app l1 l2 w : fed vis (l1 ++ l2) w = ((fed vis l1 w).1 ++ (fed vis l2 (fed vis l1 w).2).1, (fed vis l2 (fed vis l1 w).2).2).
  Proof using. revert w. induction l1 as [|d l1 IH]; intros w; cbn [fed app fst snd]; [by destruct (fed vis l2 w)|]. by rewrite IH. Qed.
  Lemma fed_done l : ∀ w k, done_ (fed vis l w).2 k → k ∈ l.*1 ∨ done_ w k.
  Proof using Hv.
    induction l as [|d l IH]; intros w k; cbn [fed snd]; [by right|]. intros [Hk|Hk]%IH; [left; by right|]. apply (Hv d w) in Hk as [->|Hk]; [left; left|by right].
  Qed.
  Lemma upds_app m l1 l2 : upds m (l1 ++ l2) = upds (upds m l1) l2.
  Proof using. unfold upds. by rewrite map_app, concat_app, foldl_app. Qed.
  Lemma upds_cons m d os tr : upds m ((d, os) :: tr) = upds (foldl upd m os) tr.
  Proof using. unfold upds. cbn. by rewrite foldl_app. Qed.

  Lemma act_ok a hash k v R p pr os : ∀ h t es m, good hf h t es m → stays h es m a hash k v R p pr → NoDup ((k, v) :: R).*1 → (∀ o, o ∈ os → ∃ k0, o = VRemove k0 ∧ is_bytes k0 ∧ k0 ∉ R.*1) →
    ∃ h' t' es' E, act_all (hh_act hf) os h = Ok (tt, h') ∧ good hf h' t' es' (foldl upd m os) ∧ stays h' es' (foldl upd m os) a hash k v R p pr ∧ keeps E h es h' es' ∧ ∀ k0, k0 ∈ E → VRemove k0 ∈ os.
  Proof using Hhf.
    induction os as [|o os IH]; intros h t es m Hg Hst Hn Hos.
    - exists h, t, es, []. split_and!; [done|done|done|apply keeps_refl|]. by intros k0 ?%elem_of_nil.
    - destruct (Hos o) as (k0 & -> & Hb & Hk0); [left|]. cbn [act_all hh_act foldl upd]. destruct (erase_any hf Hhf h t es m k0 Hg Hb) as (b & h1 & t1 & es1 & Ee & Hg1 & Hk1 & Hc1 & Hf1).
      assert (Hst1 := stays_erase hf h t es m a hash k v R p pr k0 b h1 t1 es1 Hg Hst Hn Hk0 Hg1 Hk1 Hc1 Hf1 Ee).
      destruct (IH h1 t1 es1 (delete k0 m) Hg1 Hst1 Hn) as (h2 & t2 & es2 & E2 & Ea & Hg2 & Hst2 & Hk2 & HE2); [intros o Ho; apply Hos; by right|].
      rewrite (bind_Ok (a := tt) (s' := h1)) by (by rewrite (bind_Ok Ee)). exists h2, t2, es2, ([k0] ++ E2). split_and!; [done|done|done|by apply (keeps_trans _ _ _ _ h1 es1)|].
      intros k1 [->%elem_of_list_singleton|Hx]%elem_of_app; [left|right; by apply HE2].
  Qed.

  Lemma v_chain_ok2 a hash : ∀ R g h t es m pr w, good hf h t es m → (R ≠ [] → ∃ L pl, length pl = length L ∧ (EK a, Kv hash (L ++ R), a :: pl ++ pr) ∈ es) → length pr = length R → length R ≤ g → NoDup R.*1 → (∀ k, k ∈ R.*1 → ¬ done_ w k) → (∀ k, k ∈ R.*1 ∨ done_ w k → is_bytes k) →
    ∃ h' t' es' E, v_chain hf vis g (head pr) w h = Ok ((fed vis R w).1, (true, (fed vis R w).2), h') ∧ good hf h' t' es' (upds m (fed vis R w).1) ∧ keeps E h es h' es' ∧ ∀ k, k ∈ E → k ∈ R.*1 ∨ done_ w k.
  Proof using Hhf Hv.
    induction R as [|[k v] R IH]; intros g h t es m pr w Hg Hit Hpr Hgl Hn Hdn Hby.
    - destruct pr; [|done]. exists h, t, es, []. split_and!; [by destruct g|done|apply keeps_refl|]. by intros k ?%elem_of_nil.
    - destruct pr as [|p pr]; [done|]. destruct g as [|g]; [cbn in Hgl; lia|]. destruct (Hit ltac:(done)) as (L & pl & Hpl & Hi0). clear Hit. assert (Hg0 := Hg). destruct Hg as (Hr & Hno & _).
      destruct (proj1 (rep_item h) _ _ _ Hr _ Hi0) as (r & o & Hi & Ho & _). cbn in Hi. inversion Hi as [? ? hd ? ps Hne Ea Hc|]; subst.
      unfold chain in Hc. apply (seg_app h hd L ((k, v) :: R) pl (p :: pr) None) in Hc as (mid & _ & Hc); [|done]. cbn [seg_to] in Hc. destruct Hc as (-> & nx & Ep & Hc). assert (Hnx : nx = head pr). { rewrite (seg_head _ _ _ _ _ Hc). by destruct pr. } subst nx.
      assert (Hst : stays h es m a hash k v R p pr). { split; [done|]. left. eauto. }
      cbn [head v_chain]. rewrite (bind_Ok (rdP_eq _ _ _ _ _ Ep)). cbn [fst snd]. destruct (Hv (k, v) w) as (V1 & V2 & V3). cbn [fst] in V2, V3. assert (Hn0 := Hn). cbn in Hn. apply NoDup_cons in Hn as [HkR HnR].
      destruct (act_ok a hash k v R p pr (vis (k, v) w).1 h t es m Hg0 Hst Hn0) as (h1 & t1 & es1 & E1 & Eact & Hg1 & [Ep1 Hst1] & Hk1 & HE1).
      { intros o1 Ho1. destruct (V2 o1 Ho1) as (k0 & -> & Hk0). exists k0. split_and!; [done|apply Hby; destruct Hk0 as [->|Hk0]; [left; left|by right]|]. destruct Hk0 as [->|Hk0]; [done|]. intros Hx. apply (Hdn k0); [by right|done]. }
      rewrite (bind_Ok Eact). rewrite V1. cbn [negb]. rewrite (bind_Ok (rdP_eq _ _ _ _ _ Ep1)). cbn [fst snd].
      destruct (IH g h1 t1 es1 (foldl upd m (vis (k, v) w).1) pr (vis (k, v) w).2.2 Hg1) as (h2 & t2 & es2 & E2 & Ev & Hg2 & Hk2 & HE2).
      + intros HR. destruct Hst1 as [(L1 & pl1 & Hl1 & Hi1)|[_ Hi1]]; [|by apply Hi1]. exists (L1 ++ [(k, v)]), (pl1 ++ [p]). split; [rewrite !app_length; cbn; lia|]. rewrite <-!app_assoc. cbn [app]. done.
      + cbn in Hpr. lia.
      + cbn in Hgl. lia.
      + done.
      + intros k1 Hk1' [->|Hd]%V3; [done|]. apply (Hdn k1); [by right|done].
      + intros k1 [Hx|[->|Hx]%V3]; apply Hby; [left; by right|left; left|by right].
      + rewrite (bind_Ok Ev). cbn [fst snd fed]. rewrite upds_cons. exists h2, t2, es2, (E1 ++ E2). split_and!; [done|done|by apply (keeps_trans _ _ _ _ h1 es1)|].
        intros k1 [Hx|Hx]%elem_of_app.
        * apply HE1 in Hx. apply V2 in Hx as (k2 & [= <-] & [->|Hd]); [left; left|by right].
        * apply HE2 in Hx as [Hx|Hx]; [left; by right|]. apply V3 in Hx as [->|Hx]; [left; left|by right].
  Qed.

  Lemma v_node_ok2 g : ∀ f h t es m b pos bm ch r w, good hf h t es m → rep_e h (EB b) (Bm pos bm ch) r → r ⊆ es → fits f ch → NoDup (flat ch).*1 → (∀ k, k ∈ (flat ch).*1 → ¬ done_ w k) → (∀ k, k ∈ (flat ch).*1 ∨ done_ w k → is_bytes k) → length (flat ch) ≤ g →
    ∃ h' t' es' E, v_node hf vis f g b w h = Ok ((fed vis (flat ch) w).1, (fed vis (flat ch) w).2, h') ∧ good hf h' t' es' (upds m (fed vis (flat ch) w).1) ∧ keeps E h es h' es' ∧ ∀ k, k ∈ E → k ∈ (flat ch).*1 ∨ done_ w k.
  Proof using Hhf Hv.
    induction f as [|f IH]; intros h t es m b pos bm ch r w Hg Hr Hsub Hfi Hnk Hdn Hby Hgl; [done|]. inversion Hr as [|? ? ? c sl ? ess Eb Ec Hs]; subst. cbn [v_node]. rewrite (bind_Ok (rdB_eq _ _ _ _ _ Eb)). cbn [fst snd]. rewrite (bind_Ok (rdA_eq _ _ _ Ec)).
    assert (HG : ∀ sl2 i ch ess h t es m w, good hf h t es m → rep_s h sl2 ch ess → concat ess ⊆ es → fits (S f) ch → NoDup (flat ch).*1 → (∀ k, k ∈ (flat ch).*1 → ¬ done_ w k) → (∀ k, k ∈ (flat ch).*1 ∨ done_ w k → is_bytes k) → length (flat ch) ≤ g →
      (∀ j e, sl2 !! j = Some (Some e) → ∃ l, h !! c = Some (OArr l) ∧ l !! (i + j) = Some (Some e)) →
      ∃ h' t' es' E, v_slots hf vis (v_node hf vis f g) g c (length sl2) i w h = Ok ((fed vis (flat ch) w).1, (fed vis (flat ch) w).2, h') ∧ good hf h' t' es' (upds m (fed vis (flat ch) w).1) ∧ keeps E h es h' es' ∧ ∀ k, k ∈ E → k ∈ (flat ch).*1 ∨ done_ w k).
    2: { apply (HG sl 0 ch ess h t es m); try done; [intros it Hit; apply Hsub; by right|]. intros j e Ej. by exists sl. }
    clear Hg Hr Hsub Hfi Hnk Hdn Hby Hgl Eb Ec Hs h t es m ch ess sl pos bm b w. induction sl2 as [|oe sl2 IHl]; intros i ch ess h t es m w Hg Hs Hsub Hfi Hnk Hdn Hby Hgl Hsl.
    { inversion Hs; subst. exists h, t, es, []. split_and!; [done|done|apply keeps_refl|]. by intros k ?%elem_of_nil. }
    inversion Hs as [| |e u es0 ? ch' ess' He Hs']; subst; [by apply Forall_cons in Hfi as [? _]|]. cbn [flat concat] in *. apply Forall_cons in Hfi as [Hfe Hfi]. cbn [length v_slots].
    destruct (Hsl 0 e eq_refl) as (l & Ec & Ei). rewrite Nat.add_0_r in Ei. rewrite (bind_Ok (slot_eq _ _ _ _ _ Ec Ei)).
    rewrite fmap_app in Hnk, Hdn, Hby |- *. apply NoDup_app in Hnk as (Hnk1 & Hnkd & Hnk2). rewrite app_length in Hgl. rewrite fed_app. cbn [fst snd]. rewrite upds_app. set (w1 := (fed vis (eflat u) w).2).
    (* the rest, after the first entry *)
    assert (HR : ∀ h1 t1 es1 E1, good hf h1 t1 es1 (upds m (fed vis (eflat u) w).1) → keeps E1 h es h1 es1 → (∀ k, k ∈ E1 → k ∈ (eflat u).*1 ∨ done_ w k) →
      ∃ h' t' es' E, v_slots hf vis (v_node hf vis f g) g c (length sl2) (S i) w1 h1 = Ok ((fed vis (flat ch') w1).1, (fed vis (flat ch') w1).2, h') ∧ good hf h' t' es' (upds (upds m (fed vis (eflat u) w).1) (fed vis (flat ch') w1).1) ∧ keeps E h es h' es' ∧
        ∀ k, k ∈ E → k ∈ (eflat u).*1 ++ (flat ch').*1 ∨ done_ w k).
    { intros h1 t1 es1 E1 Hg1 Hk1 HE1.
      assert (Hrest : ∀ it, it ∈ concat ess' → free E1 it). { intros it Hit k Hk Hp. apply (proj2 (rep_keys h) _ _ _ Hs' it k Hit) in Hk. apply HE1 in Hp as [Hp|Hp]; [by apply (Hnkd k Hp)|]. apply (Hdn k); [apply elem_of_app; by right|done]. }
      destruct (keeps_sub _ _ _ _ _ (concat ess') Hk1) as [Q1 Q2]; [intros it Hit; apply Hsub, elem_of_app; by right|done|].
      destruct (IHl (S i) ch' ess' h1 t1 es1 (upds m (fed vis (eflat u) w).1) w1 Hg1) as (h' & t' & es' & E' & Ev & Hg' & Hk' & HE'); try done; [by eapply rep_s_frame| | |lia| |].
      - intros k Hk Hd. apply fed_done in Hd as [Hd|Hd]; [by apply (Hnkd k Hd)|]. apply (Hdn k); [apply elem_of_app; by right|done].
      - intros k [Hx|[Hx|Hx]%fed_done]; apply Hby; rewrite elem_of_app; tauto.
      - intros j e' Ej. destruct (Hsl (S j) e' Ej) as (l' & Ec' & Ej'). destruct (rep_s_lookup_l _ _ _ _ _ _ Hs' Ej) as (u' & es' & _ & Ee & He'). destruct (rep_e_head _ _ _ _ He') as (o' & r' & ->).
        assert (Hin : (e', u', o') ∈ concat ess') by (apply elem_concat; eexists; split; [by eapply elem_of_list_lookup_2|left]).
        replace (S i + j) with (i + S j) by lia. apply (proj2 Hk1 c l' (i + S j) e' u' o'); [done|done|apply Hsub, elem_of_app; by right|by apply Hrest].
      - exists h', t', es', (E1 ++ E'). split_and!; [done|done|by apply (keeps_trans _ _ _ _ h1 es1)|]. intros k. rewrite !elem_of_app. intros [Hx|Hx].
        + apply HE1 in Hx as [Hx|Hx]; [left; by left|by right].
        + apply HE' in Hx as [Hx|Hx]; [left; by right|]. apply fed_done in Hx as [Hx|Hx]; [left; by left|by right]. }
    inversion He as [a hash hd kvs ps Hne Ea Hc|b' bm' pos' c' sl' chb essb Eb' Ec' Hsb]; subst.
    - rewrite (bind_Ok (rdK_eq _ _ _ _ Ea)). cbn [fst snd eflat] in *. assert (Hhd : hd = head ps). { unfold chain in Hc. rewrite (seg_head _ _ _ _ _ Hc). by destruct ps. }
      destruct (v_chain_ok2 a hash kvs g h t es m ps w Hg) as (h1 & t1 & es1 & E1 & Ev & Hg1 & Hk1 & HE1); [|by rewrite (chain_len _ _ _ _ Hc)|lia|done| | |].
      { intros _. exists [], []. split; [done|]. apply Hsub. apply elem_of_app. left. left. }
      { intros k Hk. apply Hdn, elem_of_app. by left. }
      { intros k Hk. apply Hby. rewrite elem_of_app. tauto. }
      rewrite Hhd. rewrite (bind_Ok Ev). cbn [fst snd negb]. destruct (HR h1 t1 es1 E1 Hg1 Hk1 HE1) as (h' & t' & es' & E' & Ev' & Hg' & Hk' & HE'). rewrite (bind_Ok Ev'). by exists h', t', es', E'.
    - destruct (IH h t es m b' pos' bm' chb _ w Hg He) as (h1 & t1 & es1 & E1 & Ev & Hg1 & Hk1 & HE1).
      + intros it Hit. apply Hsub, elem_of_app. by left.
      + done.
      + by rewrite <-(eflat_at pos' bm').
      + intros k Hk. apply Hdn, elem_of_app. left. by rewrite eflat_at.
      + intros k Hk. apply Hby. rewrite elem_of_app, eflat_at. tauto.
      + rewrite <-(eflat_at pos' bm'). lia.
      + rewrite (bind_Ok Ev). cbn [fst snd]. clear Hnk1. rewrite !(eflat_at pos' bm') in *. destruct (HR h1 t1 es1 E1 Hg1 Hk1 HE1) as (h' & t' & es' & E' & Ev' & Hg' & Hk' & HE'). unfold w1 in Ev'. rewrite (bind_Ok Ev'). by exists h', t', es', E'.
  Qed.
End visit.
