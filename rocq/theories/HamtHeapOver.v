(** A Traversal whose visitor overwrites values. *)
From Verif Require Import Base History HamtModel HamtSpec HamtProofs HamtProps VisitEraseModel HamtHeapModel HamtHeapRep HamtHeapPlace HamtHeapIns HamtHeapErase HamtHeapErase2 HamtHeapSim HamtHeapVisit HamtVisitSpec HamtHeapVisit2.
Open Scope nat_scope.

Section shape.
  Context {T : Type}.
  Implicit Types (h : heap T) (ch : list (option (entry T))) (es : list (item T)).
  (** the same objects, but for the values in pairs *)
  Definition shape h h' : Prop := ∀ x o, h !! x = Some o → match o with OPair k _ n => ∃ v, h' !! x = Some (OPair k v n) | _ => h' !! x = Some o end.
  Lemma shape_refl h : shape h h.
  Proof. intros x [| | |k v n] E; eauto. Qed.
  Lemma shape_trans h1 h2 h3 : shape h1 h2 → shape h2 h3 → shape h1 h3.
  Proof. intros A B x o E. apply A in E. destruct o as [| | |k v n]; [by apply B in E..|]. destruct E as [v' E]. by apply B in E. Qed.
  Lemma shape_chain h h' kvs : ∀ hd ps, shape h h' → chain h hd kvs ps → ∃ kvs', chain h' hd kvs' ps ∧ kvs'.*1 = kvs.*1.
  Proof.
    unfold chain. induction kvs as [|[k v] kvs IH]; intros hd [|p ps] Hs; cbn [seg_to]; try done; [by exists []|]. intros (-> & nx & E & Hc). apply Hs in E as [v' E]. destruct (IH nx ps Hs Hc) as (kvs' & Hc' & Hk). exists ((k, v') :: kvs'). split; [|cbn; by f_equal]. cbn [seg_to]. eauto.
  Qed.
  Lemma shape_rep h h' : shape h h' → (∀ e u es, rep_e h e u es → ∃ u' es', rep_e h' e u' es' ∧ owns es' = owns es) ∧ (∀ sl ch ess, rep_s h sl ch ess → ∃ ch' ess', rep_s h' sl ch' ess' ∧ own_all ess' = own_all ess).
  Proof.
    intros Hs. apply rep_ind.
    - intros a hash hd kvs ps Hne Ea Hc. destruct (shape_chain h h' kvs hd ps Hs Hc) as (kvs' & Hc' & Hk). exists (Kv hash kvs'). eexists. split; [econstructor; [|by apply (Hs _ _ Ea)|done]|done]. intros ->. by destruct kvs.
    - intros a bm pos c sl ch ess Ea Ec _ (ch' & ess' & Hs' & Ho). exists (Bm pos bm ch'). eexists. split; [econstructor; [by apply (Hs _ _ Ea)|by apply (Hs _ _ Ec)|done]|]. rewrite !owns_cons. f_equal. exact Ho.
    - exists [], []. split; [constructor|done].
    - intros sl ch ess _ (ch' & ess' & Hs' & Ho). exists (None :: ch'), ([] :: ess'). split; [by constructor|exact Ho].
    - intros e u es sl ch ess _ (u' & es' & He & Hoe) _ (ch' & ess' & Hs' & Ho). exists (Some u' :: ch'), (es' :: ess'). split; [by constructor|]. by rewrite !own_all_cons, Hoe, Ho.
  Qed.
  Lemma chain_det h kvs : ∀ hd ps kvs' ps', chain h hd kvs ps → chain h hd kvs' ps' → kvs = kvs' ∧ ps = ps'.
  Proof.
    unfold chain. induction kvs as [|[k v] kvs IH]; intros hd [|p ps] [|[k' v'] kvs'] [|p' ps']; cbn [seg_to]; try done; [by intros -> (? & _)|by intros (-> & _)|].
    intros (-> & nx & E & Hc) ([= <-] & nx' & E' & Hc'). rewrite E in E'. injection E' as <- <- <-. by destruct (IH _ _ _ _ Hc Hc') as [-> ->].
  Qed.
  Lemma rep_det h : (∀ e u es, rep_e h e u es → ∀ u' es', rep_e h e u' es' → u = u' ∧ es = es') ∧ (∀ sl ch ess, rep_s h sl ch ess → ∀ ch' ess', rep_s h sl ch' ess' → ch = ch' ∧ ess = ess').
  Proof.
    apply rep_ind.
    - intros a hash hd kvs ps Hne Ea Hc u' es' H. inversion H as [? ? hd1 ? ? ? Ea1 Hc1|]; subst. rewrite Ea in Ea1. injection Ea1 as <- <-. by destruct (chain_det _ _ _ _ _ _ Hc Hc1) as [-> ->].
    - intros a bm pos c sl ch ess Ea Ec _ IH u' es' H. inversion H as [|? ? ? ? ? ? ? Ea1 Ec1 Hs1]; subst. rewrite Ea in Ea1. injection Ea1 as <- <- <-. rewrite Ec in Ec1. injection Ec1 as <-. by destruct (IH _ _ Hs1) as [-> ->].
    - intros ch' ess' H. by inversion H.
    - intros sl ch ess _ IH ch' ess' H. inversion H; subst. by edestruct IH as [-> ->].
    - intros e u es sl ch ess _ IHe _ IHs ch' ess' H. inversion H; subst. edestruct IHe as [-> ->]; [done|]. by edestruct IHs as [-> ->].
  Qed.
  (** overwriting writes to one pair *)
  Lemma h_insert_present f : ∀ d hash kv k v b pos bm ch es h v0, rep_e h (EB b) (Bm pos bm ch) es → NoDup (owns es) → h !! kv = Some (OPair k v None) → bn_find f d hash k bm ch = Ok (Some v0) →
    ∃ x nx, h !! x = Some (OPair k v0 nx) ∧ x ∈ owns es ∧ h_insert f d hash kv b h = Ok (tt, <[x := OPair k v nx]> h).
  Proof.
    induction f as [|f IH]; intros d hash kv k v b pos bm ch es h v0 Hr Hn Ekv E; [done|].
    inversion Hr as [|? ? ? c sl ? ess Eb Ec Hs]; subst. change (owns ((EB b, Bm pos bm ch, [b; c]) :: concat ess)) with (b :: c :: own_all ess) in *.
    rewrite !NoDup_cons in Hn. destruct Hn as (_ & _ & Hn). cbn [h_insert bn_find] in *. rewrite (bind_Ok (rdB_eq _ _ _ _ _ Eb)). cbn [fst snd]. set (ps := posf hash d) in *. clearbody ps. destruct (_ =? 0)%N; [done|].
    rewrite (bind_Ok (h_index_eq _ _ _ _ _ _ Eb)). set (i := index bm _) in *. clearbody i. destruct (ch !! i) as [[t|]|] eqn:Ei; [|done|done]. destruct (rep_s_lookup _ _ _ _ _ _ Hs Ei) as (e & es0 & Esl & Eess & He). rewrite (bind_Ok (slot_eq _ _ _ _ _ Ec Esl)).
    assert (Hnes : NoDup (owns es0)). { rewrite (own_all_at _ _ _ Eess) in Hn. apply NoDup_app in Hn as [Hn _]. exact Hn. }
    assert (Hin : ∀ x, x ∈ owns es0 → x ∈ b :: c :: own_all ess) by (intros x Hx; do 2 right; by apply (own_at _ _ _ _ Eess)).
    inversion He as [a hash' hd kvs' ps' Hne Ea Hc'|b' bm0 pos0 c0 sl0 ch0 ess0 Eb0 Ec0 Hs0]; subst e t es0.
    2: { destruct (IH (S d) hash kv k v b' pos0 bm0 ch0 _ h v0 He Hnes Ekv E) as (x & nx & Ex & Hx & Ei'). exists x, nx. split_and!; [done|by apply Hin|done]. }
    rewrite (bind_Ok (rdK_eq _ _ _ _ Ea)). cbn [fst snd]. destruct (N.eqb hash' hash); cbn [negb] in E; [|done]. rewrite (bind_Ok (rdP_eq _ _ _ _ _ Ekv)). cbn [fst snd].
    assert (Hown0 : owns [(EK a, Kv hash' kvs', a :: ps')] = a :: ps') by (unfold owns; cbn; by rewrite app_nil_r). rewrite Hown0 in Hin, Hnes. apply NoDup_cons in Hnes as [_ Hnps].
    pose proof (search_spec h k kvs' hd ps' Hc' Hnps) as Hfind. injection E as E. rewrite E in Hfind.
    destruct Hfind as (L & R & pl & q & pr & nx & -> & -> & HL & HkL & Eq & Hcr & Hse). rewrite (bind_Ok Hse). rewrite (bind_Ok (rdP_eq _ _ _ _ _ Eq)). cbn [fst snd]. rewrite put_eq. exists q, nx. split_and!; [done| |done]. apply Hin. right. apply elem_of_app. right. left.
  Qed.
End shape.

Section over.
  Context {T W : Type} (hf : key → N) (Hhf : ∀ k, is_bytes k → (hf k < 2 ^ 64)%N).
  Context (vis : key * T → W → list (kv_call key T) * (bool * W)) (there : key → Prop) (Hv : overwrites vis there).
  (** the heap, its items and the map at the start *)
  Context (h0 : heap T) (es0 : list (item T)).
  Implicit Types (h : heap T) (ch : list (option (entry T))) (es : list (item T)) (m : gmap key T) (t : hamt T).
  Definition at_ h m : Prop := ∃ t es, good hf h t es m ∧ owns es = owns es0 ∧ shape h0 h ∧ ∀ k, there k → is_Some (m !! k).

  Lemma pair_val h t es m p k v nx : good hf h t es m → p ∈ owns es → h !! p = Some (OPair k v nx) → m !! k = Some v.
  Proof using.
    intros Hg (it & Hit & Hp)%elem_owns Ep. assert (Hg0 := Hg). destruct Hg as (Hr & _). destruct (proj1 (rep_item h) _ _ _ Hr it Hit) as (r & _ & Hi & _). destruct it as [[e u] q]. cbn in Hi, Hp.
    inversion Hi as [a hash hd kvs ps Hne Ea Hc|b' bm' pos' c' sl' chb essb Eb' Ec' Hsb]; subst.
    - apply elem_of_cons in Hp as [->|Hp]; [congruence|]. assert ((k, v) ∈ kvs) as Hin.
      { clear -Hc Hp Ep. unfold chain in Hc. revert hd ps Hc Hp. induction kvs as [|[k1 v1] kvs IH]; intros hd [|p1 ps]; cbn [seg_to]; try done; [by intros _ ?%elem_of_nil|]. intros (-> & nx1 & E1 & Hc) [->|Hp]%elem_of_cons; [|right; by apply (IH _ _ Hc Hp)].
        rewrite E1 in Ep. injection Ep as -> -> ->. left. }
      by eapply (good_key hf h t es m (EK a, Kv hash kvs, a :: ps)).
    - apply elem_of_cons in Hp as [->|Hp]; [congruence|]. apply elem_of_list_singleton in Hp as ->. congruence.
  Qed.

  Lemma over_step h m k v : at_ h m → there k → ∃ h', hh_Insert hf k v h = Ok (tt, h') ∧ at_ h' (<[k := v]> m).
  Proof using Hhf.
    intros (t & es & Hg & Ho & Hsh & Hth) Hk. destruct Hg as (Hr & Hn & Hh & Hb). destruct (Hth k Hk) as [v0 Hmk]. assert (Hkb : is_bytes k) by (apply Hb; by exists v0).
    destruct (step_ok (W := unit) hf Hhf (HGet k) t m Hkb Hh) as (a & t1 & Eg & Ha & _). cbn [hm_step hm_answer] in *. unfold hm_Get in Eg. destruct (bn_find levels 0 (hf k) k t.1 t.2) as [r| |] eqn:Ef; try done. cbn [bindr] in Eg. injection Eg as <- <-. injection Ha as ->. rewrite Hmk in Ef.
    destruct (step_ok (W := unit) hf Hhf (HInsert k v) t m Hkb Hh) as (a & t' & Ei & _ & Hh'). cbn [hm_step hm_after] in *. destruct (hm_Insert hf k v t) as [t2| |] eqn:E1; try done. cbn [bindr] in Ei. injection Ei as _ <-.
    destruct (ins_sim hf h t t2 k v) as (h' & E' & es' & Hr' & Hn'); [by exists es|done|]. exists h'. split; [done|].
    unfold hh_Insert in E'. rewrite (bind_Ok (alloc_eq _ _)) in E'. set (h1 := h ++ [OPair k v None]) in *. assert (Hlt : ∀ x, x ∈ owns es → x < length h) by (intros x; by apply (rep_e_lt _ _ _ _ _ Hr)).
    assert (S1 : ∀ x, x < length h → h1 !! x = h !! x) by (intros x Hx; by apply lookup_app_l). assert (Hr1 : rep_e h1 (EB 0) (Bm 0 t.1 t.2) es) by (eapply rep_e_frame; [exact Hr|]; intros x Hx; by apply S1, Hlt).
    destruct (h_insert_present levels 0 (hf k) (length h) k v 0 0 t.1 t.2 es h1 v0 Hr1 Hn) as (x & nx & Ex & Hx & E2); [by apply list_lookup_middle|done|]. rewrite E2 in E'. injection E' as <-.
    assert (Hxl := Hlt _ Hx). rewrite S1 in Ex by done.
    assert (Hs' : shape h (<[x := OPair k v nx]> h1)).
    { intros y o Ey. assert (Hy := lookup_lt_Some _ _ _ Ey). destruct (decide (x = y)) as [<-|Hne].
      - rewrite Ex in Ey. injection Ey as <-. exists v. apply list_lookup_insert. unfold h1. rewrite app_length. lia.
      - rewrite list_lookup_insert_ne by done. rewrite S1 by done. destruct o; eauto. }
    exists t2, es'. split_and!.
    - split_and!; [done|done|done|]. intros k' [v' Hk']. destruct (decide (k = k')) as [<-|Hne]; [done|]. rewrite lookup_insert_ne in Hk' by done. apply Hb. by exists v'.
    - destruct (proj1 (shape_rep _ _ Hs') _ _ _ Hr) as (u & es2 & Hr2 & Ho2). destruct (proj1 (rep_det _) _ _ _ Hr' _ _ Hr2) as [_ ->]. by rewrite Ho2.
    - by eapply shape_trans.
    - intros k' Hk'. destruct (decide (k = k')) as [<-|Hne]; [rewrite lookup_insert; eauto|]. rewrite lookup_insert_ne by done. by apply Hth.
  Qed.
  Lemma over_all os : ∀ h m, at_ h m → (∀ o, o ∈ os → ∃ z k v, o = VInsert z k v ∧ there k) → ∃ h', act_all (hh_act hf) os h = Ok (tt, h') ∧ at_ h' (foldl upd m os).
  Proof using Hhf.
    induction os as [|o os IH]; intros h m Ha Hos; [by exists h|]. destruct (Hos o) as (z & k & v & -> & Hk); [left|]. cbn [act_all hh_act foldl upd]. destruct (over_step h m k v Ha Hk) as (h1 & E1 & Ha1). rewrite (bind_Ok E1). apply IH; [done|]. intros o Ho. apply Hos. by right.
  Qed.

  Lemma fed_now_app l1 l2 m w : (∀ k, k ∈ l1 → there k) → (∀ k, there k → is_Some (m !! k)) → fed_now vis (l1 ++ l2) m w = let r := fed_now vis l1 m w in let r' := fed_now vis l2 r.2.1 r.2.2 in (r.1 ++ r'.1, r'.2).
  Proof using Hv.
    revert m w. induction l1 as [|k l1 IH]; intros m w Hl Hm; cbn [app fed_now fst snd]; [by destruct (fed_now vis l2 m w)|]. destruct (Hm k) as [v Hk]; [apply Hl; left|]. rewrite Hk. cbn [fst snd]. rewrite IH; [done|intros k' Hk'; apply Hl; by right|].
    intros k' Hk'. apply Hm in Hk'. clear -Hv Hk'. destruct (Hv (k, v) w) as [_ Hos]. revert Hos. generalize (vis (k, v) w).1 as os. intros os. revert m Hk'. induction os as [|o os IH]; intros m Hk' Hos; [done|]. cbn [foldl]. apply IH; [|intros o' Ho'; apply Hos; by right].
    destruct (Hos o) as (z & k1 & v1 & -> & _); [left|]. cbn [upd]. destruct (decide (k1 = k')) as [->|Hne]; [rewrite lookup_insert; eauto|by rewrite lookup_insert_ne].
  Qed.

  Lemma v_chain_over kvs : ∀ g hd ps h m w, chain h0 hd kvs ps → ps ⊆ owns es0 → at_ h m → length kvs ≤ g → ∃ h', let r := fed_now vis kvs.*1 m w in v_chain hf vis g hd w h = Ok (r.1, (true, r.2.2), h') ∧ at_ h' r.2.1.
  Proof using Hhf Hv.
    unfold chain. induction kvs as [|[k v0] kvs IH]; intros g hd [|p ps] h m w; cbn [seg_to]; try done; [intros -> _ Ha _; exists h; by destruct g|]. intros (-> & nx & E0 & Hc) Hps Ha Hg. cbn in Hg. destruct g as [|g]; [lia|].
    assert (Hp : p ∈ owns es0) by (apply Hps; left). assert (Ha0 := Ha). destruct Ha as (t & es & Hgd & Ho & Hsh & Hth). apply Hsh in E0 as E0'. destruct E0' as [v E]. assert (Hmk : m !! k = Some v). { eapply pair_val; [exact Hgd|by rewrite Ho|exact E]. }
    cbn [v_chain fmap list_fmap fst fed_now]. rewrite (bind_Ok (rdP_eq _ _ _ _ _ E)). cbn [fst snd]. rewrite Hmk. destruct (Hv (k, v) w) as [V1 V2].
    destruct (over_all (vis (k, v) w).1 h m Ha0 V2) as (h1 & E1 & Ha1). rewrite (bind_Ok E1). rewrite V1. cbn [negb]. assert (Ha2 := Ha1). destruct Ha2 as (_ & _ & _ & _ & Hsh1 & _). apply Hsh1 in E0 as [v1 E2]. rewrite (bind_Ok (rdP_eq _ _ _ _ _ E2)). cbn [fst snd].
    destruct (IH g nx ps h1 (foldl upd m (vis (k, v) w).1) (vis (k, v) w).2.2 Hc) as (h2 & E3 & Ha3); [intros x Hx; apply Hps; by right|done|lia|]. rewrite (bind_Ok E3). by exists h2.
  Qed.

  Lemma v_node_over g : ∀ f h m b pos bm ch r w, rep_e h0 (EB b) (Bm pos bm ch) r → owns r ⊆ owns es0 → at_ h m → fits f ch → (∀ k, k ∈ (flat ch).*1 → there k) → length (flat ch) ≤ g →
    ∃ h', let r := fed_now vis (flat ch).*1 m w in v_node hf vis f g b w h = Ok (r.1, r.2.2, h') ∧ at_ h' r.2.1.
  Proof using Hhf Hv.
    induction f as [|f IH]; intros h m b pos bm ch r w Hr Hsub Ha Hfi Hth Hgl; [done|]. inversion Hr as [|? ? ? c sl ? ess Eb Ec Hs]; subst. cbn [v_node].
    assert (HA : ∀ h m, at_ h m → shape h0 h) by (intros h' m' (_ & _ & _ & _ & ? & _); done).
    rewrite (bind_Ok (rdB_eq _ _ _ _ _ (HA _ _ Ha _ _ Eb))). cbn [fst snd]. rewrite (bind_Ok (rdA_eq _ _ _ (HA _ _ Ha _ _ Ec))).
    assert (HG : ∀ sl2 i ch ess h m w, drop i sl = sl2 → rep_s h0 sl2 ch ess → own_all ess ⊆ owns es0 → at_ h m → fits (S f) ch → (∀ k, k ∈ (flat ch).*1 → there k) → length (flat ch) ≤ g →
      ∃ h', let r := fed_now vis (flat ch).*1 m w in v_slots hf vis (v_node hf vis f g) g c (length sl2) i w h = Ok (r.1, r.2.2, h') ∧ at_ h' r.2.1).
    2: { apply (HG sl 0 ch ess h m); try done. intros x Hx. apply Hsub. rewrite owns_cons. apply elem_of_app. by right. }
    clear Hr Hsub Ha Hfi Hth Hgl Eb Hs h m ch ess pos bm b w. induction sl2 as [|oe sl2 IHl]; intros i ch ess h m w Hd Hs Hsub Ha Hfi Hth Hgl.
    { inversion Hs; subst. by exists h. }
    assert (Hi : sl !! i = Some oe) by (rewrite <-(Nat.add_0_r i), <-lookup_drop, Hd; done). assert (Hd2 : drop (S i) sl = sl2) by (replace (S i) with (i + 1) by lia; rewrite <-drop_drop, Hd; done). clear Hd.
    inversion Hs as [| |e u es1 ? ch' ess' He Hs']; subst oe ch ess; [by apply Forall_cons in Hfi as [? _]|]. subst sl0. cbn [flat] in *. apply Forall_cons in Hfi as [Hfe Hfi]. cbn [length v_slots]. rewrite (bind_Ok (slot_eq _ _ _ _ _ (HA _ _ Ha _ _ Ec) Hi)).
    rewrite fmap_app in Hth |- *. rewrite app_length in Hgl. rewrite own_all_cons in Hsub. assert (Hm : ∀ k, there k → is_Some (m !! k)) by (destruct Ha as (_ & _ & _ & _ & _ & ?); done). rewrite fed_now_app; [|intros k Hk; apply Hth, elem_of_app; by left|done]. cbn [fst snd]. set (r1 := fed_now vis (eflat u).*1 m w).
    assert (HR : ∀ h1, at_ h1 r1.2.1 → ∃ h', let r := fed_now vis (flat ch').*1 r1.2.1 r1.2.2 in v_slots hf vis (v_node hf vis f g) g c (length sl2) (S i) r1.2.2 h1 = Ok (r.1, r.2.2, h') ∧ at_ h' r.2.1).
    { intros h1 Ha1. apply (IHl (S i) ch' ess'); try done; [intros x Hx; apply Hsub, elem_of_app; by right|intros k Hk; apply Hth, elem_of_app; by right|lia]. }
    inversion He as [a hash hd kvs ps Hne Ea Hc|b' bm' pos' c' sl' chb essb Eb' Ec' Hsb]; subst e u es1.
    - rewrite (bind_Ok (rdK_eq _ _ _ _ (HA _ _ Ha _ _ Ea))). cbn [fst snd eflat] in *. destruct (v_chain_over kvs g hd ps h m w Hc) as (h1 & E1 & Ha1); [|done|lia|].
      { intros x Hx. apply Hsub, elem_of_app. left. unfold owns. cbn. rewrite app_nil_r. by right. }
      rewrite (bind_Ok E1). cbn [fst snd negb]. destruct (HR h1 Ha1) as (h' & Ev & Ha'). rewrite (bind_Ok Ev). by exists h'.
    - destruct (IH h m b' pos' bm' chb _ w He) as (h1 & E1 & Ha1).
      + intros x Hx. apply Hsub, elem_of_app. by left.
      + done.
      + done.
      + intros k Hk. apply Hth, elem_of_app. left. by rewrite eflat_at.
      + rewrite <-(eflat_at pos' bm'). lia.
      + rewrite (bind_Ok E1). cbn [fst snd]. unfold r1 in *. rewrite (eflat_at pos' bm') in *. destruct (HR h1 Ha1) as (h' & Ev & Ha'). rewrite (bind_Ok Ev). by exists h'.
  Qed.
End over.
