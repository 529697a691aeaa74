(** A Traversal whose visitor erases entries it is handed. *)
From Verif Require Import Base History HamtModel HamtSpec HamtProofs HamtProps VisitEraseModel VisitEraseSpec HamtHeapModel HamtHeapRep HamtHeapPlace HamtHeapIns HamtHeapErase HamtHeapErase2 HamtHeapSim.
Open Scope nat_scope.


Lemma concat_unique {A} (ls : list (list A)) l1 l2 x : NoDup (concat ls) → l1 ∈ ls → l2 ∈ ls → x ∈ l1 → x ∈ l2 → l1 = l2.
Proof.
  induction ls as [|l ls IH]; cbn [concat]; [by intros _ ?%elem_of_nil|]. intros (Hn1 & Hd & Hn2)%NoDup_app H1 H2 Hx1 Hx2. apply elem_of_cons in H1 as [->|H1], H2 as [->|H2]; [done| | |by apply IH].
  - exfalso. apply (Hd x Hx1). apply elem_concat. eauto.
  - exfalso. apply (Hd x Hx2). apply elem_concat. eauto.
Qed.

Section items.
  Context {T : Type}.
  Implicit Types (h : heap T) (ch : list (option (entry T))).
  Definition addr (e : eref) : nat := match e with EK a | EB a => a end.
  Lemma rep_item h : (∀ e t es, rep_e h e t es → ∀ it, it ∈ es → ∃ r o, rep_e h it.1.1 it.1.2 (it :: r) ∧ it.2 = addr it.1.1 :: o ∧ it :: r ⊆ es) ∧
    (∀ sl ch ess, rep_s h sl ch ess → ∀ it, it ∈ concat ess → ∃ r o, rep_e h it.1.1 it.1.2 (it :: r) ∧ it.2 = addr it.1.1 :: o ∧ it :: r ⊆ concat ess).
  Proof.
    apply rep_ind.
    - intros a hash hd kvs ps Hne Ea Hc it ->%elem_of_list_singleton. exists [], ps. split_and!; [by econstructor|done|done].
    - intros a bm pos c sl ch ess Ea Ec Hs IH it [->|Hit]%elem_of_cons; [exists (concat ess), [c]; split_and!; [by econstructor|done|done]|]. destruct (IH it Hit) as (r & o & ? & ? & Hsub). exists r, o. split_and!; [done|done|]. intros x Hx. right. by apply Hsub.
    - by intros it ?%elem_of_nil.
    - intros sl ch ess Hs IH it Hit. exact (IH it Hit).
    - intros e t es sl ch ess He IHe Hs IHs it. cbn [concat]. intros [Hit|Hit]%elem_of_app.
      + destruct (IHe it Hit) as (r & o & ? & ? & Hsub). exists r, o. split_and!; [done|done|]. intros x Hx. apply elem_of_app. left. by apply Hsub.
      + destruct (IHs it Hit) as (r & o & ? & ? & Hsub). exists r, o. split_and!; [done|done|]. intros x Hx. apply elem_of_app. right. by apply Hsub.
  Qed.

  (** items are told apart by their address: a list without two items that share an address *)
  Lemma item_unique h e t es e1 t1 o1 t2 o2 : rep_e h e t es → NoDup (owns es) → (e1, t1, o1) ∈ es → (e1, t2, o2) ∈ es → (e1, t1, o1) = (e1, t2, o2) :> item T.
  Proof.
    intros Hr Hn H1 H2. destruct (proj1 (rep_item h) _ _ _ Hr _ H1) as (_ & p1 & _ & E1 & _). destruct (proj1 (rep_item h) _ _ _ Hr _ H2) as (_ & p2 & _ & E2 & _). cbn in E1, E2.
    clear Hr. revert H1 H2 Hn. unfold owns. induction es as [|it es IH]; [by intros ?%elem_of_nil|]. cbn [fmap list_fmap concat]. intros H1 H2 (Hn1 & Hd & Hn2)%NoDup_app.
    apply elem_of_cons in H1 as [H1|H1], H2 as [H2|H2]; [congruence| | |by apply IH].
    - exfalso. subst it. apply (Hd (addr e1)); [cbn; rewrite E1; left|]. apply elem_concat. exists o2. split; [apply elem_of_list_fmap; by exists (e1, t2, o2)|]. rewrite E2. left.
    - exfalso. subst it. apply (Hd (addr e1)); [cbn; rewrite E2; left|]. apply elem_concat. exists o1. split; [apply elem_of_list_fmap; by exists (e1, t1, o1)|]. rewrite E1. left.
  Qed.

  (** from h to h', in which the keys E were erased *)
  Definition free (E : list key) (it : item T) : Prop := ∀ k, k ∈ ikeys it → k ∉ E.
  Definition keeps (E : list key) h (es : list (item T)) h' (es' : list (item T)) : Prop :=
    (∀ it, it ∈ es → free E it → it ∈ es' ∧ ∀ x, x ∈ it.2 → h' !! x = h !! x) ∧
    (∀ x l j e t o, h !! x = Some (OArr l) → l !! j = Some (Some e) → (e, t, o) ∈ es → free E (e, t, o) → ∃ l', h' !! x = Some (OArr l') ∧ l' !! j = Some (Some e)).
  Lemma keeps_refl h es : keeps [] h es h es.
  Proof. split; [done|eauto]. Qed.
  Lemma keeps_trans E1 E2 h es h1 es1 h2 es2 : keeps E1 h es h1 es1 → keeps E2 h1 es1 h2 es2 → keeps (E1 ++ E2) h es h2 es2.
  Proof.
    intros [A1 A2] [B1 B2]. assert (HF : ∀ it, free (E1 ++ E2) it → free E1 it ∧ free E2 it).
    { intros it Hf. split; intros k Hk Hx; apply (Hf k Hk), elem_of_app; [by left|by right]. }
    split.
    - intros it Hit [F1 F2]%HF. destruct (A1 it Hit F1) as [A3 A4]. destruct (B1 it A3 F2) as [B3 B4]. split; [done|]. intros x Hx. by rewrite B4, A4.
    - intros x l j e t o Ex Ej Hit [F1 F2]%HF. destruct (A2 _ _ _ _ _ _ Ex Ej Hit F1) as (l1 & Ex1 & Ej1). destruct (A1 _ Hit F1) as [A3 _]. by apply (B2 _ _ _ _ _ _ Ex1 Ej1 A3 F2).
  Qed.
  Lemma keeps_sub E h es h' es' l : keeps E h es h' es' → l ⊆ es → (∀ it, it ∈ l → free E it) → l ⊆ es' ∧ ∀ x, x ∈ owns l → h' !! x = h !! x.
  Proof. intros [A1 _] Hl Hf. split; [intros it Hit; by apply A1; [apply Hl|apply Hf]|]. intros x (it & Hit & Hx)%elem_owns. by apply (A1 it); [apply Hl|apply Hf|]. Qed.
End items.

Section visit.
  Context {T W : Type} (hf : key → N) (Hhf : ∀ k, is_bytes k → (hf k < 2 ^ 64)%N).
  Context (vis : key * T → W → list (kv_call key T) * (bool * W)) (pick : key * T → bool) (Hv : removing vis pick).
  Implicit Types (h : heap T) (ch : list (option (entry T))) (es : list (item T)) (m : gmap key T) (t : hamt T).
  Definition good h t es m : Prop := rep_e h (EB 0) (Bm 0 t.1 t.2) es ∧ NoDup (owns es) ∧ holds hf t m ∧ ∀ k, is_Some (m !! k) → is_bytes k.
  Definition picked (l : list (key * T)) : list key := (filter (λ d, pick d) l).*1.
  Fixpoint without (l : list (key * T)) m : gmap key T := match l with [] => m | d :: l => without l (if pick d then delete d.1 m else m) end.
  Definition seen (l : list (key * T)) : list (key * T * list (kv_call key T)) := map (λ d, (d, if pick d then [VRemove d.1] else [])) l.

  Lemma good_key h t es m it k v : good h t es m → it ∈ es → (k, v) ∈ eflat it.1.2 → m !! k = Some v.
  Proof using.
    intros (Hr & Hn & [Hw Hc] & _) Hit Hk. apply Hc. destruct it as [[e u] o]. cbn in Hk.
    assert (HX : (∀ e u es, rep_e h e u es → ∀ it, it ∈ es → (k, v) ∈ eflat it.1.2 → (k, v) ∈ eflat u) ∧ (∀ sl ch ess, rep_s h sl ch ess → ∀ it, it ∈ concat ess → (k, v) ∈ eflat it.1.2 → (k, v) ∈ flat ch)).
    { apply rep_ind.
      - by intros a hash hd kvs ps _ _ _ it ->%elem_of_list_singleton.
      - intros a bm pos c sl ch ess _ _ _ IH it [->|Hit']%elem_of_cons; [done|]. intros Hx. rewrite eflat_at. by eapply IH.
      - by intros it ?%elem_of_nil.
      - intros sl ch ess _ IH it Hit' Hx. by apply (IH it).
      - intros e' t' es' sl ch ess _ IHe _ IHs it Hx Hx'. cbn [concat] in Hx. cbn [flat]. apply elem_of_app. apply elem_of_app in Hx as [Hx|Hx]; [left; by eapply IHe|right; by eapply IHs]. }
    rewrite <-(eflat_at 0%N t.1). by apply (proj1 HX _ _ _ Hr _ Hit).
  Qed.

  Lemma erase_step h t es m k v : good h t es m → m !! k = Some v → ∃ h' t' es', hh_Erase hf k h = Ok (true, h') ∧ good h' t' es' (delete k m) ∧ keeps [k] h es h' es' ∧ cuts k h h' es es'.
  Proof using Hhf.
    intros (Hr & Hn & Hh & Hb) Hk. destruct (step_ok (W := unit) hf Hhf (HErase k) t m) as (a & t' & E & Ha & Hh'); [by apply Hb|done|]. cbn [hm_step hm_answer hm_after] in *. unfold hm_Erase in E.
    destruct (bn_erase levels 0 (hf k) k t.1 t.2) as [[[b1 bm'] ch']| |] eqn:E1; try done. cbn [bindr fst snd] in E. injection E as <- <-. injection Ha as ->. rewrite bool_decide_eq_true_2 in E1 by eauto.
    inversion Hr as [|? ? ? c sl ? ess Eb Ec Hs]; subst. assert (Hh0 := Hh). assert (Hh1 := Hh'). destruct Hh as [Hw _]. destruct Hh' as [Hw' _]. cbn [fst snd] in *.
    destruct (h_erase_hit levels 0 (hf k) k 0 0 t.1 c sl t.2 ess h bm' ch' Eb Ec Hs Hn ltac:(by eapply wf_full) ltac:(by eapply wf_full) ltac:(eapply wf_nodup; [exact Hw|done]) E1) as (h' & c' & sl' & ess' & Ee & Eb' & Ec' & Hs' & Hn' & _ & _ & _ & P1 & P2 & P3).
    assert (Hr' : rep_e h' (EB 0) (Bm 0 bm' ch') ((EB 0, Bm 0 bm' ch', [0; c']) :: concat ess')) by (by econstructor).
    assert (Hroot : k ∈ ikeys (EB 0, Bm 0 t.1 t.2, [0; c])). { unfold ikeys. cbn [fst snd]. rewrite eflat_at. by eapply erase_true. }
    exists h', (bm', ch'), ((EB 0, Bm 0 bm' ch', [0; c']) :: concat ess'). split_and!; [done| | |].
    - split_and!; [done|done|done|]. intros k' [v' Hv']. apply Hb. apply lookup_delete_Some in Hv' as [_ ?]. eauto.
    - assert (HF : ∀ it : item T, free [k] it → k ∉ ikeys it) by (intros it Hf Hx; apply (Hf k Hx); left). split.
      + intros it [->|Hit]%elem_of_cons Hf%HF; [done|]. destruct (P1 it Hit Hf) as [Q1 Q2]. split; [by right|done].
      + intros x l j e t0 o0 Ex Ej Hit Hf%HF. apply (P2 x l j e Ex Ej). intros t1 o1 Hto. assert ((e, t0, o0) = (e, t1, o1)) as <-; [|done]. eapply item_unique; [exact Hr|exact Hn|done|by right].
    - intros a hash L v1 R o [Hit|Hit]%elem_of_cons; [done|]. destruct (P3 _ _ _ _ _ _ Hit) as (pl & p & pr & -> & Q1 & Q2 & Q3). exists pl, p, pr. split_and!; [done..|]. intros Q4. right. by apply Q3.
  Qed.

  Lemma v_chain_ok : ∀ R g h t es m a hash L pl pr w, good h t es m → (R ≠ [] → (EK a, Kv hash (L ++ R), a :: pl ++ pr) ∈ es) → length pl = length L → length pr = length R → length R ≤ g →
    ∃ h' t' es', v_chain hf vis g (head pr) w h = Ok (seen R, (true, w), h') ∧ good h' t' es' (without R m) ∧ keeps (picked R) h es h' es'.
  Proof using Hhf Hv.
    induction R as [|[k v] R IH]; intros g h t es m a hash L pl pr w Hg Hit Hpl Hpr Hgl.
    - destruct pr; [|done]. exists h, t, es. split_and!; [by destruct g|done|apply keeps_refl].
    - destruct pr as [|p pr]; [done|]. destruct g as [|g]; [cbn in Hgl; lia|]. specialize (Hit ltac:(done)). assert (Hg0 := Hg). destruct Hg as (Hr & Hn & _).
      destruct (proj1 (rep_item h) _ _ _ Hr _ Hit) as (r & o & Hi & Ho & _). cbn in Hi. inversion Hi as [? ? hd ? ps Hne Ea Hc|]; subst. 
      unfold chain in Hc. apply (seg_app h hd L ((k, v) :: R) pl (p :: pr) None) in Hc as (mid & _ & Hc); [|done]. cbn [seg_to] in Hc. destruct Hc as (-> & nx & Ep & Hc). assert (Hnx : nx = head pr). { rewrite (seg_head _ _ _ _ _ Hc). by destruct pr. }
      cbn [head v_chain]. rewrite (bind_Ok (rdP_eq _ _ _ _ _ Ep)). cbn [fst snd]. rewrite (Hv (k, v) w). cbn [fst snd]. unfold picked. cbn [without seen map]. rewrite filter_cons.
      assert (Hmk : m !! k = Some v). { eapply (good_key h t es m); [done|exact Hit|]. cbn. apply elem_of_app. right. left. }
      destruct (pick (k, v)) eqn:Epk; cbn [act_all hh_act].
      + destruct (erase_step h t es m k v Hg0 Hmk) as (h1 & t1 & es1 & Ee & Hg1 & Hk1 & Hcut). rewrite (bind_Ok (a := tt) (s' := h1)) by (rewrite (bind_Ok (a := tt) (s' := h1)) by (by rewrite (bind_Ok Ee)); done).
        destruct (Hcut _ _ _ _ _ _ Hit) as (pl0 & p0 & pr0 & Eo & Hl0 & Hun & Hnew). injection Eo as Eo. apply app_inj_1 in Eo as [<- Eo]; [|lia]. injection Eo as <- <-.
        rewrite <-(Hun p) in Ep by left. cbn [negb]. rewrite (bind_Ok (rdP_eq _ _ _ _ _ Ep)). cbn [fst snd]. rewrite Hnx.
        destruct (IH g h1 t1 es1 (delete k m) a hash L pl pr w Hg1) as (h2 & t2 & es2 & E2 & Hg2 & Hk2); [|done|cbn in Hpr; lia|cbn in Hgl; lia|].
        { intros HR. apply Hnew. by destruct L, R. }
        rewrite (bind_Ok E2). exists h2, t2, es2. split_and!; [done|done|]. rewrite decide_True by done. cbn [fmap list_fmap fst]. by apply (keeps_trans [k] _ _ _ h1 es1).
      + rewrite (bind_Ok (a := tt) (s' := h)) by done. cbn [negb]. rewrite (bind_Ok (rdP_eq _ _ _ _ _ Ep)). cbn [fst snd]. rewrite Hnx.
        destruct (IH g h t es m a hash (L ++ [(k, v)]) (pl ++ [p]) pr w Hg0) as (h2 & t2 & es2 & E2 & Hg2 & Hk2); [|rewrite !app_length; cbn; lia|cbn in Hpr; lia|cbn in Hgl; lia|].
        { intros _. rewrite <-!app_assoc. cbn [app]. done. }
        rewrite (bind_Ok E2). exists h2, t2, es2. split_and!; [done|done|]. rewrite decide_False; [done|]. by intros ?.
  Qed.

  Fixpoint fits (f : nat) ch : Prop := match f with O => False | S f => Forall (λ x, match x with None => False | Some (Kv _ _) => True | Some (Bm _ _ c) => fits f c end) ch end.
  Lemma wf_fits f : ∀ d pre bm ch, wf hf f d pre bm ch → fits f ch.
  Proof using.
    induction f as [|f IH]; intros d pre bm ch; [done|]. intros (sl & _ & -> & Hs). cbn [fits]. unfold HamtProofs.es. rewrite Forall_fmap. eapply Forall_impl; [exact Hs|]. intros [p [x kvs|q bm' c]]; cbn; [done|]. intros (_ & _ & Hw & _). by eapply IH.
  Qed.
  Lemma without_app l1 l2 m : without (l1 ++ l2) m = without l2 (without l1 m).
  Proof using. revert m. induction l1 as [|d l1 IH]; intros m; [done|]. apply IH. Qed.
  Lemma picked_app l1 l2 : picked (l1 ++ l2) = picked l1 ++ picked l2.
  Proof using. unfold picked. by rewrite filter_app, fmap_app. Qed.
  Lemma picked_in l k : k ∈ picked l → k ∈ l.*1.
  Proof using. unfold picked. rewrite !elem_of_list_fmap. intros (d & -> & [_ Hd]%elem_of_list_filter). by exists d. Qed.
  Lemma seen_app l1 l2 : seen (l1 ++ l2) = seen l1 ++ seen l2.
  Proof using. apply map_app. Qed.

  Lemma v_node_ok g : ∀ f h t es m b pos bm ch r w, good h t es m → rep_e h (EB b) (Bm pos bm ch) r → r ⊆ es → fits f ch → NoDup (flat ch).*1 → length (flat ch) ≤ g →
    ∃ h' t' es', v_node hf vis f g b w h = Ok (seen (flat ch), w, h') ∧ good h' t' es' (without (flat ch) m) ∧ keeps (picked (flat ch)) h es h' es'.
  Proof using Hhf Hv.
    induction f as [|f IH]; intros h t es m b pos bm ch r w Hg Hr Hsub Hfi Hnk Hgl; [done|]. inversion Hr as [|? ? ? c sl ? ess Eb Ec Hs]; subst. cbn [v_node]. rewrite (bind_Ok (rdB_eq _ _ _ _ _ Eb)). cbn [fst snd]. rewrite (bind_Ok (rdA_eq _ _ _ Ec)).
    assert (HG : ∀ sl2 i ch ess h t es m, good h t es m → rep_s h sl2 ch ess → concat ess ⊆ es → fits (S f) ch → NoDup (flat ch).*1 → length (flat ch) ≤ g →
      (∀ j e, sl2 !! j = Some (Some e) → ∃ l, h !! c = Some (OArr l) ∧ l !! (i + j) = Some (Some e)) →
      ∃ h' t' es', v_slots hf vis (v_node hf vis f g) g c (length sl2) i w h = Ok (seen (flat ch), w, h') ∧ good h' t' es' (without (flat ch) m) ∧ keeps (picked (flat ch)) h es h' es').
    2: { apply (HG sl 0 ch ess h t es m); try done; [intros it Hit; apply Hsub; by right|]. intros j e Ej. by exists sl. }
    clear Hg Hr Hsub Hfi Hnk Hgl Eb Ec Hs h t es m ch ess sl pos bm b. induction sl2 as [|oe sl2 IHl]; intros i ch ess h t es m Hg Hs Hsub Hfi Hnk Hgl Hsl.
    { inversion Hs; subst. exists h, t, es. split_and!; [done|done|apply keeps_refl]. }
    inversion Hs as [| |e u es0 ? ch' ess' He Hs']; subst; [by apply Forall_cons in Hfi as [? _]|]. cbn [flat concat] in *. apply Forall_cons in Hfi as [Hfe Hfi]. cbn [length v_slots].
    destruct (Hsl 0 e eq_refl) as (l & Ec & Ei). rewrite Nat.add_0_r in Ei. rewrite (bind_Ok (slot_eq _ _ _ _ _ Ec Ei)).
    rewrite fmap_app in Hnk. apply NoDup_app in Hnk as (Hnk1 & Hnkd & Hnk2). rewrite app_length in Hgl. rewrite without_app, picked_app, seen_app.
    assert (Hrest : ∀ it, it ∈ concat ess' → free (picked (eflat u)) it). { intros it Hit k Hk Hp. apply picked_in in Hp. apply (Hnkd k Hp). by apply (proj2 (rep_keys h) _ _ _ Hs' it k). }
    (* the rest, after the first entry *)
    assert (HR : ∀ h1 t1 es1, good h1 t1 es1 (without (eflat u) m) → keeps (picked (eflat u)) h es h1 es1 →
      ∃ h' t' es', v_slots hf vis (v_node hf vis f g) g c (length sl2) (S i) w h1 = Ok (seen (flat ch'), w, h') ∧ good h' t' es' (without (flat ch') (without (eflat u) m)) ∧ keeps (picked (eflat u) ++ picked (flat ch')) h es h' es').
    { intros h1 t1 es1 Hg1 Hk1. destruct (keeps_sub _ _ _ _ _ (concat ess') Hk1) as [Q1 Q2]; [intros it Hit; apply Hsub, elem_of_app; by right|done|].
      destruct (IHl (S i) ch' ess' h1 t1 es1 _ Hg1) as (h' & t' & es' & E' & Hg' & Hk'); try done; [by eapply rep_s_frame|lia| |].
      - intros j e' Ej. destruct (Hsl (S j) e' Ej) as (l' & Ec' & Ej'). destruct (rep_s_lookup_l _ _ _ _ _ _ Hs' Ej) as (u' & es' & _ & Ee & He'). destruct (rep_e_head _ _ _ _ He') as (o' & r' & ->).
        assert (Hin : (e', u', o') ∈ concat ess') by (apply elem_concat; eexists; split; [by eapply elem_of_list_lookup_2|left]).
        replace (S i + j) with (i + S j) by lia. apply (proj2 Hk1 c l' (i + S j) e' u' o'); [done|done|apply Hsub, elem_of_app; by right|by apply Hrest].
      - exists h', t', es'. split_and!; [done|done|]. by apply (keeps_trans _ _ _ _ h1 es1). }
    inversion He as [a hash hd kvs ps Hne Ea Hc|b' bm' pos' c' sl' chb essb Eb' Ec' Hsb]; subst.
    - rewrite (bind_Ok (rdK_eq _ _ _ _ Ea)). cbn [fst snd eflat] in *. assert (Hhd : hd = head ps). { unfold chain in Hc. rewrite (seg_head _ _ _ _ _ Hc). by destruct ps. }
      destruct (v_chain_ok kvs g h t es m a hash [] [] ps w Hg) as (h1 & t1 & es1 & E1 & Hg1 & Hk1); [|done|by rewrite (chain_len _ _ _ _ Hc)|lia|].
      { intros _. apply Hsub. apply elem_of_app. left. left. }
      rewrite Hhd. rewrite (bind_Ok E1). cbn [fst snd negb]. destruct (HR h1 t1 es1 Hg1 Hk1) as (h' & t' & es' & E' & Hg' & Hk'). rewrite (bind_Ok E'). by exists h', t', es'.
    - destruct (IH h t es m b' pos' bm' chb _ w Hg He) as (h1 & t1 & es1 & E1 & Hg1 & Hk1).
      + intros it Hit. apply Hsub, elem_of_app. by left.
      + done.
      + by rewrite <-(eflat_at pos' bm').
      + rewrite <-(eflat_at pos' bm'). lia.
      + rewrite (bind_Ok E1). cbn [fst snd]. rewrite eflat_at in *. destruct (HR h1 t1 es1 Hg1 Hk1) as (h' & t' & es' & E' & Hg' & Hk'). rewrite (bind_Ok E'). by exists h', t', es'.
  Qed.

  Lemma without_lookup l m : NoDup l.*1 → (∀ k v, (k, v) ∈ l → m !! k = Some v) → ∀ k v, without l m !! k = Some v ↔ m !! k = Some v ∧ ((k, v) ∈ l → pick (k, v) = false).
  Proof using.
    revert m. induction l as [|[k0 v0] l IH]; intros m Hn Hl k v; cbn [without].
    - split; [intros H; split; [done|by intros ?%elem_of_nil]|by intros [? _]].
    - cbn in Hn. apply NoDup_cons in Hn as [Hk0 Hn]. rewrite IH; [|done|].
      + cbn [fst]. rewrite elem_of_cons. destruct (pick (k0, v0)) eqn:Ep.
        * rewrite lookup_delete_Some. split.
          -- intros [[H1 H2] H3]. split; [done|]. intros [[= -> ->]|H]; [done|by apply H3].
          -- intros [H1 H2]. assert (k0 ≠ k); [|split; [done|intros Z; apply H2; by right]]. intros ->. assert (v0 = v) as ->. { assert (m !! k = Some v0) by (apply Hl; left). congruence. } rewrite H2 in Ep by (by left). done.
        * split; intros [H1 H2]; (split; [done|]); [intros [[= -> ->]|Z]; [done|by apply H2]|intros Z; apply H2; by right].
      + intros k' v' Hx. assert (m !! k' = Some v') by (apply Hl; by right). destruct (pick (k0, v0)); [|done]. cbn [fst]. apply lookup_delete_Some. split; [|done]. intros ->. apply Hk0. apply elem_of_list_fmap. by exists (k', v').
  Qed.
End visit.
