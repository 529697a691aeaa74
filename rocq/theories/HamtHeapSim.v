(** The heap model answers as the model with the trie as a value. *)
From Verif Require Import Base History HamtModel HamtSpec HamtProofs HamtProps VisitEraseModel HamtHeapModel HamtHeapRep HamtHeapPlace HamtHeapIns HamtHeapErase HamtHeapErase2.
Open Scope nat_scope.

Section pure.
  Context {T W : Type} (hf : key → N) (vis : key → T → W → bool * W).
  Notation vp := (λ (d : key * T) (w : W), ([] : list (kv_call key T), vis d.1 d.2 w)).
  Lemma v_chain_pure h kvs : ∀ g hd ps w, chain h hd kvs ps → length ps ≤ g → ∃ tr, v_chain hf vp g hd w h = Ok (tr, trav_kvs vis kvs w, h).
  Proof.
    unfold chain. induction kvs as [|[k v] kvs IH]; intros g hd [|p ps] w; cbn [seg_to]; try done; [intros -> _; destruct g; by eexists|].
    intros (-> & nx & E & Hc) Hg. cbn [length] in Hg. destruct g as [|g]; [lia|]. cbn [v_chain trav_kvs]. rewrite (bind_Ok (rdP_eq _ _ _ _ _ E)). cbn [fst snd act_all]. rewrite (bind_Ok (a := tt) (s' := h)) by done.
    destruct (vis k v w) as [[|] w']; cbn [fst snd negb]; [|by eexists]. rewrite (bind_Ok (rdP_eq _ _ _ _ _ E)). cbn [fst snd]. destruct (IH g nx ps w' Hc ltac:(lia)) as [tr Etr].
    rewrite (bind_Ok Etr). by eexists.
  Qed.

  Lemma v_node_pure h f : ∀ b pos bm ch es w w', rep_e h (EB b) (Bm pos bm ch) es → NoDup (owns es) → bn_traversal vis f ch w = Ok w' →
    ∃ tr, v_node hf vp f (length h) b w h = Ok (tr, w', h).
  Proof.
    induction f as [|f IH]; intros b pos bm ch es w w' Hr Hn E; [done|]. inversion Hr as [|? ? ? c sl ? ess Eb Ec Hs]; subst. cbn [v_node]. rewrite (bind_Ok (rdB_eq _ _ _ _ _ Eb)). cbn [fst snd]. rewrite (bind_Ok (rdA_eq _ _ _ Ec)).
    rewrite owns_cons in Hn. apply NoDup_app in Hn as (_ & _ & Hn). change (owns (concat ess)) with (own_all ess) in Hn. clear Hr Eb.
    assert (HG : ∀ sl2 i ch ess w, drop i sl = sl2 → rep_s h sl2 ch ess → NoDup (own_all ess) → bn_traversal vis (S f) ch w = Ok w' → ∃ tr, v_slots hf vp (v_node hf vp f (length h)) (length h) c (length sl2) i w h = Ok (tr, w', h)); [|by apply (HG sl 0 ch ess w)].
    clear E Hn Hs ch ess w. intros sl2. induction sl2 as [|oe sl2 IHl]; intros i ch ess w Hd Hs Hn E; [inversion Hs; subst; cbn in E; injection E as ->; by eexists|].
    assert (Hi : sl !! i = Some oe) by (rewrite <-(Nat.add_0_r i), <-lookup_drop, Hd; done). assert (Hd2 : drop (S i) sl = sl2) by (rewrite <-(drop_drop sl i 1) || replace (S i) with (i + 1) by lia; rewrite <-drop_drop, Hd; done).
    cbn [length v_slots]. rewrite (bind_Ok (slot_eq _ _ _ _ _ Ec Hi)). inversion Hs as [| |e t es0 ? ch' ess' He Hs']; subst; [done|]. rewrite own_all_cons in Hn. apply NoDup_app in Hn as (Hn1 & _ & Hn2).
    inversion He as [a hash hd kvs ps Hne Ea Hc|b' bm' pos' c' sl' chb essb Eb' Ec' Hsb]; subst.
    - cbn [bn_traversal] in E. rewrite (bind_Ok (rdK_eq _ _ _ _ Ea)). cbn [fst snd]. assert (Hnp : NoDup ps). { unfold owns in Hn1. cbn in Hn1. rewrite app_nil_r in Hn1. by apply NoDup_cons in Hn1 as [_ ?]. }
      destruct (v_chain_pure h kvs (length h) hd ps w Hc) as [tr Etr]; [by eapply chain_fit|]. rewrite (bind_Ok Etr). cbn [fst snd].
      destruct (trav_kvs vis kvs w) as [[|] w1]; cbn [fst snd negb] in *; [|injection E as ->; by eexists]. destruct (IHl (S i) ch' ess' w1 eq_refl Hs' Hn2 E) as [tr' Etr']. rewrite (bind_Ok Etr'). by eexists.
    - cbn [bn_traversal] in E. destruct (bn_traversal vis f chb w) as [w1| |] eqn:E1; [|done|done].
      destruct (IH b' pos' bm' chb _ w w1 He Hn1 E1) as [tr Etr]. rewrite (bind_Ok Etr). cbn [fst snd]. destruct (IHl (S i) ch' ess' w1 eq_refl Hs' Hn2 E) as [tr' Etr']. rewrite (bind_Ok Etr'). by eexists.
  Qed.
End pure.

Section sim.
  Context {T : Type} (hf : key → N).
  (** the root is at 0 *)
  Definition stands (h : heap T) (t : hamt T) : Prop := ∃ es, rep_e h (EB 0) (Bm 0 t.1 t.2) es ∧ NoDup (owns es).
  Lemma stands_new : stands hh_new hm_new.
  Proof. exists [(EB 0, Bm 0 0 [], [0; 1])]. split; [|by unfold owns; cbn; repeat constructor; set_solver]. apply (rep_bm hh_new 0 0%N 0%N 1 [] [] []); [done|done|constructor]. Qed.
  Lemma ins_sim h t t' k v : stands h t → hm_Insert hf k v t = Ok t' → ∃ h', hh_Insert hf k v h = Ok (tt, h') ∧ stands h' t'.
  Proof.
    intros (es & Hr & Hn) E. destruct t as [bm ch], t' as [bm' ch']. unfold hm_Insert in E. cbn [fst snd] in *. unfold hh_Insert. rewrite (bind_Ok (alloc_eq _ _)).
    assert (Hlt : ∀ x, x ∈ owns es → x < length h) by (intros x; by apply (rep_e_lt _ _ _ _ _ Hr)).
    destruct (h_insert_ok levels 0 (hf k) (length h) [(k, v)] [length h] 0 0 bm ch es (h ++ [OPair k v None]) bm' ch') as (h' & es' & Ei & Hr' & Hn' & _).
    - eapply rep_e_frame; [done|]. intros x Hx%Hlt. by apply lookup_app_l.
    - done.
    - cbn. split; [done|]. exists None. split; [|done]. by apply list_lookup_middle.
    - apply NoDup_singleton.
    - intros x ->%elem_of_list_singleton Hx%Hlt. lia.
    - done.
    - exists h'. split; [done|]. by exists es'.
  Qed.
  Lemma get_sim h t k r : stands h t → hm_Get hf k t = Ok r → hh_Get hf k h = Ok (r, h).
  Proof. intros (es & Hr & Hn) E. by eapply (h_find_ok levels 0 (hf k) k 0 0 t.1 t.2 es). Qed.
  Lemma erase_sim h t t' k b : stands h t → full levels t.2 → full levels t'.2 → NoDup (flat t.2).*1 → hm_Erase hf k t = Ok (b, t') → ∃ h', hh_Erase hf k h = Ok (b, h') ∧ stands h' t'.
  Proof.
    intros (es & Hr & Hn) Hf Hf' Hnk E. unfold hm_Erase, hh_Erase in *. destruct (bn_erase levels 0 (hf k) k t.1 t.2) as [[[b1 bm'] ch']| |] eqn:E1; try done. injection E as <- <-. cbn [fst snd] in *. destruct b1.
    - inversion Hr as [|? ? ? c sl ? ess Eb Ec Hs]; subst. destruct (h_erase_hit levels 0 (hf k) k 0 0 t.1 c sl t.2 ess h bm' ch' Eb Ec Hs Hn Hf Hf' Hnk E1) as (h' & c' & sl' & ess' & Ee & Eb' & Ec' & Hs' & Hn' & _).
      exists h'. split; [done|]. exists ((EB 0, Bm 0 bm' ch', [0; c']) :: concat ess'). split; [by econstructor|done].
    - destruct (erase_false _ _ _ _ _ _ _ _ E1) as [-> ->]. exists h. split; [by eapply (h_erase_miss levels 0 (hf k) k 0 0 t.1 t.2 es)|]. by exists es.
  Qed.

  Context (Hhf : ∀ k, is_bytes k → (hf k < 2 ^ 64)%N).
  Lemma step_sim {W} (o : hm_op T W) h t m : hm_op_ok o → holds hf t m → stands h t → ∃ a t' h', hm_step hf o t = Ok (a, t') ∧ hm_answer m o a ∧ holds hf t' (hm_after m o) ∧ hh_step hf o h = Ok (a, h') ∧ stands h' t'.
  Proof using Hhf.
    intros Ho Hh Hst. destruct (step_ok hf Hhf o t m Ho Hh) as (a & t' & E & Ha & Hh'). exists a, t'. assert (Hst0 := Hst).
    assert (∃ h', hh_step hf o h = Ok (a, h') ∧ stands h' t') as (h' & ? & ?); [|by exists h'].
    destruct o as [k v|k|k| | |vis w]; cbn [hm_step hh_step] in *.
    - destruct (hm_Insert hf k v t) as [t1| |] eqn:E1; try done. injection E as <- <-. destruct (ins_sim _ _ _ _ _ Hst E1) as (h' & E2 & ?). rewrite (bind_Ok E2). by eexists.
    - destruct (hm_Get hf k t) as [r| |] eqn:E1; try done. injection E as <- <-. rewrite (bind_Ok (get_sim _ _ _ _ Hst E1)). by eexists.
    - destruct (hm_Erase hf k t) as [[b t1]| |] eqn:E1; try done. cbn [bindr fst snd] in E. injection E as <- <-. destruct Hh as [Hw Hc]. destruct Hh' as [Hw' _].
      destruct (erase_sim h t t1 k b) as (h' & E2 & ?); [done|by eapply wf_full|by eapply wf_full|eapply wf_nodup; [exact Hw|done]|done|]. rewrite (bind_Ok E2). by eexists.
    - destruct (hm_Keys t) as [l| |] eqn:E1; try done. injection E as <- <-. destruct Hst as (es & Hr & Hn). destruct (v_node_pure hf _ h levels 0 _ _ _ _ [] l Hr Hn E1) as [tr Etr].
      unfold hh_Keys. rewrite (bind_Ok (a := l) (s' := h)) by (unfold hh_Traversal, hamt_visits; by rewrite Etr). by eexists.
    - destruct (hm_StringKeys t) as [l| |] eqn:E1; try done. injection E as <- <-. destruct Hst as (es & Hr & Hn). destruct (v_node_pure hf _ h levels 0 _ _ _ _ [] l Hr Hn E1) as [tr Etr].
      unfold hh_Keys. rewrite (bind_Ok (a := l) (s' := h)) by (unfold hh_Traversal, hamt_visits; by rewrite Etr). by eexists.
    - destruct (hm_Traversal vis w t) as [w1| |] eqn:E1; try done. injection E as <- <-. destruct Hst as (es & Hr & Hn). destruct (v_node_pure hf _ h levels 0 _ _ _ _ w w1 Hr Hn E1) as [tr Etr].
      rewrite (bind_Ok (a := w1) (s' := h)) by (unfold hh_Traversal, hamt_visits; by rewrite Etr). by eexists.
  Qed.
  Lemma run_sim {W} (ops : list (hm_op T W)) : ∀ h t m, Forall hm_op_ok ops → holds hf t m → stands h t → ∃ rs t' h', run (hm_step hf) ops t = Ok (rs, t') ∧ holds hf t' (foldl hm_after m ops) ∧ run (hh_step hf) ops h = Ok (rs, h') ∧ stands h' t'.
  Proof using Hhf.
    induction ops as [|o ops IH]; intros h t m Hok Hh Hst; [by exists [], t, h|]. apply Forall_cons in Hok as [Ho Hok]. cbn [run foldl].
    destruct (step_sim o h t m Ho Hh Hst) as (a & t1 & h1 & E & _ & Hh1 & E' & Hst1). destruct (IH h1 t1 _ Hok Hh1 Hst1) as (rs & t' & h' & R & ? & R' & ?). rewrite E, E', R, R'. by exists (a :: rs), t', h'.
  Qed.
End sim.
