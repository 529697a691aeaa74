(** Erasing a key that is there. *)
From Verif Require Import Base HamtModel HamtProofs HamtHeapModel HamtHeapRep HamtHeapPlace HamtHeapIns HamtHeapErase.
Open Scope nat_scope.

Lemma split_unique {K V} (L L0 R R0 : list (K * V)) k v v0 : NoDup (L ++ (k, v) :: R).*1 → L ++ (k, v) :: R = L0 ++ (k, v0) :: R0 → L = L0 ∧ v = v0 ∧ R = R0.
Proof.
  revert L0. induction L as [|x L IH]; intros [|y L0]; cbn [app]; intros Hn E.
  - by injection E as -> ->.
  - injection E as <- ->. exfalso. cbn in Hn. apply NoDup_cons in Hn as [Hn _]. apply Hn. rewrite fmap_app. apply elem_of_app. right. left.
  - injection E as -> <-. exfalso. cbn in Hn. apply NoDup_cons in Hn as [Hn _]. apply Hn. rewrite fmap_app. apply elem_of_app. right. left.
  - injection E as <- E. cbn in Hn. apply NoDup_cons in Hn as [_ Hn]. destruct (IH _ Hn E) as (-> & -> & ->). done.
Qed.

Section hit.
  Context {T : Type}.
  Implicit Types (h : heap T) (ch : list (option (entry T))).
  (** entries without the key stay *)
  Definition spares (k : key) h h' (es es' : list (item T)) : Prop := ∀ it, it ∈ es → k ∉ ikeys it → it ∈ es' ∧ ∀ x, x ∈ it.2 → h' !! x = h !! x.
  (** ... in every array they are in *)
  Definition spares_in (k : key) h h' (es : list (item T)) (x : nat) : Prop := ∀ l j e, h !! x = Some (OArr l) → l !! j = Some (Some e) → (∀ t o, (e, t, o) ∈ es → k ∉ ikeys (e, t, o)) → ∃ l', h' !! x = Some (OArr l') ∧ l' !! j = Some (Some e).
  (** the chain with the key loses its pair; this pair and those after it are not written to *)
  Definition cuts (k : key) h h' (es es' : list (item T)) : Prop := ∀ a hash L v R o, (EK a, Kv hash (L ++ (k, v) :: R), o) ∈ es →
    ∃ pl p pr, o = a :: pl ++ p :: pr ∧ length pl = length L ∧ (∀ x, x ∈ p :: pr → h' !! x = h !! x) ∧ (L ++ R ≠ [] → (EK a, Kv hash (L ++ R), a :: pl ++ pr) ∈ es').

  Lemma in_other (ess : list (list (item T))) i es0 es1 it : NoDup (own_all ess) → ess !! i = Some es0 → it ∈ concat ess → it ∈ es0 ∨ (it ∈ concat (<[i := es1]> ess) ∧ ∀ x, x ∈ it.2 → x ∉ owns es0).
  Proof.
    intros Hn Ei Hit. apply elem_concat in Hit as (l & Hl & Hit). apply elem_of_list_lookup in Hl as [j Ej]. destruct (decide (i = j)) as [<-|Hij].
    - left. rewrite Ei in Ej. by injection Ej as ->.
    - right. split; [apply elem_concat; exists l; split; [|done]; apply elem_of_list_lookup; exists j; by rewrite list_lookup_insert_ne|]. intros x Hx Hx'. eapply (own_disj ess i j es0 l x); try done. apply elem_owns. eauto.
  Qed.

  Lemma hit_slot k h h' b c bm pos sl ch ess i e0 t0 es0 e1 t1 es1 :
    h !! b = Some (OBit bm pos c) → h !! c = Some (OArr sl) → rep_s h sl ch ess → NoDup (b :: c :: own_all ess) → NoDup (flat ch).*1 →
    ch !! i = Some (Some t0) → sl !! i = Some (Some e0) → ess !! i = Some es0 → rep_e h e0 t0 es0 → k ∈ (eflat t0).*1 →
    h' !! b = Some (OBit bm pos c) → h' !! c = Some (OArr (<[i := Some e1]> sl)) → rep_e h' e1 t1 es1 → NoDup (owns es1) →
    (∀ x, x ∈ owns es1 → x ∈ owns es0 ∨ length h ≤ x) → (∀ x, x < length h → x ≠ c → x ∉ owns es0 → h' !! x = h !! x) →
    spares k h h' es0 es1 → (∀ x, x ∈ owns es0 → spares_in k h h' es0 x) → cuts k h h' es0 es1 →
    let ess' := <[i := es1]> ess in
    rep_s h' (<[i := Some e1]> sl) (<[i := Some t1]> ch) ess' ∧ NoDup (b :: c :: own_all ess') ∧ (∀ x, x ∈ c :: own_all ess' → x ∈ c :: own_all ess ∨ length h ≤ x) ∧
    (∀ x, x < length h → x ∉ b :: c :: own_all ess → h' !! x = h !! x) ∧ spares k h h' (concat ess) (concat ess') ∧ (∀ x, spares_in k h h' (concat ess) x) ∧ cuts k h h' (concat ess) (concat ess').
  Proof.
    intros Eb Ec Hs Hn Hf Ei Esl Eess He Hk Eb' Ec' He1 Hn1 Hsub Hfr A1 A2 A3 ess'.
    assert (Hlt : ∀ x, x ∈ own_all ess → x < length h) by (intros x; apply (rep_s_lt _ _ _ _ _ Hs)).
    assert (Hlb := lookup_lt_Some _ _ _ Eb). assert (Hlc := lookup_lt_Some _ _ _ Ec).
    assert (Hin : ∀ x, x ∈ owns es0 → x ∈ own_all ess) by (intros x; by apply (own_at _ _ _ _ Eess)).
    assert (Hn0 := Hn). rewrite !NoDup_cons, !not_elem_of_cons in Hn0. destruct Hn0 as ([Hbc Hb] & Hc & Hn').
    destruct (rebuild h h' b c bm pos sl ch ess i es0 e1 t1 es1) as [H1 H2]; try done.
    { intros x [Hx|Hx]%Hsub; [by left|right]. rewrite !not_elem_of_cons. split_and!; [lia|lia|]. intros Hy%Hlt. lia. }
    { intros x Hx Hx'. apply Hfr; [by apply Hlt| |done]. by intros ->. }
    destruct (rep_e_head _ _ _ _ He) as (o0 & r0 & Ees0).
    split_and!.
    - rewrite <-(list_insert_insert ch i _ None), <-(list_insert_insert sl i _ None). unfold ess'. rewrite <-(list_insert_insert ess i _ []). apply rep_s_update; [|done].
      eapply rep_s_frame; [by apply rep_s_remove|]. intros x Hx. rewrite (own_all_upd _ _ _ _ Eess) in Hx. cbn in Hx. assert (Hn2 := Hn'). rewrite (own_all_at _ _ _ Eess) in Hn2. apply NoDup_app in Hn2 as (_ & Hd & _).
      assert (Hx' : x ∈ own_all ess) by (rewrite (own_all_at _ _ _ Eess); apply elem_of_app; by right). apply Hfr; [by apply Hlt|by intros ->|intros H; by apply (Hd _ H)].
    - exact H2.
    - intros x [->|Hx]%elem_of_cons; [left; left|]. apply (own_upd_sub _ _ _ _ _ Eess) in Hx as [Hx|Hx]; [|left; by right]. apply Hsub in Hx as [Hx|Hx]; [left; right; by apply Hin|by right].
    - intros x Hx Hx'. rewrite !not_elem_of_cons in Hx'. destruct Hx' as (X1 & X2 & X3). apply Hfr; [done|done|]. intros Hy. by apply X3, Hin.
    - intros it Hit Hkit. destruct (in_other ess i es0 es1 it Hn' Eess Hit) as [Hin0|[Hi1 Hi2]].
      + destruct (A1 it Hin0 Hkit) as [G1 G2]. split; [|done]. apply elem_upd3; [by eapply lookup_lt_Some|done].
      + split; [done|]. intros x Hx. assert (x ∈ own_all ess) by (apply elem_owns; eauto). apply Hfr; [by apply Hlt|by intros ->|by apply Hi2].
    - intros x l j e Ex Ej Hne. destruct (decide (x = c)) as [->|Hxc].
      + rewrite Ec in Ex. injection Ex as <-. rewrite Ec'. eexists. split; [done|]. destruct (decide (i = j)) as [<-|Hij]; [|by rewrite list_lookup_insert_ne].
        exfalso. rewrite Esl in Ej. injection Ej as <-. apply (Hne t0 o0); [|done]. apply elem_concat. exists es0. split; [by eapply elem_of_list_lookup_2|]. subst. left.
      + destruct (decide (x ∈ owns es0)) as [Hx|Hx].
        * apply (A2 x Hx l j e Ex Ej). intros t o Hto. apply Hne. apply elem_concat. exists es0. split; [by eapply elem_of_list_lookup_2|done].
        * rewrite Hfr; [by eauto|by eapply lookup_lt_Some|done|done].
    - intros a hash L v R o Hit. destruct (rep_s_item _ _ _ _ _ Hs Hit) as (j & e & t & es & Ej & _ & Ejs & Hre & Hi0).
      assert (i = j) as <-. { eapply (flat_two ch i j t0 t k); try done. eapply (proj1 (rep_keys h)); [done..|]. unfold ikeys. cbn. rewrite fmap_app. apply elem_of_app. right. left. }
      rewrite Eess in Ejs. injection Ejs as <-. destruct (A3 _ _ _ _ _ _ Hi0) as (pl & p & pr & -> & Hl & Hun & Hnew). exists pl, p, pr. split_and!; [done..|].
      intros HLR. apply elem_upd3; [by eapply lookup_lt_Some|]. by apply Hnew.
  Qed.

  Lemma chain_pair h hd kvs ps x : chain h hd kvs ps → x ∈ ps → ∃ k v n, h !! x = Some (OPair k v n).
  Proof.
    unfold chain. revert hd ps. induction kvs as [|[k v] kvs IH]; intros hd [|p ps]; cbn; try done; [by intros _ ?%elem_of_nil|]. intros (-> & nx & E & Hc) [->|Hx]%elem_of_cons; [eauto|eauto].
  Qed.

  Lemma own_nones m : own_all (replicate m ([] : list (item T))) = [].
  Proof. induction m as [|m IHm]; [done|]. exact IHm. Qed.

  Lemma hole_own (ess : list (list (item T))) i es0 : NoDup (own_all ess) → ess !! i = Some es0 → NoDup (own_all (<[i := []]> ess)) ∧ ∀ x, x ∈ own_all (<[i := []]> ess) → x ∈ own_all ess ∧ x ∉ owns es0.
  Proof.
    intros Hn' Eess. split.
    - eapply upd_nodup; [done|done|constructor|]. by intros x ?%elem_of_nil.
    - intros x Hx. rewrite (own_all_upd _ _ _ _ Eess) in Hx. cbn in Hx. rewrite (own_all_at _ _ _ Eess) in Hn'. apply NoDup_app in Hn' as (_ & Hd & _). split.
      + rewrite (own_all_at _ _ _ Eess). apply elem_of_app. by right.
      + intros Hy. by apply (Hd x).
  Qed.


  Lemma h_erase_hit f : ∀ d hash k b pos bm c sl ch ess h bm' ch',
    h !! b = Some (OBit bm pos c) → h !! c = Some (OArr sl) → rep_s h sl ch ess → NoDup (b :: c :: own_all ess) → full f ch → full f ch' → NoDup (flat ch).*1 →
    bn_erase f d hash k bm ch = Ok (true, bm', ch') →
    ∃ h' c' sl' ess', h_erase f d hash k b h = Ok (true, h') ∧ h' !! b = Some (OBit bm' pos c') ∧ h' !! c' = Some (OArr sl') ∧ rep_s h' sl' ch' ess' ∧ NoDup (b :: c' :: own_all ess') ∧
      (∀ x, x ∈ c' :: own_all ess' → x ∈ c :: own_all ess ∨ length h ≤ x) ∧ length h ≤ length h' ∧ (∀ x, x < length h → x ∉ b :: c :: own_all ess → h' !! x = h !! x) ∧
      spares k h h' (concat ess) (concat ess') ∧ (∀ x, spares_in k h h' (concat ess) x) ∧ cuts k h h' (concat ess) (concat ess').
  Proof.
    induction f as [|f IH]; intros d hash k b pos bm c sl ch ess h bm' ch' Eb Ec Hs Hn Hfu Hfu' Hfl E; [done|].
    assert (Hn0 := Hn). rewrite !NoDup_cons, !not_elem_of_cons in Hn0. destruct Hn0 as ([Hbc Hb] & Hc & Hn'). destruct (rep_s_len _ _ _ _ Hs) as [Hl1 Hl2].
    assert (Hlb := lookup_lt_Some _ _ _ Eb). assert (Hlc := lookup_lt_Some _ _ _ Ec).
    assert (Hlt : ∀ x, x ∈ own_all ess → x < length h) by (intros x; apply (rep_s_lt _ _ _ _ _ Hs)).
    cbn [h_erase bn_erase] in *. rewrite (bind_Ok (rdB_eq _ _ _ _ _ Eb)). cbn [fst snd]. set (p := posf hash d) in *. destruct (N.land (bitposf p) bm =? 0)%N; [done|].
    rewrite (bind_Ok (h_index_eq _ _ _ _ _ _ Eb)). set (i := index bm (bitposf p)) in *. clearbody i. destruct (ch !! i) as [[t|]|] eqn:Ei; [|done|done].
    destruct (rep_s_lookup _ _ _ _ _ _ Hs Ei) as (e & es0 & Esl & Eess & He). rewrite (bind_Ok (slot_eq _ _ _ _ _ Ec Esl)).
    assert (Hin : ∀ x, x ∈ owns es0 → x ∈ own_all ess) by (intros x; by apply (own_at _ _ _ _ Eess)).
    assert (Hnes : NoDup (owns es0)). { clear -Hn' Eess. rewrite (own_all_at _ _ _ Eess) in Hn'. apply NoDup_app in Hn' as [Hn _]. exact Hn. }
    assert (Hnkt := flat_nodup _ _ _ Ei Hfl). assert (Hisl : i < length sl) by (by eapply lookup_lt_Some).
    inversion He as [a hash' hd kvs' ps' Hne Ea Hc'|b' bm0 pos0 c0 sl0 ch0 ess0 Eb0 Ec0 Hs0]; subst e t es0.
    - rewrite (bind_Ok (rdK_eq _ _ _ _ Ea)). cbn [fst snd]. destruct (negb _); [done|].
      assert (Hown0 : owns [(EK a, Kv hash' kvs', a :: ps')] = a :: ps') by (unfold owns; cbn; by rewrite app_nil_r). rewrite Hown0 in Hin, Hnes. apply NoDup_cons in Hnes as [Ha Hnps]. cbn [eflat] in Hnkt.
      pose proof (search_spec h k kvs' hd ps' Hc' Hnps) as Hfind. destruct (find_kv k kvs') as [v'|] eqn:Ef; [|by rewrite (unlink_none _ _ Ef) in E].
      destruct Hfind as (L & R & pl & q & pr & nx & -> & -> & HL & HkL & Eq & Hcr & Hse). rewrite (unlink_split k L R v' HkL) in E. rewrite (bind_Ok Hse). rewrite (bind_Ok (rdP_eq _ _ _ _ _ Eq)). cbn [fst snd].
      match goal with |- context [mbind_ (match last pl with _ => _ end) (λ _, ?K) h] => destruct (unlink_prog h a hash' hd L k v' R pl q pr nx K Ea Hc' HL Eq Ha Hnps) as (h1 & hd' & Eprog & Ea1 & Hc1 & Hlen1 & Hfr1) end.
      rewrite Eprog. clear Eprog. rewrite (bind_Ok (rdK_eq _ _ _ _ Ea1)). cbn [fst snd].
      assert (Hapl : ∀ x, x ∈ pl → x ∈ own_all ess) by (intros x Hx; apply Hin; right; apply elem_of_app; by left). assert (Hain : a ∈ own_all ess) by (apply Hin; left).
      assert (Hcut : ∀ x, x ∈ q :: pr → h1 !! x = h !! x).
      { intros x Hx. apply Hfr1; [intros ->; apply Ha, elem_of_app; by right|]. apply NoDup_app in Hnps as (_ & Hd & _). intros Hy. by apply (Hd x Hy). }
      destruct (L ++ R) as [|y kvs1] eqn:ELR.
      + (* the kv node goes *)
        apply app_eq_nil in ELR as [-> ->]. destruct pl; [|done]. destruct pr; [|by unfold chain in Hcr]. cbn in Hc1. subst hd'. cbn [app] in *.
        set (bm1 := N.land bm _) in *. clearbody bm1. destruct (place_some _ d _ _) as [nc| |] eqn:Ep; try done. injection E as <- <-.
        assert (Ec1 : h1 !! c = Some (OArr sl)). { rewrite Hfr1; [done|by intros ->|apply not_elem_of_nil]. }
        rewrite (bind_Ok (setslot_eq _ _ _ _ None Ec1 Hisl)). set (sl1 := <[i := None]> sl). set (h2 := <[c := OArr sl1]> h1). rewrite (bind_Ok (put_eq _ _ _)). set (h3 := <[b := OBit bm1 pos c]> h2).
        assert (L3 : length h3 = length h) by (unfold h3, h2; by rewrite !insert_length).
        assert (Ec3 : h3 !! c = Some (OArr sl1)). { unfold h3. rewrite list_lookup_insert_ne by done. apply list_lookup_insert. lia. }
        rewrite (bind_Ok (rdA_eq _ _ _ Ec3)). rewrite (bind_Ok (alloc_eq _ _)). rewrite L3. assert (Lsl1 : length sl1 = length ch) by (unfold sl1; rewrite insert_length; lia).
        rewrite Lsl1. set (new := length h). set (h4 := h3 ++ [OArr (replicate (length ch - 1) None)]).
        assert (F4 : ∀ x, x < length h → x ≠ a → x ≠ b → x ≠ c → h4 !! x = h !! x).
        { intros x X1 X2 X3 X4. unfold h4. rewrite lookup_app_l by lia. unfold h3, h2. rewrite !list_lookup_insert_ne by congruence. apply Hfr1; [done|apply not_elem_of_nil]. }
        assert (Eb4 : h4 !! b = Some (OBit bm1 pos c)). { unfold h4. rewrite lookup_app_l by lia. apply list_lookup_insert. unfold h2. rewrite insert_length. lia. }
        assert (Ec4 : h4 !! c = Some (OArr sl1)). { unfold h4. rewrite lookup_app_l by lia. done. }
        assert (En4 : h4 !! new = Some (OArr (replicate (length ch - 1) None))). { unfold h4, new. rewrite <-L3. by apply list_lookup_middle. }
        destruct (hole_own ess i _ Hn' Eess) as [Hnh Hhole0]. assert (Hhole : ∀ x, x ∈ own_all (<[i := []]> ess) → x ∈ own_all ess ∧ x ≠ a) by (intros x Hx; destruct (Hhole0 x Hx) as [Z1 Z2]; split; [exact Z1|intros ->; apply Z2; rewrite Hown0; left]). clear Hhole0.
        pose proof (own_nones (length ch - 1)) as Hz.
        destruct (h_place_ok true b d c new bm1 pos c sl1 ltac:(unfold new; lia) ltac:(unfold new; lia) (length ch) 0 h4 (<[i := None]> ch) (<[i := []]> ess) (replicate (length ch - 1) None) (replicate (length ch - 1) None) (replicate (length ch - 1) []) nc) as (tl' & tess' & E' & Hs' & Hnt & Hsub & _ & Hkeep); try done.
        * rewrite drop_0. eapply rep_s_frame; [by apply rep_s_remove|]. intros x [X1 X2]%Hhole. apply F4; [by apply Hlt|done|by intros ->|by intros ->].
        * apply rep_s_nones.
        * by rewrite Hz.
        * rewrite Hz. apply not_elem_of_nil.
        * intros [Hx%Hlt _]%Hhole. unfold new in Hx. lia.
        * rewrite (bind_Ok E'). set (h5 := <[new := OArr tl']> h4). assert (Eb5 : h5 !! b = Some (OBit bm1 pos c)). { unfold h5. by rewrite list_lookup_insert_ne by (unfold new; lia). }
          rewrite (bind_Ok (rdB_eq _ _ _ _ _ Eb5)). cbn [fst snd]. rewrite (bind_Ok (put_eq _ _ _)). set (h6 := <[b := OBit bm1 pos new]> h5).
          assert (L4 : length h4 = S (length h)) by (unfold h4; rewrite app_length, L3; cbn; lia). assert (L5 : length h5 = S (length h)) by (unfold h5; by rewrite insert_length).
          assert (Hown : ∀ x, x ∈ own_all tess' → x ∈ own_all ess ∧ x ≠ a). { intros x [Hx|Hx]%(own_sub _ _ _ _ Hsub); [change (x ∈ own_all (replicate (length ch - 1) ([] : list (item T)))) in Hx; rewrite Hz in Hx; by apply elem_of_nil in Hx|by apply Hhole]. }
          assert (F6 : ∀ x, x < length h → x ≠ a → x ≠ b → x ≠ c → h6 !! x = h !! x). { intros x X1 X2 X3 X4. unfold h6, h5. rewrite !list_lookup_insert_ne by (congruence || (unfold new; lia)). by apply F4. }
          assert (Hkeep' : ∀ it, it ∈ concat (<[i := []]> ess) → it ∈ concat tess').
          { intros it Hit. apply Hkeep; [|by right]. rewrite filled_nones, (filled_hole ch i); [|by eapply full_filled|by rewrite <-Hl1]. rewrite (full_filled f nc Hfu'). rewrite (place_length true _ _ _ _ _ Ep), replicate_length. done. }
          exists h6, new, tl', tess'. split_and!.
          -- done.
          -- apply list_lookup_insert. lia.
          -- unfold h6. rewrite list_lookup_insert_ne by (unfold new; lia). apply list_lookup_insert. unfold new. lia.
          -- eapply rep_s_frame; [done|]. intros x [X1 X2]%Hown. assert (X3 := Hlt _ X1). unfold h6, h5. rewrite !list_lookup_insert_ne; [done|unfold new; lia|by intros ->].
          -- rewrite !NoDup_cons, !not_elem_of_cons. split_and!; [unfold new; lia|by intros [? _]%Hown|intros [Hx%Hlt _]%Hown; unfold new in Hx; lia|done].
          -- intros x [->|Hx]%elem_of_cons; [by right|]. left. right. by apply Hown.
          -- unfold h6. rewrite insert_length. lia.
          -- intros x X1 X2. rewrite !not_elem_of_cons in X2. apply F6; [done| |tauto|tauto]. intros ->. tauto.
          -- intros it Hit Hk. destruct (in_other ess i _ [] it Hn' Eess Hit) as [->%elem_of_list_singleton|[I1 I2]]; [exfalso; apply Hk; left|]. split; [by apply Hkeep'|].
             intros x Hx. assert (x ∈ own_all ess) by (apply elem_owns; eauto). specialize (I2 x Hx). rewrite Hown0 in I2. apply F6; [by apply Hlt| |by intros ->|by intros ->]. intros ->. apply I2. left.
          -- intros x l j e Ex Ej Hno. destruct (decide (x = c)) as [->|Hxc].
             ++ rewrite Ec in Ex. injection Ex as <-. exists sl1. split; [unfold h6, h5; by rewrite !list_lookup_insert_ne by (done || (unfold new; lia))|]. unfold sl1. destruct (decide (i = j)) as [<-|]; [|by rewrite list_lookup_insert_ne].
                exfalso. rewrite Esl in Ej. injection Ej as <-. eapply Hno; [apply elem_concat; eexists; split; [by eapply elem_of_list_lookup_2|left]|]. left.
             ++ exists l. split; [|done]. rewrite F6; [done|by eapply lookup_lt_Some| | |done]; intros ->; congruence.
          -- intros a1 hash1 L1 v1 R1 o Hit. destruct (rep_s_item _ _ _ _ _ Hs Hit) as (j & e & t & es & Ej & _ & Ejs & Hre & Hi0).
             assert (i = j) as <-. { eapply (flat_two ch i j _ t k); [done|done|done|left|]. eapply (proj1 (rep_keys h)); [done..|]. unfold ikeys. cbn. rewrite fmap_app. apply elem_of_app. right. left. }
             rewrite Eess in Ejs. injection Ejs as <-. apply elem_of_list_singleton in Hi0. injection Hi0 as -> <- EL ->. destruct L1 as [|? [|]]; [|done|done]. cbn [app] in EL. assert (v1 = v' ∧ R1 = []) as [-> ->] by (split; congruence).
             exists [], q, []. split_and!; try done. intros x ->%elem_of_list_singleton. apply F6; [by eapply lookup_lt_Some| | |]; intros ->; congruence.
      + (* the chain gets shorter *)
        injection E as <- <-. destruct hd' as [hd1|]; [|by destruct (pl ++ pr); destruct y; unfold chain in Hc1; cbn in Hc1; destruct Hc1].
        assert (Hown1 : ∀ t : entry T, owns [(EK a, t, a :: pl ++ pr)] = a :: pl ++ pr) by (intros t; unfold owns; cbn; by rewrite app_nil_r).
        destruct (hit_slot k h h1 b c bm pos sl ch ess i (EK a) (Kv hash' (L ++ (k, v') :: R)) [(EK a, Kv hash' (L ++ (k, v') :: R), a :: pl ++ q :: pr)] (EK a) (Kv hash' (y :: kvs1)) [(EK a, Kv hash' (y :: kvs1), a :: pl ++ pr)]) as (G1 & G2 & G3 & G4 & G5 & G6 & G7); try done.
        { cbn [eflat]. rewrite fmap_app. apply elem_of_app. right. left. }
        { rewrite Hfr1; [done|by intros ->|]. intros Hx. by apply Hb, Hapl. }
        { rewrite Hfr1; [by rewrite list_insert_id|by intros ->|]. intros Hx. by apply Hc, Hapl. }
        { by econstructor. }
        { rewrite Hown1. apply NoDup_cons. split; [intros Hx; apply Ha; rewrite elem_of_app in Hx; rewrite elem_of_app, elem_of_cons; tauto|]. apply NoDup_app in Hnps as (N1 & N2 & [N3 N4]%NoDup_cons). apply NoDup_app. split_and!; [done| |done]. intros x Hx Hx'. apply (N2 x Hx). by right. }
        { intros x. rewrite Hown0, Hown1, !elem_of_cons, !elem_of_app, elem_of_cons. tauto. }
        { intros x _ _. rewrite Hown0, not_elem_of_cons, not_elem_of_app. intros (X1 & X2 & X3). by apply Hfr1. }
        { intros it ->%elem_of_list_singleton Hk. exfalso. apply Hk. unfold ikeys. cbn. rewrite fmap_app. apply elem_of_app. right. left. }
        { intros x. rewrite Hown0. intros Hx l j e Ex. exfalso. apply elem_of_cons in Hx as [->|Hx]; [congruence|]. destruct (chain_pair _ _ _ _ _ Hc' Hx) as (? & ? & ? & ?). congruence. }
        { intros a1 hash1 L1 v1 R1 o Hit. apply elem_of_list_singleton in Hit. injection Hit as -> <- EL ->.
          assert (L1 = L ∧ v1 = v' ∧ R1 = R) as (-> & -> & ->). { eapply (split_unique L1 L R1 R k v1 v'); [by rewrite EL|done]. }
          exists pl, q, pr. split_and!; [done|done|done|]. intros _. rewrite ELR. left. }
        assert (Ec1 : h1 !! c = Some (OArr sl)). { rewrite Hfr1; [done|by intros ->|]. intros Hx. by apply Hc, Hapl. }
        assert (Eb1 : h1 !! b = Some (OBit bm pos c)). { rewrite Hfr1; [done|by intros ->|]. intros Hx. by apply Hb, Hapl. }
        rewrite (list_insert_id sl i _ Esl) in G1. exists h1, c, sl. eexists. split_and!; [done|exact Eb1|exact Ec1|exact G1|exact G2|exact G3|lia|exact G4|exact G5|exact G6|exact G7].
    - (* a nested node *)
      destruct (bn_erase f (S d) hash k bm0 ch0) as [[[[|] bm1] ch1]| |] eqn:E1; try done; cbn [andb] in E.
      assert (Hk0 := erase_true _ _ _ _ _ _ _ _ E1). assert (Hk0' : k ∈ (eflat (Bm pos0 bm0 ch0)).*1) by (by rewrite eflat_at).
      change (owns ((EB b', Bm pos0 bm0 ch0, [b'; c0]) :: concat ess0)) with (b' :: c0 :: own_all ess0) in Hin, Hnes. rewrite eflat_at in Hnkt.
      assert (Hfu1 : full f ch1).
      { case_bool_decide as Hl1c.
        - destruct (ch1 !! 0) as [[[x kvs|q bmq chq]|]|] eqn:E0; try done; injection E as <- <-; [|eapply (full_at f _ i); [exact Hfu'|apply list_lookup_insert; lia]].
          destruct f as [|f']; [done|]. destruct ch1 as [|z [|]]; try done. cbn in E0. injection E0 as ->. cbn [full]. by constructor.
        - injection E as <- <-. eapply (full_at f _ i); [exact Hfu'|]. apply list_lookup_insert. lia. }
      destruct (IH (S d) hash k b' pos0 bm0 c0 sl0 ch0 ess0 h bm1 ch1 Eb0 Ec0 Hs0 Hnes (full_at _ _ _ _ _ _ Hfu Ei) Hfu1 Hnkt E1) as (h1 & c1 & sl1 & ess1 & Ee & Eb1 & Ec1 & Hs1 & Hn1 & Hsub1 & Hlen1 & Hfr1 & P1 & P2 & P3).
      rewrite (bind_Ok Ee), (bind_Ok (rdB_eq _ _ _ _ _ Eb1)). cbn [fst snd]. rewrite (bind_Ok (rdA_eq _ _ _ Ec1)). cbn [andb]. destruct (rep_s_len _ _ _ _ Hs1) as [Hl3 Hl4]. rewrite Hl3.
      set (es0 := (EB b', Bm pos0 bm0 ch0, [b'; c0]) :: concat ess0) in *. assert (Hown0 : owns es0 = b' :: c0 :: own_all ess0) by done.
      assert (Hcb : b ∉ b' :: c0 :: own_all ess0) by (intros Hx; by apply Hb, Hin). assert (Hcc : c ∉ b' :: c0 :: own_all ess0) by (intros Hx; by apply Hc, Hin).
      assert (Ebb : h1 !! b = Some (OBit bm pos c)) by (rewrite Hfr1; done). assert (Ecc : h1 !! c = Some (OArr sl)) by (rewrite Hfr1; done).
      assert (Hhead : k ∈ ikeys (EB b', Bm pos0 bm0 ch0, [b'; c0])) by done.
      (* the node stays *)
      assert (Hstay : ∀ es1, es1 = (EB b', Bm pos0 bm1 ch1, [b'; c1]) :: concat ess1 → ∃ ess', rep_s h1 sl (<[i := Some (Bm pos0 bm1 ch1)]> ch) ess' ∧ NoDup (b :: c :: own_all ess') ∧ (∀ x, x ∈ c :: own_all ess' → x ∈ c :: own_all ess ∨ length h ≤ x) ∧
        (∀ x, x < length h → x ∉ b :: c :: own_all ess → h1 !! x = h !! x) ∧ spares k h h1 (concat ess) (concat ess') ∧ (∀ x, spares_in k h h1 (concat ess) x) ∧ cuts k h h1 (concat ess) (concat ess')).
      { intros es1 Hes1. assert (Hown1 : owns es1 = b' :: c1 :: own_all ess1) by (by rewrite Hes1).
        destruct (hit_slot k h h1 b c bm pos sl ch ess i (EB b') (Bm pos0 bm0 ch0) es0 (EB b') (Bm pos0 bm1 ch1) es1) as (G1 & G2 & G3 & G4 & G5 & G6 & G7); try done.
        - by rewrite list_insert_id.
        - rewrite Hes1. by econstructor.
        - by rewrite Hown1.
        - intros x. rewrite Hown0, Hown1. intros [->|Hx]%elem_of_cons; [left; left|]. destruct (Hsub1 x Hx) as [Hy|Hy]; [left; by right|by right].
        - intros x X1 X2. rewrite Hown0. intros X3. by apply Hfr1.
        - intros it Hit Hkit. apply elem_of_cons in Hit as [->|Hit]; [by destruct Hkit|]. destruct (P1 it Hit Hkit) as [Q1 Q2]. split; [|done]. rewrite Hes1. by right.
        - intros x _ l j e Ex Ej Hno. apply (P2 x l j e Ex Ej). intros t o Hto. apply Hno. by right.
        - intros a1 hash1 L1 v1 R1 o Hit. apply elem_of_cons in Hit as [Hit|Hit]; [done|]. destruct (P3 _ _ _ _ _ _ Hit) as (pl & q & pr & -> & Q1 & Q2 & Q3). exists pl, q, pr. split_and!; [done..|]. intros Q4. rewrite Hes1. right. by apply Q3.
        - rewrite (list_insert_id sl i _ Esl) in G1. eauto 10. }
      case_bool_decide as Hlen; [|].
      + destruct ch1 as [|[t1|] [|]]; try done. cbn [lookup list_lookup] in E. destruct t1 as [x1 kvs1|q bmq chq].
        * injection E as <- <-. inversion Hs1 as [| |e1 ? es1 sl1' ? ess1' He1 Hs1']; subst. inversion Hs1'; subst. inversion He1 as [a1 ? hd1 ? ps1 Hne1 Ea1 Hc1|]; subst.
          rewrite (bind_Ok (slot_eq h1 c1 [Some (EK a1)] 0 _ Ec1 eq_refl)). rewrite (bind_Ok (setslot_eq _ _ _ _ (Some (EK a1)) Ecc Hisl)). set (h2 := <[c := OArr (<[i := Some (EK a1)]> sl)]> h1).
          set (es1 := [(EK a1, Kv x1 kvs1, a1 :: ps1)]) in *. assert (Hca : concat [es1] = es1) by apply app_nil_r. assert (Hoa : own_all [es1] = owns es1) by (unfold own_all; by rewrite Hca).
          assert (F2 : ∀ x, x ≠ c → h2 !! x = h1 !! x) by (intros x Hx; by apply list_lookup_insert_ne).
          assert (Hown1 : ∀ x, x ∈ owns es1 → x ∈ owns es0 ∨ length h ≤ x). { intros x Hx. destruct (Hsub1 x) as [Hy|Hy]; [right; by rewrite Hoa| |by right]. left. rewrite Hown0. by right. }
          assert (Hc1n : c ∉ owns es1). { intros Hx. apply Hown1 in Hx as [Hx|Hx]; [by apply Hcc|lia]. }
          destruct (hit_slot k h h2 b c bm pos sl ch ess i (EB b') (Bm pos0 bm0 ch0) es0 (EK a1) (Kv x1 kvs1) es1) as (G1 & G2 & G3 & G4 & G5 & G6 & G7); try done.
          -- by rewrite F2.
          -- apply list_lookup_insert. by eapply lookup_lt_Some.
          -- eapply rep_e_frame; [exact He1|]. intros x Hx. apply F2. by intros ->.
          -- rewrite <-Hoa. rewrite !NoDup_cons in Hn1. destruct Hn1 as (_ & _ & Hn1). exact Hn1.
          -- intros x X1 X2. rewrite Hown0. intros X3. rewrite F2 by done. by apply Hfr1.
          -- intros it Hit Hkit. apply elem_of_cons in Hit as [->|Hit]; [by destruct Hkit|]. destruct (P1 it Hit Hkit) as [Q1 Q2]. rewrite Hca in Q1. split; [done|]. intros x Hx. rewrite F2; [by apply Q2|]. intros ->. apply Hcc. do 2 right. apply elem_owns. eauto.
          -- intros x Hx l j e Ex Ej Hno. rewrite F2; [|by intros ->; apply Hcc]. apply (P2 x l j e Ex Ej). intros t o Hto. apply Hno. by right.
          -- intros a2 hash2 L2 v2 R2 o Hit. apply elem_of_cons in Hit as [Hit|Hit]; [done|]. destruct (P3 _ _ _ _ _ _ Hit) as (pl & q & pr & -> & Q1 & Q2 & Q3). exists pl, q, pr. split_and!; [done..| |].
             ++ intros x Hx. rewrite F2; [by apply Q2|]. intros ->. apply Hcc. do 2 right. apply elem_owns. eexists. split; [done|]. right. apply elem_of_app. by right.
             ++ intros Q4. rewrite <-Hca. by apply Q3.
          -- exists h2, c. do 2 eexists. split_and!; [done| | |exact G1|exact G2|exact G3|unfold h2; rewrite insert_length; lia|exact G4|exact G5|exact G6|exact G7].
             ++ by rewrite F2.
             ++ apply list_lookup_insert. by eapply lookup_lt_Some.
        * injection E as <- <-. inversion Hs1 as [| |e1 ? es1 sl1' ? ess1' He1 Hs1']; subst. inversion Hs1'; subst. inversion He1; subst.
          rewrite (bind_Ok (slot_eq h1 c1 [Some (EB a)] 0 _ Ec1 eq_refl)). destruct (Hstay _ eq_refl) as (ess' & G1 & G2 & G3 & G4 & G5 & G6 & G7). exists h1, c, sl, ess'. split_and!; try done.
      + injection E as <- <-. destruct (Hstay _ eq_refl) as (ess' & G1 & G2 & G3 & G4 & G5 & G6 & G7). exists h1, c, sl, ess'. split_and!; try done.
  Qed.
End hit.
