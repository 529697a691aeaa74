(** Insert on the heap does what Insert on the value does. *)
From Verif Require Import Base HamtModel HamtHeapModel HamtHeapRep HamtHeapPlace.
Open Scope nat_scope.

Section ins.
  Context {T : Type}.
  Implicit Types (h : heap T) (ch : list (option (entry T))).
  Lemma put_eq a (o : obj T) h : put a o h = Ok (tt, <[a := o]> h).
  Proof. done. Qed.
  Lemma alloc_eq (o : obj T) h : alloc o h = Ok (length h, h ++ [o]).
  Proof. done. Qed.
  Lemma own_single n i (it : item T) : i < n → own_all (<[i := [it]]> (replicate n [])) = it.2.
  Proof.
    intros Hi. unfold own_all. rewrite insert_take_drop by (by rewrite replicate_length). rewrite take_replicate, drop_replicate, concat_app. cbn [concat].
    assert (Hz : ∀ m, concat (replicate m ([] : list (item T))) = []) by (intros m; induction m as [|m IHm]; [done|exact IHm]). rewrite !Hz. unfold owns. cbn. by rewrite app_nil_r.
  Qed.
  Lemma assign_inv (l l' : list (option (entry T))) j e : assign l j e = Ok l' → j < length l ∧ l' = <[j := Some e]> l.
  Proof. unfold assign. destruct (decide _); [|done]. by intros [= <-]. Qed.
  (** putting an entry into slot i of a node *)
  Lemma rebuild h h' b c bm pos sl ch ess i es0 e t es1 :
    rep_s h sl ch ess → NoDup (b :: c :: own_all ess) → ess !! i = Some es0 →
    h' !! b = Some (OBit bm pos c) → h' !! c = Some (OArr (<[i := Some e]> sl)) → rep_e h' e t es1 → NoDup (owns es1) →
    (∀ x, x ∈ owns es1 → x ∈ owns es0 ∨ x ∉ b :: c :: own_all ess) → (∀ x, x ∈ own_all ess → x ∉ owns es0 → h' !! x = h !! x) →
    rep_e h' (EB b) (Bm pos bm (<[i := Some t]> ch)) ((EB b, Bm pos bm (<[i := Some t]> ch), [b; c]) :: concat (<[i := es1]> ess)) ∧
    NoDup (b :: c :: own_all (<[i := es1]> ess)).
  Proof.
    intros Hs Hn Ei Eb Ec He Hn1 Hsub Hf. rewrite !NoDup_cons, !not_elem_of_cons in Hn. destruct Hn as ([Hbc Hb] & Hc & Hn). split.
    - econstructor; [done..|]. rewrite <-(list_insert_insert ch i _ None), <-(list_insert_insert sl i _ None), <-(list_insert_insert ess i _ []). apply rep_s_update; [|done].
      eapply rep_s_frame; [by apply rep_s_remove|]. intros x Hx. rewrite (own_all_upd _ _ _ _ Ei) in Hx. cbn in Hx. rewrite (own_all_at _ _ _ Ei) in Hn. apply NoDup_app in Hn as (_ & Hd & _). apply Hf; [|intros H; by apply (Hd _ H)].
      rewrite (own_all_at _ _ _ Ei). apply elem_of_app. by right.
    - rewrite !NoDup_cons, !not_elem_of_cons. split_and!; try done.
      + intros [Hx|Hx]%(own_upd_sub _ _ _ _ _ Ei); [|done]. apply Hsub in Hx as [Hx|Hx]; [by apply Hb, (own_at _ _ _ _ Ei)|]. apply Hx. left.
      + intros [Hx|Hx]%(own_upd_sub _ _ _ _ _ Ei); [|done]. apply Hsub in Hx as [Hx|Hx]; [by apply Hc, (own_at _ _ _ _ Ei)|]. apply Hx. right. left.
      + eapply upd_nodup; [done..|]. intros x [Hx|Hx]%Hsub; [by left|right]. intros Hy. apply Hx. by do 2 right.
  Qed.
  Lemma rebuild_sub b c ess i (es0 es1 : list (item T)) x : ess !! i = Some es0 → x ∈ b :: c :: own_all (<[i := es1]> ess) → x ∈ owns es1 ∨ x ∈ b :: c :: own_all ess.
  Proof. intros Ei. rewrite !elem_of_cons. intros [->|[->|[Hx|Hx]%(own_upd_sub _ _ _ _ _ Ei)]]; auto. Qed.

  Lemma h_insert_ok f : ∀ d hash kv kvs ps b pos bm ch es h bm' ch', rep_e h (EB b) (Bm pos bm ch) es → NoDup (owns es) →
    chain h (Some kv) kvs ps → NoDup ps → (∀ x, x ∈ ps → x ∉ owns es) → bn_insert f d hash kvs bm ch = Ok (bm', ch') →
    ∃ h' es', h_insert f d hash kv b h = Ok (tt, h') ∧ rep_e h' (EB b) (Bm pos bm' ch') es' ∧ NoDup (owns es') ∧
      (∀ x, x ∈ owns es' → x ∈ owns es ∨ x ∈ ps ∨ length h ≤ x) ∧ length h ≤ length h' ∧ (∀ x, x < length h → x ∉ owns es → x ∉ ps → h' !! x = h !! x).
  Proof.
    induction f as [|f IH]; intros d hash kv kvs ps b pos bm ch es h bm' ch' Hr Hn Hk Hnp Hpd E; [done|].
    inversion Hr as [|? ? ? c sl ? ess Eb Ec Hs]; subst. change (owns ((EB b, Bm pos bm ch, [b; c]) :: concat ess)) with (b :: c :: own_all ess) in *.
    assert (Hn0 := Hn). rewrite !NoDup_cons, !not_elem_of_cons in Hn. destruct Hn as ([Hbc Hb] & Hc & Hn). destruct (rep_s_len _ _ _ _ Hs) as [Hl1 Hl2].
    assert (Hlb := lookup_lt_Some _ _ _ Eb). assert (Hlc := lookup_lt_Some _ _ _ Ec).
    cbn [h_insert bn_insert] in *. rewrite (bind_Ok (rdB_eq _ _ _ _ _ Eb)). cbn [fst snd]. set (p := posf hash d) in *. destruct (N.land (bitposf p) bm =? 0)%N.
    - (* a new kv node *)
      set (bm1 := N.lor bm (bitposf p)) in *. set (i := index bm1 (bitposf p)) in *. assert (Hieq : index bm1 (bitposf p) = i) by done. clearbody i. destruct (assign _ i _) as [nc0| |] eqn:Eas; try done. apply assign_inv in Eas as [Hi ->].
      destruct (place_all bm1 d ch _) as [nc| |] eqn:Ep; try done. injection E as <- <-. rewrite replicate_length in Hi.
      set (h1 := <[b := OBit bm1 pos c]> h). rewrite (bind_Ok (put_eq _ _ _)). fold h1.
      assert (L1 : length h1 = length h) by apply insert_length. assert (h1 !! c = Some (OArr sl)) as Ec1 by (unfold h1; by rewrite list_lookup_insert_ne).
      rewrite (bind_Ok (rdA_eq _ _ _ Ec1)). set (n := S (length sl)). set (h2 := h1 ++ [OArr (replicate n None)]). rewrite (bind_Ok (alloc_eq _ _)). fold h2.
      set (h3 := h2 ++ [OKv hash (Some kv)]). rewrite (bind_Ok (alloc_eq _ _)). fold h3. assert (L2 : length h2 = S (length h)) by (unfold h2; rewrite app_length; cbn; lia).
      rewrite L1, L2. set (new := length h). set (kn := S (length h)).
      assert (F3 : ∀ x, x < length h → h3 !! x = h1 !! x). { intros x Hx. unfold h3, h2. rewrite !lookup_app_l; [done|lia|rewrite app_length; cbn; lia]. }
      assert (Eb3 : h3 !! b = Some (OBit bm1 pos c)) by (rewrite F3 by done; by apply list_lookup_insert).
      assert (En3 : h3 !! new = Some (OArr (replicate n None))). { unfold h3, h2. rewrite lookup_app_l by (rewrite app_length; cbn; lia). by apply list_lookup_middle. }
      assert (Ek3 : h3 !! kn = Some (OKv hash (Some kv))). { unfold h3. by apply list_lookup_middle. }
      rewrite (bind_Ok (h_index_eq _ _ _ _ _ _ Eb3)). rewrite Hieq. assert (Hi' : i < length (replicate n (None : option eref))) by (rewrite replicate_length; unfold n; lia).
      rewrite (bind_Ok (setslot_eq _ _ _ _ (Some (EK kn)) En3 Hi')). set (tl := <[i := Some (EK kn)]> (replicate n None)). set (h4 := <[new := OArr tl]> h3).
      assert (F4 : ∀ x, x ≠ new → h4 !! x = h3 !! x) by (intros x Hx; by apply list_lookup_insert_ne).
      assert (En4 : h4 !! new = Some (OArr tl)). { apply list_lookup_insert. by eapply lookup_lt_Some. }
      assert (FH : ∀ x, x < length h → x ≠ b → h4 !! x = h !! x). { intros x Hx Hxb. rewrite F4 by (unfold new; lia). rewrite F3 by done. unfold h1. by rewrite list_lookup_insert_ne. }
      set (it := (EK kn, Kv hash kvs, kn :: ps)). set (tess := <[i := [it]]> (replicate n [])).
      assert (Hne : kvs ≠ []) by (intros ->; by destruct ps).
      assert (Hps : ∀ x, x ∈ ps → x < length h ∧ x ≠ b). { intros x Hx. split; [by eapply chain_lt|]. intros ->. apply (Hpd _ Hx). left. }
      assert (Hall : own_all tess = kn :: ps). { unfold tess. rewrite own_single by (unfold n; lia). done. }
      assert (Hten : ∀ x, x ∈ own_all tess → x = kn ∨ x ∈ ps) by (intros x; rewrite Hall; apply elem_of_cons).
      assert (Hlt : ∀ x, x ∈ own_all ess → x < length h) by (intros x; apply (rep_s_lt _ _ _ _ _ Hs)).
      destruct (h_place_ok false b d c new bm1 pos c sl ltac:(unfold new; lia) ltac:(unfold new; lia) (length sl) 0 h4 ch ess tl (<[i := Some (Kv hash kvs)]> (replicate (S (length ch)) None)) tess nc) as (tl' & tess' & E' & Hs' & Hn' & Hsub & _ & _).
      + rewrite F4 by (unfold new; lia). done.
      + rewrite FH by (done || congruence). done.
      + done.
      + rewrite drop_0. eapply rep_s_frame; [done|]. intros x Hx. apply FH; [by apply Hlt|]. by intros ->.
      + done.
      + rewrite <-Hl1. apply rep_s_update; [apply rep_s_nones|]. econstructor; [done|rewrite F4 by (unfold new, kn; lia); done|]. eapply chain_frame; [done|]. intros x Hx. by apply FH; apply Hps.
      + apply NoDup_app. split_and!; [| |done].
        * rewrite Hall. apply NoDup_cons. split; [|done]. intros Hx%Hps. unfold kn in Hx. lia.
        * intros x [->|Hx]%Hten Hy; [apply Hlt in Hy; unfold kn in Hy; lia|]. apply (Hpd _ Hx). by do 2 right.
      + intros [Hx|Hx]%Hten; [unfold new, kn in Hx; lia|]. apply Hps in Hx. unfold new in Hx. lia.
      + intros Hx%Hlt. unfold new in Hx. lia.
      + exact Ep.
      + rewrite (bind_Ok E'). set (h5 := <[new := OArr tl']> h4). assert (Eb5 : h5 !! b = Some (OBit bm1 pos c)). { unfold h5. rewrite list_lookup_insert_ne by (unfold new; lia). rewrite F4 by (unfold new; lia). done. }
        rewrite (bind_Ok (rdB_eq _ _ _ _ _ Eb5)). cbn [fst snd]. set (h6 := <[b := OBit bm1 pos new]> h5).
        assert (L4 : length h4 = S (S (length h))). { unfold h4. rewrite insert_length. unfold h3. rewrite app_length, L2. cbn. lia. }
        assert (L5 : length h5 = length h4) by apply insert_length.
        assert (Hown : ∀ x, x ∈ own_all tess' → x = kn ∨ x ∈ ps ∨ x ∈ own_all ess). { intros x [Hx|Hx]%(own_sub _ _ _ _ Hsub); [apply Hten in Hx; tauto|tauto]. }
        assert (Hnb : ∀ x, x ∈ own_all tess' → x ≠ b ∧ x ≠ new).
        { intros x Hx. apply Hown in Hx as [->|[Hx|Hx]]; [unfold kn, new; lia|apply Hps in Hx; unfold new; lia|]. split; [by intros ->|]. apply Hlt in Hx. unfold new. lia. }
        exists h6, ((EB b, Bm pos bm1 nc, [b; new]) :: concat tess'). split_and!.
        * done.
        * econstructor; [apply list_lookup_insert; rewrite L5, L4; lia| |].
          -- unfold h6. rewrite list_lookup_insert_ne by (unfold new; lia). apply list_lookup_insert. rewrite L4. unfold new. lia.
          -- eapply rep_s_frame; [done|]. intros x [H1 H2]%Hnb. unfold h6, h5. by rewrite !list_lookup_insert_ne by congruence.
        * change (owns ((EB b, Bm pos bm1 nc, [b; new]) :: concat tess')) with (b :: new :: own_all tess'). rewrite !NoDup_cons, !not_elem_of_cons. split_and!; [unfold new; lia| | |done]; intros Hx%Hnb; tauto.
        * intros x. change (owns ((EB b, Bm pos bm1 nc, [b; new]) :: concat tess')) with (b :: new :: own_all tess'). rewrite !elem_of_cons. intros [->|[->|Hx]]; [auto|unfold new; auto|]. apply Hown in Hx as [->|[Hx|Hx]]; [|auto|auto]. do 2 right. unfold kn. lia.
        * unfold h6. rewrite insert_length, L5, L4. lia.
        * intros x Hx Hx1 Hx2. rewrite !not_elem_of_cons in Hx1. destruct Hx1 as (H1 & H2 & H3). unfold h6, h5. rewrite !list_lookup_insert_ne by (done || (unfold new; lia)). apply FH; [done|congruence].
    - (* an occupied slot *)
      rewrite (bind_Ok (h_index_eq _ _ _ _ _ _ Eb)). set (i := index bm (bitposf p)) in *. destruct (ch !! i) as [[t|]|] eqn:Ei; [|done|done].
      destruct (rep_s_lookup _ _ _ _ _ _ Hs Ei) as (e & es0 & Esl & Eess & He). rewrite (bind_Ok (slot_eq _ _ _ _ _ Ec Esl)).
      assert (Hin : ∀ x, x ∈ owns es0 → x ∈ own_all ess) by (intros x; by apply (own_at _ _ _ _ Eess)).
      assert (Hlt : ∀ x, x ∈ own_all ess → x < length h) by (intros x; apply (rep_s_lt _ _ _ _ _ Hs)).
      assert (Hpd' : ∀ x, x ∈ ps → x ≠ b ∧ x ≠ c ∧ x ∉ own_all ess). { intros x Hx. specialize (Hpd x Hx). rewrite !not_elem_of_cons in Hpd. tauto. }
      assert (Hbc' : ∀ x, x ∈ own_all ess → x ≠ b ∧ x ≠ c) by (intros x Hx; split; by intros ->).
      assert (Hnes : NoDup (owns es0)). { rewrite (own_all_at _ _ _ Eess) in Hn. apply NoDup_app in Hn as [Hn _]. exact Hn. }
      inversion He as [a hash' hd kvs' ps' Hne Ea Hc'|b' bm0 pos0 c0 sl0 ch0 ess0 Eb0 Ec0 Hs0]; subst e t es0.
      + rewrite (bind_Ok (rdK_eq _ _ _ _ Ea)). cbn [fst snd]. unfold owns in Hin, Hnes. cbn in Hin, Hnes. rewrite app_nil_r in Hin, Hnes. apply NoDup_cons in Hnes as [Ha Hnps].
        destruct (N.eqb_spec hash' hash) as [->|Hne'].
        * destruct kvs as [|[k v] kvs0]; [done|]. destruct ps as [|kv' ps0]; [done|]. destruct Hk as ([= <-] & nx0 & Ekv & Hk). rewrite (bind_Ok (rdP_eq _ _ _ _ _ Ekv)). cbn [fst snd].
          pose proof (search_spec h k kvs' hd ps' Hc' Hnps) as Hfind. destruct (find_kv k kvs') as [v'|] eqn:Ef.
          -- destruct Hfind as (L & R & pl & q & pr & nx & -> & -> & HL & HkL & Eq & Hcr & Hse). rewrite (bind_Ok Hse). rewrite (bind_Ok (rdP_eq _ _ _ _ _ Eq)). cbn [fst snd].
             rewrite (update_split k v L R v' HkL) in E. injection E as <- <-. apply (seg_app _ _ _ _ _ _ _ HL) in Hc' as (mid & Hc1 & Hc2). pose proof (seg_head _ _ _ _ _ Hc2) as ->.
             apply NoDup_app in Hnps as (Hp1 & Hp2 & [Hp3 Hp4]%NoDup_cons). set (h' := <[q := OPair k v nx]> h).
             assert (Hqin : q ∈ own_all ess) by (apply Hin; right; apply elem_of_app; right; left).
             assert (F : ∀ x, x ≠ q → h' !! x = h !! x) by (intros x Hx; by apply list_lookup_insert_ne).
             destruct (rebuild h h' b c bm pos sl ch ess i [(EK a, Kv hash (L ++ (k, v') :: R), a :: pl ++ q :: pr)] (EK a) (Kv hash (L ++ (k, v) :: R)) [(EK a, Kv hash (L ++ (k, v) :: R), a :: pl ++ q :: pr)]) as [H1 H2]; try done.
             { rewrite F; [done|]. by intros ->. }
             { rewrite F; [by rewrite list_insert_id|]. by intros ->. }
             { econstructor; [by destruct L|rewrite F; [done|intros ->; apply Ha; apply elem_of_app; right; left]|]. apply seg_app; [done|]. exists (Some q). split.
               - eapply seg_frame; [done|]. intros x Hx. apply F. intros ->. by apply (Hp2 q Hx); left.
               - cbn. split; [done|]. exists nx. split; [apply list_lookup_insert; by eapply lookup_lt_Some|]. eapply seg_frame; [exact Hcr|]. intros x Hx. apply F. by intros ->. }
             { unfold owns. cbn. rewrite app_nil_r. apply NoDup_cons. split; [done|]. apply NoDup_app. split_and!; [done|done|]. by apply NoDup_cons. }
             { intros x Hx. by left. }
             { intros x Hx1 Hx2. apply F. intros ->. apply Hx2. unfold owns. cbn. rewrite app_nil_r. right. apply elem_of_app. right. left. }
             exists h'. eexists. split_and!; [done|exact H1|exact H2| |unfold h'; rewrite insert_length; lia|].
             { intros x Hx. apply (rebuild_sub b c ess i _ _ _ Eess) in Hx as [Hx|Hx]; [|by left]. left. do 2 right. by apply (own_at _ _ _ _ Eess). }
             { intros x Hx Hx1 Hx2. apply F. intros ->. apply Hx1. by do 2 right. }
          -- rewrite (bind_Ok Hfind). rewrite (update_none k v _ Ef) in E. injection E as <- <-. rewrite (bind_Ok (put_eq _ _ _)).
             set (h' := <[a := OKv hash (Some kv)]> (<[kv := OPair k v hd]> h)). destruct (Hpd' kv ltac:(left)) as (K1 & K2 & K3). assert (Hain : a ∈ own_all ess) by (apply Hin; left).
             destruct (Hbc' _ Hain) as [A1 A2]. assert (Hak : a ≠ kv) by (by intros ->).
             assert (F : ∀ x, x ≠ a → x ≠ kv → h' !! x = h !! x). { intros x H1 H2. unfold h'. by rewrite !list_lookup_insert_ne by congruence. }
             assert (Hkps : kv ∉ ps') by (intros Hx; apply K3, Hin; by right).
             destruct (rebuild h h' b c bm pos sl ch ess i [(EK a, Kv hash kvs', a :: ps')] (EK a) (Kv hash ((k, v) :: kvs')) [(EK a, Kv hash ((k, v) :: kvs'), a :: kv :: ps')]) as [H1 H2]; try done.
             { rewrite F by congruence. done. }
             { rewrite F by congruence. by rewrite list_insert_id. }
             { econstructor; [done|apply list_lookup_insert; rewrite insert_length; by eapply lookup_lt_Some|]. split; [done|]. exists hd. split.
               - unfold h'. rewrite list_lookup_insert_ne by done. apply list_lookup_insert. by eapply lookup_lt_Some.
               - eapply seg_frame; [exact Hc'|]. intros x Hx. apply F; by intros ->. }
             { unfold owns. cbn. rewrite app_nil_r. apply NoDup_cons. split; [by rewrite not_elem_of_cons|]. by apply NoDup_cons. }
             { intros x. unfold owns. cbn. rewrite !app_nil_r, !elem_of_cons. intros [->|[->|Hx]]; [auto| |auto]. right. tauto. }
             { intros x Hx1 Hx2. apply F; [|by intros ->]. intros ->. apply Hx2. unfold owns. cbn. left. }
             exists h'. eexists. split_and!; [done|exact H1|exact H2| |unfold h'; rewrite !insert_length; lia|].
             { intros x Hx. apply (rebuild_sub b c ess i _ _ _ Eess) in Hx as [Hx|Hx]; [|by left]. unfold owns in Hx. cbn in Hx. rewrite app_nil_r, !elem_of_cons in Hx. destruct Hx as [->|[->|Hx]].
               - left. by do 2 right.
               - right. left. left.
               - left. do 2 right. apply Hin. by right. }
             { intros x Hx Hx1 Hx2. apply F; [intros ->; apply Hx1; by do 2 right|intros ->; apply Hx2; left]. }
        * destruct (bn_insert f (S d) hash' kvs' 0 []) as [[bm1 ch1]| |] eqn:E1; try done. destruct (bn_insert f (S d) hash kvs bm1 ch1) as [[bm2 ch2]| |] eqn:E2; try done. injection E as <- <-.
          set (h1 := h ++ [OArr []]). rewrite (bind_Ok (alloc_eq _ _)). fold h1. set (h2 := h1 ++ [OBit 0 p (length h)]). rewrite (bind_Ok (alloc_eq _ _)). fold h2.
          assert (L1 : length h1 = S (length h)) by (unfold h1; rewrite app_length; cbn; lia). assert (L2 : length h2 = S (S (length h))) by (unfold h2; rewrite app_length; cbn; lia). rewrite L1.
          assert (F2 : ∀ x, x < length h → h2 !! x = h !! x). { intros x Hx. unfold h2, h1. by rewrite !lookup_app_l by (rewrite ?app_length; cbn; lia). }
          set (nb := S (length h)). set (nc := length h).
          assert (R0 : rep_e h2 (EB nb) (Bm p 0 []) [(EB nb, Bm p 0 [], [nb; nc])]).
          { apply (rep_bm h2 nb 0 p nc [] [] []); [unfold h2; by apply list_lookup_middle| |constructor]. unfold h2. rewrite lookup_app_l by lia. unfold h1. by apply list_lookup_middle. }
          destruct hd as [l|]; [|by destruct kvs' as [|[]], ps'; destruct Hc'].
          assert (Hps' : ∀ x, x ∈ ps' → x < length h) by (intros x; by apply (chain_lt _ _ _ _ _ Hc')).
          destruct (IH (S d) hash' l kvs' ps' nb p 0%N [] _ h2 bm1 ch1 R0) as (h3 & es3 & E3 & R3 & N3 & S3 & L3 & F3); try done.
          { unfold owns. cbn. apply NoDup_cons. split; [|apply NoDup_singleton]. rewrite elem_of_list_singleton. unfold nb, nc. lia. }
          { eapply chain_frame; [done|]. intros x Hx. by apply F2, Hps'. }
          { intros x Hx%Hps'. unfold owns. cbn. rewrite !not_elem_of_cons. unfold nb, nc. split_and!; [lia|lia|apply not_elem_of_nil]. }
          rewrite (bind_Ok E3).
          assert (S3' : ∀ x, x ∈ owns es3 → x ∈ ps' ∨ length h ≤ x). { intros x [Hx|[Hx|Hx]]%S3; [|auto|right; lia]. unfold owns in Hx. cbn in Hx. rewrite !elem_of_cons in Hx. destruct Hx as [->|[->|?%elem_of_nil]]; unfold nb, nc; auto. right. lia. }
          assert (F3' : ∀ x, x < length h → x ∉ ps' → h3 !! x = h !! x). { intros x Hx Hx'. rewrite F3; [by apply F2|lia| |done]. unfold owns. cbn. rewrite !not_elem_of_cons. unfold nb, nc. split_and!; [lia|lia|apply not_elem_of_nil]. }
          assert (Hkl : ∀ x, x ∈ ps → x < length h) by (intros x; by apply (chain_lt _ _ _ _ _ Hk)).
          assert (Hkd : ∀ x, x ∈ ps → x ∉ ps'). { intros x Hx Hy. destruct (Hpd' _ Hx) as (_ & _ & Hz). apply Hz, Hin. by right. }
          destruct (IH (S d) hash kv kvs ps nb p bm1 ch1 es3 h3 bm2 ch2 R3 N3) as (h4 & es4 & E4 & R4 & N4 & S4 & L4 & F4); try done.
          { eapply chain_frame; [done|]. intros x Hx. apply F3'; auto. }
          { intros x Hx Hy. apply S3' in Hy as [Hy|Hy]; [by apply (Hkd x)|]. apply Hkl in Hx. lia. }
          rewrite (bind_Ok E4).
          assert (S4' : ∀ x, x ∈ owns es4 → x ∈ ps' ∨ x ∈ ps ∨ length h ≤ x). { intros x [Hx|[Hx|Hx]]%S4; [apply S3' in Hx; tauto|auto|]. right. right. lia. }
          assert (F4' : ∀ x, x < length h → x ∉ ps' → x ∉ ps → h4 !! x = h !! x). { intros x Hx H1 H2. rewrite F4; [by apply F3'|lia| |done]. intros [Hy|Hy]%S3'; [done|lia]. }
          assert (Ec4 : h4 !! c = Some (OArr sl)). { rewrite F4'; [done|done| |]. - intros Hx. apply Hc, Hin. by right. - intros Hx. by destruct (Hpd' _ Hx) as (? & ? & ?). }
          assert (Eb4 : h4 !! b = Some (OBit bm pos c)). { rewrite F4'; [done|done| |]. - intros Hx. apply Hb, Hin. by right. - intros Hx. by destruct (Hpd' _ Hx) as (? & ? & ?). }
          assert (Hi : i < length sl) by (by eapply lookup_lt_Some). rewrite (setslot_eq _ _ _ _ (Some (EB nb)) Ec4 Hi). set (h5 := <[c := OArr (<[i := Some (EB nb)]> sl)]> h4).
          assert (F5 : ∀ x, x ≠ c → h5 !! x = h4 !! x) by (intros x Hx; by apply list_lookup_insert_ne).
          destruct (rebuild h h5 b c bm pos sl ch ess i [(EK a, Kv hash' kvs', a :: ps')] (EB nb) (Bm p bm2 ch2) es4) as [H1 H2]; try done.
          { by rewrite F5 by done. }
          { apply list_lookup_insert. by eapply lookup_lt_Some. }
          { eapply rep_e_frame; [done|]. intros x Hx. apply F5. intros ->. apply S4' in Hx as [Hx|[Hx|Hx]]; [apply Hc, Hin; by right|by destruct (Hpd' _ Hx) as (? & ? & ?)|lia]. }
          { intros x Hx. apply S4' in Hx as [Hx|[Hx|Hx]]; [left; unfold owns; cbn; rewrite app_nil_r; by right| |].
            - right. rewrite !not_elem_of_cons. apply Hpd' in Hx. tauto.
            - right. rewrite !not_elem_of_cons. split_and!; [lia|lia|]. intros Hy%Hlt. lia. }
          { intros x Hx Hx'. unfold owns in Hx'. cbn in Hx'. rewrite app_nil_r, not_elem_of_cons in Hx'. rewrite F5 by (by apply Hbc'). apply F4'; [by apply Hlt|tauto|]. intros Hy. by destruct (Hpd' _ Hy) as (? & ? & ?). }
          exists h5. eexists. split_and!; [done|exact H1|exact H2| |unfold h5; rewrite insert_length; lia|].
          { intros x Hx. apply (rebuild_sub b c ess i _ _ _ Eess) in Hx as [Hx|Hx]; [|by left]. apply S4' in Hx as [Hx|[Hx|Hx]]; auto. left. do 2 right. apply Hin. by right. }
          { intros x Hx Hx1 Hx2. rewrite !not_elem_of_cons in Hx1. destruct Hx1 as (G1 & G2 & G3). rewrite F5 by done. apply F4'; [done| |done]. intros Hy. apply G3, Hin. by right. }
      + destruct (bn_insert f (S d) hash kvs bm0 ch0) as [[bm1 ch1]| |] eqn:E1; try done. injection E as <- <-.
        destruct (IH (S d) hash kv kvs ps b' pos0 bm0 ch0 _ h bm1 ch1 He Hnes) as (h' & es' & E' & R' & N' & S' & L' & F'); try done.
        { intros x Hx Hy. destruct (Hpd' _ Hx) as (_ & _ & Hz). by apply Hz, Hin. }
        destruct (rebuild h h' b c bm pos sl ch ess i ((EB b', Bm pos0 bm0 ch0, [b'; c0]) :: concat ess0) (EB b') (Bm pos0 bm1 ch1) es') as [H1 H2]; try done.
        { rewrite F'; [done|done| |]. - intros Hx. by apply Hb, Hin. - intros Hx. by destruct (Hpd' _ Hx) as (? & ? & ?). }
        { rewrite F'; [by rewrite list_insert_id|done| |]. - intros Hx. by apply Hc, Hin. - intros Hx. by destruct (Hpd' _ Hx) as (? & ? & ?). }
        { intros x [Hx|[Hx|Hx]]%S'; [by left| |]; right; rewrite !not_elem_of_cons; [apply Hpd' in Hx; tauto|]. split_and!; [lia|lia|]. intros Hy%Hlt. lia. }
        { intros x Hx Hx'. apply F'; [by apply Hlt|done|]. intros Hy. by destruct (Hpd' _ Hy) as (? & ? & ?). }
        exists h'. eexists. split_and!; [done|exact H1|exact H2| |done|].
        { intros x Hx. apply (rebuild_sub b c ess i _ _ _ Eess) in Hx as [Hx|Hx]; [|by left]. apply S' in Hx as [Hx|[Hx|Hx]]; auto. left. do 2 right. by apply Hin. }
        { intros x Hx Hx1 Hx2. rewrite !not_elem_of_cons in Hx1. destruct Hx1 as (G1 & G2 & G3). apply F'; [done| |done]. intros Hy. by apply G3, Hin. }
  Qed.

  Lemma h_find_ok f : ∀ d hash k b pos bm ch es h r, rep_e h (EB b) (Bm pos bm ch) es → NoDup (owns es) → bn_find f d hash k bm ch = Ok r → h_find f d hash k b h = Ok (r, h).
  Proof.
    induction f as [|f IH]; intros d hash k b pos bm ch es h r Hr Hn E; [done|].
    inversion Hr as [|? ? ? c sl ? ess Eb Ec Hs]; subst. change (owns ((EB b, Bm pos bm ch, [b; c]) :: concat ess)) with (b :: c :: own_all ess) in *.
    rewrite !NoDup_cons in Hn. destruct Hn as (_ & _ & Hn). cbn [h_find bn_find] in *. rewrite (bind_Ok (rdB_eq _ _ _ _ _ Eb)). cbn [fst snd]. destruct (_ =? 0)%N; [by injection E as <-|].
    rewrite (bind_Ok (h_index_eq _ _ _ _ _ _ Eb)). destruct (ch !! _) as [[t|]|] eqn:Ei; [|done|done]. destruct (rep_s_lookup _ _ _ _ _ _ Hs Ei) as (e & es0 & Esl & Eess & He). rewrite (bind_Ok (slot_eq _ _ _ _ _ Ec Esl)).
    assert (Hnes : NoDup (owns es0)). { rewrite (own_all_at _ _ _ Eess) in Hn. apply NoDup_app in Hn as [Hn _]. exact Hn. }
    inversion He as [a hash' hd kvs' ps' Hne Ea Hc'|b' bm0 pos0 c0 sl0 ch0 ess0 Eb0 Ec0 Hs0]; subst e t es0; [|eapply IH; eauto].
    rewrite (bind_Ok (rdK_eq _ _ _ _ Ea)). cbn [fst snd]. destruct (negb _); [by injection E as <-|]. unfold owns in Hnes. cbn in Hnes. rewrite app_nil_r in Hnes. apply NoDup_cons in Hnes as [_ Hnps].
    pose proof (search_spec h k kvs' hd ps' Hc' Hnps) as Hfind. injection E as <-. destruct (find_kv k kvs') as [v'|] eqn:Ef.
    - destruct Hfind as (L & R & pl & q & pr & nx & -> & -> & HL & HkL & Eq & Hcr & Hse). rewrite (bind_Ok Hse). by rewrite (bind_Ok (rdP_eq _ _ _ _ _ Eq)).
    - by rewrite (bind_Ok Hfind).
  Qed.
End ins.
