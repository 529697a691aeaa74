(** Erase on the heap does what Erase on the value does, and leaves alone what does not contain the key. *)
From Verif Require Import Base HamtModel HamtProofs HamtHeapModel HamtHeapRep HamtHeapPlace HamtHeapIns.
Open Scope nat_scope.

Section erase.
  Context {T : Type}.
  Implicit Types (h : heap T) (ch : list (option (entry T))).
  (** the keys below an item *)
  Definition ikeys (it : item T) : list key := (eflat it.1.2).*1.
  (** no empty slot at any level *)
  Fixpoint full (f : nat) ch : Prop := match f with O => True | S f => Forall (λ x, match x with None => False | Some (Kv _ _) => True | Some (Bm _ _ c) => full f c end) ch end.
  Lemma wf_full hf f : ∀ d pre bm ch, wf hf f d pre bm ch → full f ch.
  Proof.
    induction f as [|f IH]; intros d pre bm ch; [done|]. intros (sl & _ & -> & Hs). cbn [full]. unfold es. rewrite Forall_fmap. eapply Forall_impl; [exact Hs|]. intros [p [x kvs|q bm' c]]; cbn; [done|]. intros (_ & _ & Hw & _). by eapply IH.
  Qed.
  Lemma full_at f ch i p bm c : full (S f) ch → ch !! i = Some (Some (Bm p bm c)) → full f c.
  Proof. cbn [full]. rewrite Forall_lookup. intros H E. exact (H _ _ E). Qed.
  Lemma full_filled f ch : full (S f) ch → filled ch = length ch.
  Proof. cbn [full]. induction 1 as [|[x|] ch H _ IH]; cbn; [done|by f_equal|done]. Qed.
  Lemma filled_hole ch i : filled ch = length ch → i < length ch → filled (<[i := None]> ch) = length ch - 1.
  Proof.
    assert (Hle : ∀ ch, filled ch ≤ length ch) by (intros l; induction l as [|[x|] l IH]; cbn; lia).
    revert i. induction ch as [|[x|] ch IH]; intros [|i]; cbn; intros H Hi; try lia; [|specialize (Hle ch); lia..]. rewrite IH by lia. lia.
  Qed.

  Lemma flat_at ch i t : ch !! i = Some (Some t) → ∃ l1 l2, flat ch = l1 ++ eflat t ++ l2.
  Proof.
    revert i. induction ch as [|x ch IH]; intros [|i]; cbn [lookup list_lookup]; try done.
    - intros [= ->]. cbn [flat]. by exists [], (flat ch).
    - intros E. destruct (IH _ E) as (l1 & l2 & E'). destruct x as [e|]; cbn [flat]; rewrite E'; [exists (eflat e ++ l1), l2; by rewrite app_assoc|by exists l1, l2].
  Qed.
  Lemma flat_in ch i t k : ch !! i = Some (Some t) → k ∈ (eflat t).*1 → k ∈ (flat ch).*1.
  Proof. intros (l1 & l2 & ->)%flat_at Hk. rewrite !fmap_app, !elem_of_app. auto. Qed.
  Lemma flat_nodup ch i t : ch !! i = Some (Some t) → NoDup (flat ch).*1 → NoDup (eflat t).*1.
  Proof. intros (l1 & l2 & ->)%flat_at. rewrite !fmap_app. by intros (_ & _ & (? & _)%NoDup_app)%NoDup_app. Qed.
  Lemma flat_two ch i j t t' k : NoDup (flat ch).*1 → ch !! i = Some (Some t) → ch !! j = Some (Some t') → k ∈ (eflat t).*1 → k ∈ (eflat t').*1 → i = j.
  Proof.
    revert i j. induction ch as [|x ch IH]; intros [|i] [|j]; cbn [lookup list_lookup]; try done.
    - intros Hn [= ->] E Hk Hk'. exfalso. cbn [flat] in Hn. rewrite fmap_app in Hn. apply NoDup_app in Hn as (_ & H & _). apply (H _ Hk). by eapply flat_in.
    - intros Hn E [= ->] Hk Hk'. exfalso. cbn [flat] in Hn. rewrite fmap_app in Hn. apply NoDup_app in Hn as (_ & H & _). apply (H _ Hk'). by eapply flat_in.
    - intros Hn E E' Hk Hk'. f_equal. apply IH; try done. destruct x as [x|]; cbn [flat] in Hn; [|done]. rewrite fmap_app in Hn. by apply NoDup_app in Hn as (_ & _ & ?).
  Qed.
  Lemma eflat_at p bm (c : list (option (entry T))) : eflat (Bm p bm c) = flat c.
  Proof. apply eflat_Bm. Qed.
  (** what is below an item is below every entry it belongs to *)
  Lemma rep_keys h : (∀ e t es, rep_e h e t es → ∀ it k, it ∈ es → k ∈ ikeys it → k ∈ (eflat t).*1) ∧ (∀ sl ch ess, rep_s h sl ch ess → ∀ it k, it ∈ concat ess → k ∈ ikeys it → k ∈ (flat ch).*1).
  Proof.
    apply rep_ind.
    - intros a hash hd kvs ps _ _ _ it k ->%elem_of_list_singleton. done.
    - intros a bm pos c sl ch ess _ _ _ IH it k [->|Hi]%elem_of_cons Hk; [done|]. rewrite eflat_at. eauto.
    - by intros it k ?%elem_of_nil.
    - intros sl ch ess _ IH. exact IH.
    - intros e t es sl ch ess _ IHe _ IHs it k. cbn [concat flat]. rewrite fmap_app, !elem_of_app. intros [Hi|Hi] Hk; eauto.
  Qed.
  Lemma rep_s_item h sl ch ess it : rep_s h sl ch ess → it ∈ concat ess → ∃ j e t es, ch !! j = Some (Some t) ∧ sl !! j = Some (Some e) ∧ ess !! j = Some es ∧ rep_e h e t es ∧ it ∈ es.
  Proof.
    intros H. induction H as [|sl ch ess _ IH|e t es sl ch ess He _ IH]; cbn [concat]; [by intros ?%elem_of_nil| |].
    - intros Hi. destruct (IH Hi) as (j & H). by exists (S j).
    - intros [Hi|Hi]%elem_of_app; [by exists 0, e, t, es|]. destruct (IH Hi) as (j & H). by exists (S j).
  Qed.

  Lemma erase_false f : ∀ d hash k bm ch bm' ch', bn_erase f d hash k bm ch = Ok (false, bm', ch') → bm' = bm ∧ ch' = ch.
  Proof.
    induction f as [|f IH]; intros d hash k bm ch bm' ch'; cbn [bn_erase]; [done|]. destruct (_ =? 0)%N; [by intros [= <- <-]|].
    destruct (ch !! _) as [[[x kvs|p bm0 ch0]|]|] eqn:Ei; try done.
    - destruct (negb _); [by intros [= <- <-]|]. destruct (unlink k kvs) as [[|y l]|]; [|done|by intros [= <- <-]]. by destruct (place_some _ _ _ _).
    - destruct (bn_erase f (S d) hash k bm0 ch0) as [[[[|] bm1] ch1]| |] eqn:E; try done.
      + cbn [andb]. destruct (bool_decide _); [|done]. by destruct (ch1 !! 0) as [[[|]|]|].
      + cbn [andb]. intros [= <- <-]. destruct (IH _ _ _ _ _ _ _ E) as [-> ->]. split; [done|]. by apply list_insert_id.
  Qed.
  Lemma unlink_find k (l : list (key * T)) : is_Some (unlink k l) → k ∈ l.*1.
  Proof.
    induction l as [|[k1 v1] l IH]; cbn; [by intros []|]. case_bool_decide as Hk; [intros _; subst; left|]. destruct (unlink k l); [intros _; right; by apply IH|by intros []].
  Qed.
  Lemma erase_true f : ∀ d hash k bm ch bm' ch', bn_erase f d hash k bm ch = Ok (true, bm', ch') → k ∈ (flat ch).*1.
  Proof.
    induction f as [|f IH]; intros d hash k bm ch bm' ch'; cbn [bn_erase]; [done|]. destruct (_ =? 0)%N; [done|].
    destruct (ch !! _) as [[[x kvs|p bm0 ch0]|]|] eqn:Ei; try done.
    - destruct (negb _); [done|]. destruct (unlink k kvs) as [l|] eqn:Eu; [|done]. intros _. eapply flat_in; [done|]. apply (unlink_find k kvs). by rewrite Eu.
    - destruct (bn_erase f (S d) hash k bm0 ch0) as [[[[|] bm1] ch1]| |] eqn:E; try done. intros _. eapply flat_in; [done|]. rewrite eflat_at. by eapply IH.
  Qed.

  (** a key that is not there *)
  Lemma h_erase_miss f : ∀ d hash k b pos bm ch es h bm' ch', rep_e h (EB b) (Bm pos bm ch) es → NoDup (owns es) → bn_erase f d hash k bm ch = Ok (false, bm', ch') → h_erase f d hash k b h = Ok (false, h).
  Proof.
    induction f as [|f IH]; intros d hash k b pos bm ch es h bm' ch' Hr Hn E; [done|].
    inversion Hr as [|? ? ? c sl ? ess Eb Ec Hs]; subst. change (owns ((EB b, Bm pos bm ch, [b; c]) :: concat ess)) with (b :: c :: own_all ess) in *.
    rewrite !NoDup_cons in Hn. destruct Hn as (_ & _ & Hn). cbn [h_erase bn_erase] in *. rewrite (bind_Ok (rdB_eq _ _ _ _ _ Eb)). cbn [fst snd]. destruct (_ =? 0)%N; [done|].
    rewrite (bind_Ok (h_index_eq _ _ _ _ _ _ Eb)). destruct (ch !! _) as [[t|]|] eqn:Ei; [|done|done]. destruct (rep_s_lookup _ _ _ _ _ _ Hs Ei) as (e & es0 & Esl & Eess & He). rewrite (bind_Ok (slot_eq _ _ _ _ _ Ec Esl)).
    assert (Hnes : NoDup (owns es0)). { rewrite (own_all_at _ _ _ Eess) in Hn. apply NoDup_app in Hn as [Hn _]. exact Hn. }
    inversion He as [a hash' hd kvs' ps' Hne Ea Hc'|b' bm0 pos0 c0 sl0 ch0 ess0 Eb0 Ec0 Hs0]; subst e t es0.
    - rewrite (bind_Ok (rdK_eq _ _ _ _ Ea)). cbn [fst snd]. destruct (negb _); [done|]. unfold owns in Hnes. cbn in Hnes. rewrite app_nil_r in Hnes. apply NoDup_cons in Hnes as [_ Hnps].
      pose proof (search_spec h k kvs' hd ps' Hc' Hnps) as Hfind. destruct (find_kv k kvs') as [v'|] eqn:Ef; [|by rewrite (bind_Ok Hfind)].
      destruct Hfind as (L & R & pl & q & pr & nx & -> & -> & HL & HkL & Eq & Hcr & Hse). rewrite (unlink_split k L R v' HkL) in E. destruct (L ++ R); [|done]. by destruct (place_some _ _ _ _).
    - destruct (bn_erase f (S d) hash k bm0 ch0) as [[[[|] bm1] ch1]| |] eqn:E1; try done.
      + cbn [andb] in E. destruct (bool_decide _); [|done]. by destruct (ch1 !! 0) as [[[|]|]|].
      + rewrite (bind_Ok (IH _ _ _ _ _ _ _ _ _ _ _ He Hnes E1)). rewrite (bind_Ok (rdB_eq _ _ _ _ _ Eb0)), (bind_Ok (rdA_eq _ _ _ Ec0)). done.
  Qed.

  (** unlinking a pair *)
  Lemma unlink_prog {A} h a x hd L k v R pl p pr nx (K : M (heap T) A) : h !! a = Some (OKv x hd) → chain h hd (L ++ (k, v) :: R) (pl ++ p :: pr) → length L = length pl → h !! p = Some (OPair k v nx) →
    a ∉ pl ++ p :: pr → NoDup (pl ++ p :: pr) →
    ∃ h1 hd', mbind_ (match last pl with Some y => mbind_ (rdP y) (λ qy, put y (OPair qy.1.1 qy.1.2 nx)) | None => put a (OKv x nx) end) (λ _, K) h = K h1 ∧
      h1 !! a = Some (OKv x hd') ∧ chain h1 hd' (L ++ R) (pl ++ pr) ∧ length h1 = length h ∧ (∀ y, y ≠ a → y ∉ pl → h1 !! y = h !! y).
  Proof.
    intros Ea Hc HL Ep Ha Hn. apply (seg_app _ _ _ _ _ _ _ HL) in Hc as (mid & H1 & H2). cbn [seg_to] in H2. destruct H2 as (-> & nx' & Ep' & H2). rewrite Ep in Ep'. injection Ep' as <-.
    apply NoDup_app in Hn as (N1 & N2 & [N3 N4]%NoDup_cons). rewrite not_elem_of_app, not_elem_of_cons in Ha. destruct Ha as (A1 & A2 & A3).
    destruct pl as [|y pl _] using rev_ind.
    - destruct L; [|done]. cbn in H1. subst hd. exists (<[a := OKv x nx]> h), nx. cbn [last]. split_and!.
      + by rewrite (bind_Ok (put_eq _ _ _)).
      + apply list_lookup_insert. by eapply lookup_lt_Some.
      + eapply chain_frame; [exact H2|]. intros z Hz. apply list_lookup_insert_ne. by intros ->.
      + apply insert_length.
      + intros z Hz _. by apply list_lookup_insert_ne.
    - destruct L as [|[ky vy] L _] using rev_ind; [rewrite app_length in HL; cbn in HL; lia|]. rewrite !app_length in HL. cbn in HL. apply seg_app in H1 as (mid & H1 & H1'); [|lia]. cbn in H1'. destruct H1' as (-> & ? & Ey & ->).
      rewrite last_snoc. exists (<[y := OPair ky vy nx]> h), hd. apply NoDup_app in N1 as (N1 & N5 & _). rewrite not_elem_of_app, not_elem_of_cons in A1. destruct A1 as (A1 & A4 & _). split_and!.
      + unfold mbind_ at 1. rewrite (bind_Ok (rdP_eq _ _ _ _ _ Ey)). done.
      + by rewrite list_lookup_insert_ne.
      + rewrite <-!app_assoc. apply seg_app; [lia|]. exists (Some y). split.
        * eapply seg_frame; [done|]. intros z Hz. apply list_lookup_insert_ne. intros ->. apply (N5 z Hz). left.
        * cbn. split; [done|]. exists nx. split; [apply list_lookup_insert; by eapply lookup_lt_Some|]. eapply seg_frame; [exact H2|]. intros z Hz. apply list_lookup_insert_ne. intros ->. apply (N2 z); [apply elem_of_app; right; left|by right].
      + apply insert_length.
      + intros z _ Hz. apply list_lookup_insert_ne. intros ->. apply Hz, elem_of_app. right. left.
  Qed.
End erase.
