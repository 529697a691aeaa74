(** C99, C100: iterators of the tree containers follow the laws of node iterators. *)
From Verif Require Import Base Wp History RbModel RbTree RbRot RbIns RbIns2 RbDel RbNav RbDel2 RbSpec RbFind RbProps RbApi MapModel MapSpec MapProofs SetModel SetSpec SetProofs
  NodeAlgoModel NodeAlgoSpec.
Open Scope nat_scope.
#[local] Opaque rb_First rb_Last set_value key value next prev.

Section tree.
  Context {K V : Type} (cmp : K → K → Z) (CO : CmpOK cmp).
  (** a tree with nodes ps holding the keys ks and the values vs *)
  Definition tree_holds (ps : list nat) (ks : list K) (s : rb K V) (vs : list V) : Prop :=
    ∃ t : tree K V, tinv cmp s t ∧ (io t).*1 = ps ∧ (io t).*2.*1 = ks ∧ (io t).*2.*2 = vs.
  Lemma tree_at s (t : tree K V) k a : tinv cmp s t → (io t).*1 !! k = Some a → ∃ x v, io t = take k (io t) ++ (a, (x, v)) :: drop (S k) (io t) ∧ (io t).*2.*1 !! k = Some x ∧ (io t).*2.*2 !! k = Some v.
  Proof using.
    intros H Hk. rewrite !list_lookup_fmap in Hk. destruct (io t !! k) as [[b [x v]]|] eqn:E1; [|done]. cbn in Hk. injection Hk as ->. exists x, v. split_and!.
    - by rewrite (take_drop_middle _ _ _ E1).
    - by rewrite !list_lookup_fmap, E1.
    - by rewrite !list_lookup_fmap, E1.
  Qed.
  Lemma head_drop_fst (l : list (nat * (K * V))) k : fst <$> head (drop k l) = l.*1 !! k.
  Proof using. rewrite list_lookup_fmap. f_equal. revert k. induction l as [|x l IH]; intros [|k]; cbn; try done. Qed.
  Lemma last_take_fst (l : list (nat * (K * V))) k : k < length l → fst <$> last (take (S k) l) = l.*1 !! k.
  Proof using. intros H. destruct (lookup_lt_is_Some_2 l k H) as [x Hx]. by rewrite (take_S_r _ _ _ Hx), last_snoc, list_lookup_fmap, Hx. Qed.
  Lemma tree_law ps ks : NoDup ps → node_law it_Next it_Value it_Equal ps (tree_holds ps ks).
  Proof using CO.
    intros Hnd. split; [done| | | | | |].
    - intros s l (t & H & E1 & E2 & E3). by rewrite <-E1, <-E3, !fmap_length.
    - intros s l k a (t & H & E1 & E2 & E3) Hk. rewrite <-E1 in Hk. destruct (tree_at _ _ _ _ H Hk) as (x & v & E4 & _).
      change (it_Next (Some a) s) with (next (Some a) s). rewrite (next_ok _ _ _ _ _ _ _ (tinv_rep _ _ _ H) E4). by rewrite head_drop_fst, E1.
    - done.
    - intros s l k a v (t & H & E1 & E2 & E3) Hk Hv. rewrite <-E1 in Hk. destruct (tree_at _ _ _ _ H Hk) as (x & v' & E4 & _ & E5). rewrite E3, Hv in E5. injection E5 as <-.
      unfold it_Value. by rewrite (value_ok _ _ _ _ _ _ _ (tinv_rep _ _ _ H) E4).
    - done.
    - intros i j. unfold it_Equal, peq. apply bool_decide_ext. split; congruence.
  Qed.
  Lemma fmap_insert_mid {A} (l1 l2 : list A) x y : <[length l1 := y]> (l1 ++ x :: l2) = l1 ++ y :: l2.
  Proof using. rewrite <-(Nat.add_0_r (length l1)), insert_app_r. done. Qed.
  Lemma tree_write ps ks : node_write it_SetValue ps (tree_holds ps ks).
  Proof using CO.
    split. intros s l k a v (t & H & E1 & E2 & E3) Hk. rewrite <-E1 in Hk. destruct (tree_at _ _ _ _ H Hk) as (x & v' & E4 & _ & E5).
    destruct (setval_tinv cmp CO s t _ _ a x v' v H E4) as (s' & t' & E6 & H' & _ & E7). exists s'. split; [exact E6|]. exists t'. split; [done|]. rewrite E7. rewrite E4 in E1, E2, E3. rewrite <-E1, <-E2, <-E3.
    assert (k < length (io t)) as Hlt. { apply lookup_lt_Some in Hk. by rewrite fmap_length in Hk. }
    rewrite !fmap_app, !fmap_cons. cbn [fst snd]. split_and!; [done|done|]. set (l1 := take k (io t)). assert (length l1.*2.*2 = k) as Hl1 by (unfold l1; rewrite !fmap_length, take_length; lia).
    symmetry. pose proof (fmap_insert_mid l1.*2.*2 (drop (S k) (io t)).*2.*2 v' v) as Hi. rewrite Hl1 in Hi. exact Hi.
  Qed.
  Lemma tree_back ps ks : node_back it_Prev ps (tree_holds ps ks).
  Proof using CO.
    assert (∀ s l k a, tree_holds ps ks s l → ps !! k = Some a → it_Prev (Some a) s = Ok (fst <$> last (take k (zip ps (zip ks l))), s)) as Hp.
    { intros s l k a (t & H & E1 & E2 & E3) Hk. rewrite <-E1 in Hk. destruct (tree_at _ _ _ _ H Hk) as (x & v & E4 & _).
      change (it_Prev (Some a) s) with (prev (Some a) s). rewrite (prev_ok _ _ _ _ _ _ _ (tinv_rep _ _ _ H) E4). rewrite <-E1, <-E2, <-E3. by rewrite !zip_fst_snd. }
    assert (∀ s l, tree_holds ps ks s l → length (zip ps (zip ks l)) = length ps ∧ (zip ps (zip ks l)).*1 = ps) as Hz.
    { intros s l (t & H & E1 & E2 & E3). rewrite <-E1, <-E2, <-E3, !zip_fst_snd. by rewrite !fmap_length. }
    split.
    - intros s l a Hh Hk. by rewrite (Hp s l 0 a Hh Hk).
    - intros s l k a Hh Hk. rewrite (Hp s l (S k) a Hh Hk). destruct (Hz s l Hh) as [Hl Hz1]. rewrite last_take_fst by (rewrite Hl; apply lookup_lt_Some in Hk; lia). by rewrite Hz1.
    - done.
  Qed.
  (** the same for map iterators *)
  Lemma map_law ps ks : NoDup ps → node_law mi_Next mi_Value mi_Equal ps (tree_holds ps ks).
  Proof using CO. intros H. destruct (tree_law ps ks H) as [H1 H2 H3 H4 H5 H6 H7]. split; [exact H1|exact H2|exact H3|exact H4|exact H5|exact H6|exact H7]. Qed.
  Lemma map_write ps ks : node_write mi_SetValue ps (tree_holds ps ks).
  Proof using CO. apply tree_write. Qed.
  Lemma map_back ps ks : node_back mi_Prev ps (tree_holds ps ks).
  Proof using CO. destruct (tree_back ps ks) as [H1 H2 H3]. split; [exact H1|exact H2|exact H3]. Qed.
  (** sets: the value of an iterator is the key *)
  Definition keys_held (ps : list nat) (s : rb K V) (ks : list K) : Prop := ∃ t : tree K V, tinv cmp s t ∧ (io t).*1 = ps ∧ (io t).*2.*1 = ks.
  Lemma keys_law ps : NoDup ps → node_law it_Next it_Key it_Equal ps (keys_held ps).
  Proof using CO.
    intros Hnd. split; [done| | | | | |].
    - intros s l (t & H & E1 & E2). by rewrite <-E1, <-E2, !fmap_length.
    - intros s l k a (t & H & E1 & E2) Hk. rewrite <-E1 in Hk. destruct (tree_at _ _ _ _ H Hk) as (x & v & E4 & _).
      change (it_Next (Some a) s) with (next (Some a) s). rewrite (next_ok _ _ _ _ _ _ _ (tinv_rep _ _ _ H) E4). by rewrite head_drop_fst, E1.
    - done.
    - intros s l k a v (t & H & E1 & E2) Hk Hv. rewrite <-E1 in Hk. destruct (tree_at _ _ _ _ H Hk) as (x & v' & E4 & E5 & _). rewrite E2, Hv in E5. injection E5 as <-.
      unfold it_Key. by rewrite (key_ok _ _ _ _ _ _ _ (tinv_rep _ _ _ H) E4).
    - done.
    - intros i j. unfold it_Equal, peq. apply bool_decide_ext. split; congruence.
  Qed.
  Lemma tree_nodup s (t : tree K V) : tinv cmp s t → NoDup (io t).*1.
  Proof using CO. intros [H _]. apply ri_rep in H. by apply rr_nodup in H. Qed.
  Lemma tree_begin s (t : tree K V) : tinv cmp s t → rb_First s = Ok ((io t).*1 !! 0, s).
  Proof using CO. intros H. rewrite (hd_first _ _ (tinv_rep _ _ _ H)). unfold hd. by rewrite <-(head_drop_fst _ 0), drop_0. Qed.
End tree.

Section sets.
  Context {T : Type} (cmp : T → T → Z) (CO : CmpOK cmp).
  Lemma set_law ps : NoDup ps → node_law si_Next si_Value si_Equal ps (keys_held (V := bool) cmp ps).
  Proof using CO. intros H. destruct (keys_law (V := bool) cmp CO ps H) as [H1 H2 H3 H4 H5 H6 H7]. split; [exact H1|exact H2|exact H3|exact H4|exact H5|exact H6|exact H7]. Qed.
End sets.
