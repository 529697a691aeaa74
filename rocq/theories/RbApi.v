(** Tree operations in the form the containers over it need: an iterator is "the head of the
    remaining nodes". *)
From Verif Require Import Base Wp RbModel RbTree RbRot RbIns RbIns2 RbDel RbNav RbDel2 RbSpec RbFind RbProps.
Open Scope Z_scope.
Open Scope go_scope.

Section api.
  Context {K V : Type} (cmp : K → K → Z) (CO : CmpOK cmp).
  Implicit Types (s : rb K V) (t : tree K V) (l L R : list (nat * (K * V))).
  Definition hd (R : list (nat * (K * V))) : ptr := fst <$> head R.
  Lemma suffix_skip {A} (P : A → bool) (l1 l2 : list A) : Forall (λ x, P x = false) l1 → suffix P (l1 ++ l2) = suffix P l2.
  Proof using. clear. induction 1 as [|x l Hx _ IH]; cbn; [done|]. by rewrite Hx. Qed.
  Lemma suffix_nil {A} (P : A → bool) (l : list A) : Forall (λ x, P x = false) l → suffix P l = [].
  Proof using. clear. intros. rewrite <-(app_nil_r l). by rewrite suffix_skip. Qed.
  Lemma fm_pos (P : K * V → Prop) (Pb : K * V → bool) l p : (∀ x, Pb x = true ↔ P x) → first_match P l p → ∃ L R, l = L ++ R ∧ p = hd R ∧ R.*2 = suffix Pb l.*2 ∧ Forall (λ x, ¬ P x.2) L ∧ match head R with Some x => P x.2 | None => True end.
  Proof using. clear cmp CO.
    intros HP. destruct p as [a|]; cbn.
    - intros (L & kv & R & -> & H1 & H2). exists L, ((a, kv) :: R). split_and!; try done. rewrite fmap_app, suffix_skip; [cbn; by rewrite (proj2 (HP kv) H1)|].
      apply Forall_fmap. eapply Forall_impl; [exact H2|]. intros x Hx. cbn. apply not_true_iff_false. by rewrite HP.
    - intros H. exists l, []. split_and!; try done; [by rewrite app_nil_r|]. cbn. symmetry. apply suffix_nil, Forall_fmap. eapply Forall_impl; [exact H|]. intros x Hx. cbn. apply not_true_iff_false. by rewrite HP.
  Qed.
  Lemma hd_first s t : rbrep s t → rb_First s = Ok (hd (io t), s). Proof using. apply first_ok. Qed.
  Lemma nth_cons_hd (l : list (nat * (K * V))) i : (fst <$> head (drop i l)) = fst <$> l !! i.
  Proof using. clear. revert l. induction i as [|i IH]; intros [|x l]; cbn; try done. Qed.
  Lemma times_next s t L R i (nx : ptr → M (rb K V) ptr) : (∀ p s, nx p s = match p with Some _ => next p s | None => Ok (None, s) end) → rbrep s t → io t = L ++ R → times i nx (hd R) s = Ok (hd (drop i R), s).
  Proof using.
    intros Hnx H. revert L R. induction i as [|i IH]; intros L R E1; [done|]. cbn [times]. unfold mbind_. rewrite Hnx. destruct R as [|[a [k v]] R].
    - cbn. specialize (IH L [] E1). cbn in IH. rewrite drop_nil in IH. done.
    - cbn [hd head fmap option_fmap option_map fst]. rewrite (next_ok _ _ _ _ _ _ _ H E1). cbn [drop]. apply (IH (L ++ [(a, (k, v))])). by rewrite <-app_assoc.
  Qed.
  Lemma times_prev s t L R i (pv : ptr → M (rb K V) ptr) : (∀ p s, pv p s = match p with Some _ => prev p s | None => Ok (None, s) end) → rbrep s t → io t = L ++ R → times i pv (hd (reverse L)) s = Ok (hd (drop i (reverse L)), s).
  Proof using.
    intros Hnx H. revert L R. induction i as [|i IH]; intros L R E1; [done|]. cbn [times]. unfold mbind_. rewrite Hnx. destruct L as [|[a [k v]] L _] using rev_ind.
    - cbn. specialize (IH [] R E1). cbn in IH. change (reverse []) with (@nil (nat * (K * V))) in *. rewrite drop_nil in IH. done.
    - rewrite reverse_snoc. cbn [hd head fmap option_fmap option_map fst]. rewrite <-app_assoc in E1. rewrite (prev_ok _ _ _ _ _ _ _ H E1). cbn [drop].
      replace (fst <$> last L) with (hd (reverse L)). { by eapply IH. } unfold hd. f_equal. destruct L as [|x L _] using rev_ind; [done|]. by rewrite reverse_snoc, last_snoc.
  Qed.
  Lemma hd_last s t : rbrep s t → rb_Last s = Ok (hd (reverse (io t)), s).
  Proof using. intros H. rewrite (last_ok _ _ H). unfold hd. do 3 f_equal. destruct (io t) as [|x L _] using rev_ind; [done|]. by rewrite reverse_snoc, last_snoc. Qed.
  Lemma hd_key s t L R : rbrep s t → io t = L ++ R → key (hd R) s = match head R.*2 with Some kv => Ok (kv.1, s) | None => Panic end.
  Proof using. intros H E1. destruct R as [|[a [k v]] R]; [done|]. cbn. by eapply key_ok. Qed.
  Lemma hd_value s t L R : rbrep s t → io t = L ++ R → value (hd R) s = match head R.*2 with Some kv => Ok (kv.2, s) | None => Panic end.
  Proof using. intros H E1. destruct R as [|[a [k v]] R]; [done|]. cbn. by eapply value_ok. Qed.
  Lemma hd_search_eq s t k : tinv cmp s t → ∃ L R, rb_FindNode cmp k s = Ok (hd R, s) ∧ io t = L ++ R ∧ R.*2 = suffix (λ kv, cmp k kv.1 =? 0) (io t).*2 ∧ Forall (λ x, cmp k x.2.1 ≠ 0) L ∧ match head R with Some x => cmp k x.2.1 = 0 | None => True end.
  Proof using CO.
    intros [[H _ _] Hs]. destruct (findnode_ok cmp CO k t s H Hs) as (p & E1 & Hm). eapply (fm_pos _ (λ kv, cmp k kv.1 =? 0)) in Hm as (L & R & E2 & -> & E3 & E4 & E5); [|intros; cbn; lia]. by exists L, R.
  Qed.
  Lemma hd_search_lower s t k : tinv cmp s t → ∃ L R, rb_FindLowerBoundNode cmp k s = Ok (hd R, s) ∧ io t = L ++ R ∧ R.*2 = suffix (λ kv, cmp k kv.1 <=? 0) (io t).*2.
  Proof using CO.
    intros [[H _ _] Hs]. destruct (lower_ok cmp CO k t s H Hs) as (p & E1 & Hm). eapply (fm_pos _ (λ kv, cmp k kv.1 <=? 0)) in Hm as (L & R & E2 & -> & E3 & E4); [|intros; cbn; lia]. by exists L, R.
  Qed.
  Lemma hd_search_upper s t k : tinv cmp s t → ∃ L R, rb_FindUpperBoundNode cmp k s = Ok (hd R, s) ∧ io t = L ++ R ∧ R.*2 = suffix (λ kv, cmp k kv.1 <? 0) (io t).*2.
  Proof using CO.
    intros [[H _ _] Hs]. destruct (upper_ok cmp CO k t s H Hs) as (p & E1 & Hm). eapply (fm_pos _ (λ kv, cmp k kv.1 <? 0)) in Hm as (L & R & E2 & -> & E3 & E4); [|intros; cbn; lia]. by exists L, R.
  Qed.
  Lemma hd_find s t k : tinv cmp s t → rb_Find cmp k s = Ok (snd <$> head (suffix (λ kv, cmp k kv.1 =? 0) (io t).*2), s).
  Proof using CO.
    intros Ht. destruct (hd_search_eq s t k Ht) as (L & R & E1 & E2 & E3 & _). unfold rb_Find, mbind_. rewrite E1, <-E3. destruct R as [|[a [k' v']] R]; [done|].
    cbn [hd head fmap option_fmap option_map fst]. destruct Ht as [[H _ _] _]. rewrite (value_ok _ _ _ _ _ _ _ H E2). done.
  Qed.
  Lemma hd_delete s t L R : tinv cmp s t → io t = L ++ R → ∃ s' t', rb_Delete (hd R) s = Ok (tt, s') ∧ tinv cmp s' t' ∧ rb_next s' = rb_next s ∧ (io t').*2 = L.*2 ++ tail R.*2.
  Proof using CO.
    intros Ht E1. destruct R as [|[a [k v]] R].
    - exists s, t. split_and!; try done. by rewrite E1, fmap_app.
    - destruct (delete_tinv cmp CO s t L R a k v Ht E1) as (s' & t' & E2 & H' & Hn & Hd). exists s', t'. split_and!; try done. destruct Hd as [->|(y & kv & R' & -> & ->)]; by rewrite fmap_app.
  Qed.
  Lemma hd_setval s t L a kv R w : tinv cmp s t → io t = L ++ (a, kv) :: R → ∃ s' t', set_value (hd ((a, kv) :: R)) w s = Ok (tt, s') ∧ tinv cmp s' t' ∧ io t' = L ++ (a, (kv.1, w)) :: R.
  Proof using CO. intros Ht E1. destruct kv as [k v]. destruct (setval_tinv cmp CO s t L R a k v w Ht E1) as (s' & t' & E2 & H' & _ & Hd). exists s', t'. done. Qed.
  Lemma tinv_size s t : tinv cmp s t → rb_Size s = Ok (Z.of_nat (length (io t).*2), s).
  Proof using. intros [[_ _ H] _]. unfold rb_Size, get_size. by rewrite H, fmap_length. Qed.
  Lemma tinv_rep s t : tinv cmp s t → rbrep s t. Proof using. by intros [[H _ _] _]. Qed.
  Lemma hd_eq s t L R i j : rbrep s t → io t = L ++ R → bool_decide (hd (drop i R) = hd (drop j R)) = bool_decide (Nat.min i (length R) = Nat.min j (length R)).
  Proof using.
    clear cmp CO. intros H E1. apply bool_decide_ext. unfold hd. rewrite !nth_cons_hd. pose proof (rr_nodup _ _ H) as N1. unfold ads in N1. rewrite E1, fmap_app in N1. apply NoDup_app in N1 as (_ & _ & N1).
    rewrite <-!list_lookup_fmap. destruct (R.*1 !! i) as [a|] eqn:Ei, (R.*1 !! j) as [b|] eqn:Ej.
    - pose proof (lookup_lt_Some _ _ _ Ei) as Li. pose proof (lookup_lt_Some _ _ _ Ej) as Lj. rewrite fmap_length in Li, Lj. split; [intros [= ->]|intros Hm]. { f_equal. by eapply NoDup_lookup. } assert (i = j) as -> by lia. congruence.
    - pose proof (lookup_lt_Some _ _ _ Ei) as Li. apply lookup_ge_None in Ej. rewrite fmap_length in Li, Ej. split; [done|lia].
    - pose proof (lookup_lt_Some _ _ _ Ej) as Li. apply lookup_ge_None in Ei. rewrite fmap_length in Li, Ei. split; [done|lia].
    - apply lookup_ge_None in Ei, Ej. rewrite fmap_length in Ei, Ej. split; [lia|done].
  Qed.
End api.
