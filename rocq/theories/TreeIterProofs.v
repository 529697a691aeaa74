(** The tree as a sequence of numbered entries; simulation of clients with iterators. *)
From Verif Require Import Base Wp History RbModel RbTree RbNav RbSpec RbProps RbApi MapModel SetModel TreeIterModel TreeIterSpec.
Open Scope Z_scope.
Local Open Scope go_scope.

Section proofs.
  Context {K V : Type} (cmp : K → K → Z) (CO : CmpOK cmp).
  Implicit Types (s : rb K V) (l : list (nat * (K * V))).
  Definition inv s l (n : nat) : Prop := ∃ t, tinv cmp s t ∧ io t = l ∧ rb_next s = n.
  Lemma inv_nodup s l n : inv s l n → NoDup l.*1.
  Proof using. intros (t & H & <- & _). exact (rr_nodup _ _ (tinv_rep _ _ _ H)). Qed.
  Lemma suffix_fmap {A B} (P : B → bool) (f : A → B) (xs : list A) : f <$> suffix (λ x, P (f x)) xs = suffix P (f <$> xs).
  Proof using. clear. induction xs as [|x xs IH]; [done|]. cbn. destruct (P (f x)); [done|apply IH]. Qed.
  Lemma suffix_is {A} (P : A → bool) (xs : list A) : ∃ ys, xs = ys ++ suffix P xs.
  Proof using. clear. induction xs as [|x xs [ys IH]]; [by exists []|]. cbn. destruct (P x); [by exists []|]. exists (x :: ys). cbn. by rewrite <-IH. Qed.
  Lemma suffix_ids (P : K * V → bool) l L R : l = L ++ R → R.*2 = suffix P l.*2 → R = suffix (λ x, P x.2) l.
  Proof using.
    clear. intros E1 E2. rewrite <-(suffix_fmap P snd) in E2. destruct (suffix_is (λ x : nat * (K * V), P x.2) l) as [ys E3].
    assert (length R = length (suffix (λ x : nat * (K * V), P x.2) l)) as Hl. { apply (f_equal length) in E2. by rewrite !fmap_length in E2. }
    rewrite E1 in E3 at 1. apply app_inj_2 in E3 as [_ E3]; [done|done].
  Qed.
  Lemma find_inv s l n k : inv s l n → rb_FindNode cmp k s = Ok (first_of (equal_to cmp k) l, s).
  Proof using CO.
    intros (t & H & E1 & _). destruct (hd_search_eq cmp CO s t k H) as (L & R & -> & E2 & E3 & _). rewrite E1 in E2, E3.
    unfold first_of, equal_to. f_equal. f_equal. unfold hd. by rewrite (suffix_ids (λ kv, cmp k kv.1 =? 0) l L R E2 E3).
  Qed.
  Lemma lower_inv s l n k : inv s l n → rb_FindLowerBoundNode cmp k s = Ok (first_of (λ y, cmp k y <=? 0) l, s).
  Proof using CO.
    intros (t & H & E1 & _). destruct (hd_search_lower cmp CO s t k H) as (L & R & -> & E2 & E3). rewrite E1 in E2, E3.
    unfold first_of. f_equal. f_equal. unfold hd. by rewrite (suffix_ids (λ kv, cmp k kv.1 <=? 0) l L R E2 E3).
  Qed.
  Lemma upper_inv s l n k : inv s l n → rb_FindUpperBoundNode cmp k s = Ok (first_of (λ y, cmp k y <? 0) l, s).
  Proof using CO.
    intros (t & H & E1 & _). destruct (hd_search_upper cmp CO s t k H) as (L & R & -> & E2 & E3). rewrite E1 in E2, E3.
    unfold first_of. f_equal. f_equal. unfold hd. by rewrite (suffix_ids (λ kv, cmp k kv.1 <? 0) l L R E2 E3).
  Qed.
  Lemma begin_inv s l n : inv s l n → rb_First s = Ok (fst <$> head l, s).
  Proof using. intros (t & H & <- & _). exact (first_ok _ _ (tinv_rep _ _ _ H)). Qed.
  Lemma last_inv s l n : inv s l n → rb_Last s = Ok (fst <$> last l, s).
  Proof using. intros (t & H & <- & _). exact (last_ok _ _ (tinv_rep _ _ _ H)). Qed.
  Lemma size_inv s l n : inv s l n → rb_Size s = Ok (Z.of_nat (length l), s).
  Proof using. intros (t & H & <- & _). by rewrite (tinv_size cmp s t H), fmap_length. Qed.
  Lemma clear_inv s l n : inv s l n → ∃ s', rb_Clear s = Ok (tt, s') ∧ inv s' [] n.
  Proof using CO. intros (t & H & <- & Hn). destruct (clear_tinv cmp CO s) as (s' & E & H' & Hn'). exists s'. split; [done|]. exists RbTree.E. split_and!; [done|done|congruence]. Qed.
  Lemma insert_inv s l n k v : inv s l n → ∃ s' l', rb_Insert cmp k v s = Ok (tt, s') ∧ placed cmp l n k v l' ∧ inv s' l' (S n).
  Proof using CO.
    intros (t & H & <- & Hn). destruct (insert_tinv cmp CO s t k v H) as (s' & t' & L & R & E1 & H' & E2 & E3 & Hn' & HL & HR).
    exists s', (io t'). split_and!; [done| |exists t'; split_and!; [done|done|congruence]]. exists L, R. rewrite <-Hn. done.
  Qed.
  Lemma mid l a : a ∈ l.*1 → ∃ L k v R, l = L ++ (a, (k, v)) :: R.
  Proof using. clear. intros H. apply elem_of_list_fmap in H as ([b [k v]] & -> & H). apply elem_of_list_split in H as (L & R & ->). by exists L, k, v, R. Qed.
  Lemma delete_inv s l n a : inv s l n → a ∈ l.*1 → ∃ s' l', rb_Delete (Some a) s = Ok (tt, s') ∧ removed l a l' ∧ inv s' l' n.
  Proof using CO.
    intros (t & H & <- & Hn) Ha. destruct (mid _ _ Ha) as (L & k & v & R & E1). destruct (delete_tinv cmp CO s t L R a k v H E1) as (s' & t' & E2 & H' & Hn' & Hd).
    exists s', (io t'). split_and!; [done| |exists t'; split_and!; [done|done|congruence]]. exists L, (k, v), R. split; [done|]. done.
  Qed.
  Lemma revalued_mid (L : list (nat * (K * V))) a k v R w : NoDup (L ++ (a, (k, v)) :: R).*1 → revalued (L ++ (a, (k, v)) :: R) a w = L ++ (a, (k, w)) :: R.
  Proof using.
    clear. intros N. rewrite fmap_app, fmap_cons in N. cbn [fst] in N. apply NoDup_app in N as (_ & N1 & N2). apply NoDup_cons in N2 as [N2 _]. unfold revalued. rewrite fmap_app, fmap_cons. cbn [fst snd]. rewrite decide_True by done. f_equal; [|f_equal].
    - rewrite <-(list_fmap_id L) at 2. apply list_fmap_ext. intros i x Hi. rewrite decide_False; [done|]. intros Hx. apply elem_of_list_lookup_2 in Hi. apply (N1 a); [rewrite <-Hx; by apply elem_of_list_fmap_1|left].
    - rewrite <-(list_fmap_id R) at 2. apply list_fmap_ext. intros i x Hi. rewrite decide_False; [done|]. intros Hx. apply elem_of_list_lookup_2 in Hi. apply N2. rewrite <-Hx. by apply elem_of_list_fmap_1.
  Qed.
  Lemma set_inv s l n a w : inv s l n → a ∈ l.*1 → ∃ s', set_value (Some a) w s = Ok (tt, s') ∧ inv s' (revalued l a w) n.
  Proof using CO.
    intros Hi Ha. pose proof (inv_nodup _ _ _ Hi) as N. destruct Hi as (t & H & <- & Hn). destruct (mid _ _ Ha) as (L & k & v & R & E1).
    destruct (setval_tinv cmp CO s t L R a k v w H E1) as (s' & t' & E2 & H' & Hn' & Hd). exists s'. split; [done|]. exists t'. split_and!; [done| |congruence]. rewrite E1 in N |- *. by rewrite revalued_mid.
  Qed.
  Lemma suffix_mid (L : list (nat * (K * V))) a kv R : a ∉ L.*1 → suffix (λ x, bool_decide (x.1 = a)) (L ++ (a, kv) :: R) = (a, kv) :: R.
  Proof using.
    clear. intros N. rewrite suffix_skip; [cbn; by rewrite bool_decide_true|]. apply Forall_forall. intros x Hx. apply bool_decide_eq_false. intros <-. apply N. by apply elem_of_list_fmap_1.
  Qed.
  Lemma nd_mid (L : list (nat * (K * V))) a (kv : K * V) R : NoDup (L ++ (a, kv) :: R).*1 → a ∉ L.*1 ∧ a ∉ R.*1.
  Proof using. clear. rewrite fmap_app, fmap_cons. cbn [fst]. intros N. apply NoDup_app in N as (_ & N1 & N2). apply NoDup_cons in N2 as [N2 _]. split; [|done]. intros H. apply (N1 a H). left. Qed.
  Lemma next_inv s l n a : inv s l n → a ∈ l.*1 → next (Some a) s = Ok (after l a, s).
  Proof using.
    intros Hi Ha. pose proof (inv_nodup _ _ _ Hi) as N. destruct Hi as (t & H & <- & Hn). destruct (mid _ _ Ha) as (L & k & v & R & E1). rewrite (next_ok _ _ _ _ _ _ _ (tinv_rep _ _ _ H) E1).
    unfold after. rewrite E1 in N |- *. apply nd_mid in N as [N _]. by rewrite suffix_mid.
  Qed.
  Lemma prev_inv s l n a : inv s l n → a ∈ l.*1 → prev (Some a) s = Ok (before l a, s).
  Proof using.
    intros Hi Ha. pose proof (inv_nodup _ _ _ Hi) as N. destruct Hi as (t & H & <- & Hn). destruct (mid _ _ Ha) as (L & k & v & R & E1). rewrite (prev_ok _ _ _ _ _ _ _ (tinv_rep _ _ _ H) E1).
    unfold before, after. rewrite E1 in N |- *. apply nd_mid in N as [_ N]. rewrite reverse_app, reverse_cons, <-app_assoc. cbn [app]. rewrite suffix_mid; [unfold tail; by rewrite head_reverse|]. intros Hr. apply N. rewrite fmap_reverse in Hr. by rewrite elem_of_reverse in Hr.
  Qed.
  Lemma entry_inv s l n a : inv s l n → a ∈ l.*1 → ∃ k v, entry_of l a = Some (k, v) ∧ key (Some a) s = Ok (k, s) ∧ value (Some a) s = Ok (v, s).
  Proof using.
    intros Hi Ha. pose proof (inv_nodup _ _ _ Hi) as N. destruct Hi as (t & H & <- & Hn). destruct (mid _ _ Ha) as (L & k & v & R & E1). exists k, v. pose proof (tinv_rep _ _ _ H) as Hp.
    split_and!; [|by eapply key_ok|by eapply value_ok]. unfold entry_of. rewrite E1 in N |- *. apply nd_mid in N as [N _]. by rewrite suffix_mid.
  Qed.
  Lemma first_in (P : K → bool) l a : first_of P l = Some a → a ∈ l.*1.
  Proof using.
    clear. unfold first_of. destruct (suffix_is (λ x : nat * (K * V), P x.2.1) l) as [ys E1]. destruct (suffix (λ x : nat * (K * V), P x.2.1) l) as [|x R]; [done|]. cbn. intros [= <-]. rewrite E1. rewrite fmap_app. apply elem_of_app. right. left.
  Qed.
  Lemma removed_length l a l' : removed l a l' → length l = S (length l').
  Proof using. clear. intros (L & kv & R & -> & [-> | (b & kv' & R' & -> & ->)]); rewrite !app_length; cbn; lia. Qed.
  Lemma len_next s l n : inv s l n → (length l <= n)%nat.
  Proof using.
    intros (t & H & <- & <-). destruct H as [[H _ _] _]. pose proof (rr_nodup _ _ H) as N. unfold ads in N.
    pose proof (rr_lt _ _ H) as Hb. rewrite Forall_forall in Hb. rewrite <-(fmap_length fst).
    rewrite <-(seq_length (rb_next s) 0). apply submseteq_length, NoDup_submseteq; [done|]. intros a Ha. apply elem_of_seq. specialize (Hb a Ha). lia.
  Qed.
End proofs.
