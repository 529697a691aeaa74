(** C107 for the skip list, and its refutation for vectors and deques. *)
From Verif Require Import Base Wp History RbSpec MapSpec SkipModel SkipSpec SkipProofs SkipOps SkipProps GoSliceModel GoSliceProofs VectorModel VectorSpec VectorProofs VectorProps HeldSpec.
Open Scope nat_scope.

(* ---------- the skip list ---------- *)
Section skip.
  Context {K V W : Type} (cmp : K → K → Z) (CO : CmpOK cmp).
  Implicit Types (s : skip K V).
  (** every cached node is still in the list *)
  Definition cached s (xs : list nat) : Prop := ∀ p, Some (Some p) ∈ sk_cache s → p ∈ xs.
  (** a computation that leaves the cache alone *)
  Definition keeps {A} (m : M (skip K V) A) : Prop := ∀ s a s', m s = Ok (a, s') → sk_cache s' = sk_cache s.
  Lemma keeps_bind {A B} (m : M (skip K V) A) (f : A → M (skip K V) B) : keeps m → (∀ a, keeps (f a)) → keeps (mbind_ m f).
  Proof using. intros Hm Hf s b s' H. unfold mbind_ in H. destruct (m s) as [[a s1]| |] eqn:E; [|done..]. rewrite (Hf _ _ _ _ H). by eapply Hm. Qed.
  Lemma keeps_ret {A} (a : A) : keeps (mret_ a).
  Proof using. intros s b s' H. unfold mret_ in H. by simplify_eq. Qed.
  Lemma keeps_prevat i : keeps (prevat (K := K) (V := V) i).
  Proof using. intros s b s' H. unfold prevat in H. destruct (idx _ _) as [[r|]| |]; by simplify_eq. Qed.
  Lemma keeps_nextat r i : keeps (nextat (K := K) (V := V) r i).
  Proof using. intros s b s' H. unfold nextat in H. destruct r as [a|]; [destruct (sk_els s !! a); [|done]|]; destruct (idx _ _); by simplify_eq. Qed.
  Lemma keeps_setnext r i q : keeps (setnext (K := K) (V := V) r i q).
  Proof using. intros s b s' H. unfold setnext in H. destruct r as [a|]; [destruct (sk_els s !! a); [|done]|]; destruct (upd _ _ _); by simplify_eq. Qed.
  Lemma keeps_el p : keeps (el (K := K) (V := V) p).
  Proof using. intros s b s' H. unfold el in H. destruct p as [a|]; [|done]. destruct (sk_els s !! a); by simplify_eq. Qed.
  Lemma keeps_setval p v : keeps (setval (K := K) (V := V) p v).
  Proof using. intros s b s' H. unfold setval in H. destruct p as [a|]; [|done]. destruct (sk_els s !! a); by simplify_eq. Qed.
  Lemma keeps_newelem k v level : keeps (newelem (K := K) (V := V) k v level).
  Proof using. intros s b s' H. unfold newelem in H. destruct (_ <? _)%Z; by simplify_eq. Qed.
  Lemma keeps_addlen d : keeps (addlen (K := K) (V := V) d).
  Proof using. intros s b s' H. unfold addlen in H. by simplify_eq. Qed.
  Lemma keeps_link n : ∀ i e, keeps (link_loop (K := K) (V := V) n i e).
  Proof using.
    induction n as [|n IH]; intros i e; cbn [link_loop]; [apply keeps_ret|].
    apply keeps_bind; [apply keeps_prevat|intros p]. apply keeps_bind; [apply keeps_nextat|intros q]. apply keeps_bind; [apply keeps_setnext|intros _].
    apply keeps_bind; [apply keeps_prevat|intros p']. apply keeps_bind; [apply keeps_setnext|intros _]. apply IH.
  Qed.
  Lemma keeps_unlink n : ∀ i e, keeps (unlink_loop (K := K) (V := V) n i e).
  Proof using.
    induction n as [|n IH]; intros i e; cbn [unlink_loop]; [apply keeps_ret|].
    apply keeps_bind; [apply keeps_nextat|intros p]. apply keeps_bind; [apply keeps_prevat|intros q]. apply keeps_bind; [apply keeps_setnext|intros _]. apply IH.
  Qed.
  Lemma insert_cache word k v s s0 s' : findPrevNodes cmp k s = Ok (tt, s0) → sk_Insert cmp word k v s = Ok (tt, s') → sk_cache s' = sk_cache s0.
  Proof using.
    clear. intros E H. unfold sk_Insert in H. unfold mbind_ in H at 1. rewrite E in H. revert H. apply keeps_bind; [apply keeps_prevat|intros p]. apply keeps_bind; [apply keeps_nextat|intros c].
    apply keeps_bind. { destruct c; [|apply keeps_ret]. apply keeps_bind; [apply keeps_el|intros e; apply keeps_ret]. }
    intros [|]; [apply keeps_setval|]. apply keeps_bind. { intros x y z Hz. unfold getmax in Hz. by simplify_eq. }
    intros mx. apply keeps_bind. { intros x y z Hz. destruct (randomLevel _ _ _); by simplify_eq. }
    intros lv. apply keeps_bind; [apply keeps_newelem|intros e]. apply keeps_bind; [apply keeps_link|intros _]. apply keeps_addlen.
  Qed.
  Lemma remove_cache k s s0 b s' : findPrevNodes cmp k s = Ok (tt, s0) → sk_Remove cmp k s = Ok (b, s') → sk_cache s' = sk_cache s0.
  Proof using.
    clear. intros E H. unfold sk_Remove in H. unfold mbind_ in H at 1. rewrite E in H. revert H. apply keeps_bind; [apply keeps_prevat|intros p]. apply keeps_bind; [apply keeps_nextat|intros c].
    destruct c; [|apply keeps_ret]. apply keeps_bind; [apply keeps_el|intros e]. destruct (negb _); [apply keeps_ret|].
    apply keeps_bind; [apply keeps_unlink|intros _]. apply keeps_bind; [apply keeps_addlen|intros _]. apply keeps_ret.
  Qed.

  (** the invariant of the list, with the cache *)
  Definition hinv (max : nat) s (l : list (K * V)) : Prop := ∃ xs, inv cmp max s xs l ∧ cached s xs.
  Lemma prefix_stays (max : nat) s xs l k c xs' : inv cmp max s xs l →
    (∀ A B la lb, xs = A ++ B → l = la ++ lb → found cmp s A B la lb k max → ∀ i, i < max → ∃ r, c !! i = Some (Some r) ∧ is_prev s A i r) → length c = max →
    take (length (before cmp k l)) xs' = take (length (before cmp k l)) xs → ∀ p, Some (Some p) ∈ c → p ∈ xs'.
  Proof using CO.
    intros H Hc Hl Ht p Hp. destruct (found_exists cmp CO max s xs l k H) as (A & B & la & lb & -> & -> & Hf). specialize (Hc A B la lb eq_refl eq_refl Hf).
    destruct Hf as (_ & HA & _ & Hla & Hlb). rewrite (before_split cmp k la lb Hla Hlb), <-(Forall2_length _ _ _ HA), take_app_alt in Ht by done.
    apply elem_of_list_lookup in Hp as (i & Hi). pose proof (lookup_lt_Some _ _ _ Hi) as Hlt. destruct (Hc i ltac:(lia)) as (r & Hr & Hpr). rewrite Hi in Hr. injection Hr as <-.
    pose proof (is_prev_in s A i (Some p) p Hpr eq_refl) as Hin. rewrite <-Ht in Hin. apply elem_of_take in Hin as (j & Hj & _). by eapply elem_of_list_lookup_2.
  Qed.
  Lemma find_cache (max : nat) s xs l k : inv cmp max s xs l → ∃ s0, findPrevNodes cmp k s = Ok (tt, s0) ∧ length (sk_cache s0) = max ∧
    ∀ A B la lb, xs = A ++ B → l = la ++ lb → found cmp s A B la lb k max → ∀ i, i < max → ∃ r, sk_cache s0 !! i = Some (Some r) ∧ is_prev s A i r.
  Proof using CO.
    intros H. destruct (found_exists cmp CO max s xs l k H) as (A & B & la & lb & -> & -> & Hf). destruct (findPrevNodes_ok cmp max s A B la lb k Hf) as (c & E & (Hi & _) & Hc).
    eexists. split; [exact E|]. split; [exact (inv_cache _ _ _ _ _ Hi)|]. intros A' B' la' lb' _ _ Hf'. destruct (findPrevNodes_ok cmp max s A' B' la' lb' k Hf') as (c' & E' & _ & Hc').
    rewrite E in E'. injection E' as ->. exact Hc'.
  Qed.
  Lemma hstep_agrees (max : nat) (o : sk_op K V W) s l : sk_op_ok o → hinv max s l → agrees (hinv max) (sk_step cmp o s) (sk_spec cmp o l).
  Proof using CO.
    intros Ho (xs & H & Hca). destruct o as [w k v|k|k| | |vis w]; cbn [sk_step sk_spec agrees]; unfold mbind_.
    - destruct (sk_Insert_pre cmp CO max s xs l w k v H Ho) as (s' & xs' & E & Ht & _ & H'). rewrite E. eexists. split; [reflexivity|]. exists xs'. split; [done|].
      destruct (find_cache max s xs l k H) as (s0 & E0 & Hl0 & Hc0). unfold cached. rewrite (insert_cache _ _ _ _ _ _ E0 E). exact (prefix_stays max s xs l k _ xs' H Hc0 Hl0 Ht).
    - rewrite (sk_Get_ok cmp CO max s xs l k H). eexists. split; [reflexivity|]. by exists xs.
    - destruct (sk_Remove_pre cmp CO max s xs l k H) as (s' & xs' & E & Ht & _ & H'). rewrite E. eexists. split; [reflexivity|]. exists xs'. split; [done|].
      destruct (find_cache max s xs l k H) as (s0 & E0 & Hl0 & Hc0). unfold cached. rewrite (remove_cache _ _ _ _ _ E0 E). exact (prefix_stays max s xs l k _ xs' H Hc0 Hl0 Ht).
    - unfold sk_Len. rewrite (inv_len _ _ _ _ _ H). eexists. split; [reflexivity|]. by exists xs.
    - unfold sk_Keys. rewrite (sk_Traversal_ok cmp _ _ max s xs l H), visit_keys. eexists. split; [reflexivity|]. by exists xs.
    - rewrite (sk_Traversal_ok cmp vis w max s xs l H). eexists. split; [reflexivity|]. by exists xs.
  Qed.
  Lemma new_hinv (max : nat) : 1 <= max <= 64 → ∃ s, sk_New (Z.of_nat max) = Ok s ∧ hinv max s [].
  Proof using.
    intros Hm. destruct (new_inv (V := V) cmp max Hm) as (s & E & Hi). exists s. split; [done|]. exists []. split; [done|]. intros p Hp. unfold sk_New in E.
    destruct (_ <? _)%Z in E; [done|]. injection E as <-. cbn [sk_cache] in Hp. by apply elem_of_replicate in Hp as [? _].
  Qed.
  Lemma nx_in s r i q : SkipProofs.nx s r i = Some (Some q) → match r with None => Some q ∈ sk_head s | Some a => ∃ e, sk_els s !! a = Some e ∧ Some q ∈ e_next e end.
  Proof using. destruct r as [a|]; cbn; [|apply elem_of_list_lookup_2]. destruct (sk_els s !! a) as [e|]; [|done]. cbn. intros H. exists e. split; [done|]. by eapply elem_of_list_lookup_2. Qed.
  (** what is on the bottom level can be reached *)
  Lemma inv_held (max : nat) s xs l a : inv cmp max s xs l → a ∈ xs → sk_held s a.
  Proof using.
    intros H. assert (∀ p a q, xs = p ++ a :: q → sk_held s a) as Hall; [|intros Ha; apply elem_of_list_split in Ha as (p & q & E); by eapply Hall].
      intros p. induction p as [|c p IH] using rev_ind; intros b q E.
      + pose proof (inv_links _ _ _ _ _ H None xs 0 eq_refl) as Hl. cbn [hgt] in Hl. rewrite (inv_head _ _ _ _ _ H) in Hl. pose proof (inv_max _ _ _ _ _ H). specialize (Hl ltac:(lia)).
        rewrite (lvl_0 s xs) in Hl by (intros x Hx; apply (inv_ht _ _ _ _ _ H x Hx)). rewrite E in Hl. cbn [app head] in Hl. apply nx_in in Hl. by apply kh_head.
      + rewrite <-app_assoc in E. cbn [app] in E. pose proof (IH c (b :: q) E) as Hc. assert (after xs (Some c) (b :: q)) as Ha by (exists p; done).
        assert (c ∈ xs) as Hcx by (rewrite E; apply elem_of_app; right; apply elem_of_list_here). pose proof (inv_ht _ _ _ _ _ H c Hcx) as Hht.
        pose proof (inv_links _ _ _ _ _ H (Some c) (b :: q) 0 Ha) as Hl. cbn [hgt] in Hl. specialize (Hl ltac:(lia)).
        rewrite (lvl_0 s (b :: q)) in Hl by (intros x Hx; apply (inv_ht _ _ _ _ _ H x); rewrite E; apply elem_of_app; right; by right). cbn [head] in Hl. apply nx_in in Hl as (e & He & Hin). by eapply kh_ptr.
  Qed.
  Lemma held_xs (max : nat) s xs l : inv cmp max s xs l → cached s xs → ∀ a, sk_held s a ↔ a ∈ xs.
  Proof using.
    intros H Hca. assert (∀ r Y i q, after xs r Y → SkipProofs.nx s r i = Some (Some q) → q ∈ Y) as Hnx.
    { intros r Y i q Ha Hq. assert (i < hgt s r) as Hi. { destruct r as [a|]; cbn in Hq |- *; [|by eapply lookup_lt_Some]. unfold ht. destruct (sk_els s !! a); [|done]. cbn in Hq. by eapply lookup_lt_Some. }
      rewrite (inv_links _ _ _ _ _ H r Y i Ha Hi) in Hq. injection Hq as Hq. by apply head_lvl_elem in Hq. }
    intros a. split.
    - induction 1 as [a Ha|a Ha|a b e Ha IH He Hb].
      + apply elem_of_list_lookup in Ha as (i & Hi). by eapply (Hnx None xs i).
      + by apply Hca.
      + apply elem_of_list_lookup in Hb as (i & Hi). apply elem_of_list_split in IH as (p & q & ->). apply elem_of_app. right. right.
        eapply (Hnx (Some a) q i); [by exists p|]. cbn. by rewrite He.
    - by eapply inv_held.
  Qed.
  (** after every history the elements that can be reached hold exactly the pairs in the list *)
  Theorem skiplist_holds_contents (max : Z) (ops : list (sk_op K V W)) : (1 <= max <= 64)%Z → Forall sk_op_ok ops →
    ∃ s0 s rs l, sk_New max = Ok s0 ∧ run (sk_step cmp) ops s0 = Ok (rs, s) ∧ srun (sk_spec cmp) ops [] = Some (rs, l) ∧
      (∀ a, sk_held s a → ∃ e, sk_els s !! a = Some e ∧ (e_key e, e_val e) ∈ l) ∧ ∀ k v, (k, v) ∈ l → ∃ a e, sk_held s a ∧ sk_els s !! a = Some e ∧ e_key e = k ∧ e_val e = v.
  Proof using CO.
    intros Hm Hok. destruct (new_hinv (Z.to_nat max)) as (s0 & E0 & Hinv); [lia|]. rewrite Z2Nat.id in E0 by lia. destruct (srun_total cmp ops []) as (rs & l & Es).
    pose proof (run_agrees (sk_step cmp) (sk_spec cmp) (hinv (Z.to_nat max)) sk_op_ok (λ o s l, hstep_agrees _ o s l) ops s0 [] Hok Hinv) as H.
    unfold agrees in H. rewrite Es in H. destruct H as (s & E & xs & Hinv' & Hca). exists s0, s, rs, l. pose proof (held_xs _ _ _ _ Hinv' Hca) as Hh. pose proof (inv_kv _ _ _ _ _ Hinv') as Hkv.
    split_and!; [done..| |].
    - intros a Ha. apply Hh in Ha. apply elem_of_list_lookup in Ha as (i & Hi). destruct (Forall2_lookup_l _ _ _ _ _ Hkv Hi) as (kv & Hkvi & Hka). unfold kvof in Hka. apply fmap_Some in Hka as (e & He & ->).
      exists e. split; [done|]. by eapply elem_of_list_lookup_2.
    - intros k v Hin. apply elem_of_list_lookup in Hin as (i & Hi). destruct (Forall2_lookup_r _ _ _ _ _ Hkv Hi) as (a & Hai & Hka). unfold kvof in Hka. apply fmap_Some in Hka as (e & He & [= -> ->]).
      exists a, e. split_and!; [|done..]. apply Hh. by eapply elem_of_list_lookup_2.
  Qed.
End skip.
Print Assumptions skiplist_holds_contents.
(** the history of SkipProps.v meets the hypotheses: it inserts 3, 7, 9 and others and removes one *)
Example skiplist_holds_example : Forall sk_op_ok demo ∧ ∃ rs, srun (sk_spec zcmp) demo [] = Some (rs, [(3, 31); (7, 70); (9, 90)]%Z).
Proof. split; [apply demo_ok|]. eexists. vm_compute. reflexivity. Qed.
