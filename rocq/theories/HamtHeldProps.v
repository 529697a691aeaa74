(** C107 for the Hamt: following its pointers leads only to pairs of entries it contains. *)
From Verif Require Import Base History HamtModel HamtSpec HamtProofs HamtProps VisitEraseModel HamtHeapModel HamtHeapRep HamtHeapErase HamtHeapSim HamtHeapVisit HamtHeapOver HamtHeapProps.
Open Scope nat_scope.

(** ** Specification: what the garbage collector reaches from the root *)
Section spec.
  Context {T : Type} (h : heap T).
  Inductive hamt_held : nat → Prop :=
  | held_root : hamt_held 0
  | held_children b bm p c : hamt_held b → h !! b = Some (OBit bm p c) → hamt_held c
  | held_kv_entry c sl i a : hamt_held c → h !! c = Some (OArr sl) → sl !! i = Some (Some (EK a)) → hamt_held a
  | held_bitmap_entry c sl i b : hamt_held c → h !! c = Some (OArr sl) → sl !! i = Some (Some (EB b)) → hamt_held b
  | held_pairs a x p : hamt_held a → h !! a = Some (OKv x (Some p)) → hamt_held p
  | held_next p k v q : hamt_held p → h !! p = Some (OPair k v (Some q)) → hamt_held q.
End spec.

Section held.
  Context {T : Type}.
  Implicit Types (h : heap T) (ch : list (option (entry T))) (es : list (item T)).
  Lemma chain_closed h kvs : ∀ hd ps p k v q, chain h hd kvs ps → p ∈ ps → h !! p = Some (OPair k v (Some q)) → q ∈ ps.
  Proof.
    unfold chain. induction kvs as [|[k1 v1] kvs IH]; intros hd [|p1 ps] p k v q; cbn [seg_to]; try done; [by intros _ ?%elem_of_nil|]. intros (-> & nx & E & Hc) [->|Hp]%elem_of_cons Ep.
    - rewrite E in Ep. injection Ep as -> -> ->. assert (Hh := seg_head _ _ _ _ _ Hc). destruct ps; [done|]. injection Hh as ->. right. left.
    - right. by eapply (IH nx ps).
  Qed.
  (** where a pointer of an object of the trie leads *)
  Lemma held_owned h e u es : rep_e h e u es → addr e = 0 → ∀ x, hamt_held h x → x ∈ owns es.
  Proof.
    intros Hr H0 x Hx. assert (HI : ∀ x, x ∈ owns es → ∃ e' u' o r, rep_e h e' u' ((e', u', o) :: r) ∧ x ∈ o ∧ ∀ y, y ∈ owns ((e', u', o) :: r) → y ∈ owns es).
    { intros y (it & Hit & Hy)%elem_owns. destruct (proj1 (rep_item h) _ _ _ Hr it Hit) as (r & _ & Hi & _ & Hsub). destruct it as [[e' u'] o]. exists e', u', o, r. split_and!; [done|done|]. intros z (i & Hi' & Hz)%elem_owns. apply elem_owns. exists i. split; [by apply Hsub|done]. }
    assert (HE : ∀ c sl i e1, c ∈ owns es → h !! c = Some (OArr sl) → sl !! i = Some (Some e1) → addr e1 ∈ owns es).
    { intros c sl i e1 Hc Ec Ei. destruct (HI c Hc) as (e' & u' & o & r & Hi & Ho & Hsub). inversion Hi as [a hash hd kvs ps Hne Ea Hch|b' bm' pos' c' sl' chb essb Eb' Ec' Hsb]; subst.
      - apply elem_of_cons in Ho as [->|Ho]; [congruence|]. exfalso. revert Ho. clear -Hch Ec. unfold chain in Hch. revert hd ps Hch. induction kvs as [|[k1 v1] kvs IH]; intros hd [|p1 ps]; cbn [seg_to]; try done; [by intros _ ?%elem_of_nil|]. intros (-> & nx & E & Hc) [->|Hp]%elem_of_cons; [congruence|by eapply IH].
      - apply elem_of_cons in Ho as [->|Ho%elem_of_list_singleton]; [congruence|]. subst c'. rewrite Ec in Ec'. injection Ec' as <-. destruct (rep_s_lookup_l _ _ _ _ _ _ Hsb Ei) as (u1 & es1 & _ & Ees & He1). destruct (rep_e_head _ _ _ _ He1) as (o1 & r1 & ->).
        destruct (proj1 (rep_item h) _ _ _ He1 (e1, u1, o1)) as (_ & o2 & _ & Ho2 & _); [left|]. cbn in Ho2. apply Hsub. rewrite owns_cons. apply elem_of_app. right. apply (own_at _ _ _ _ Ees). rewrite owns_cons. apply elem_of_app. left. cbn. rewrite Ho2. left. }
    induction Hx as [|b bm p c _ IH Eb|c sl i a _ IH Ec Ei|c sl i b _ IH Ec Ei|a y p _ IH Ea|p k v q _ IH Ep].
    - destruct (rep_e_head _ _ _ _ Hr) as (o & r & ->). destruct (proj1 (rep_item h) _ _ _ Hr (e, u, o)) as (_ & o2 & _ & Ho2 & _); [left|]. cbn in Ho2. rewrite owns_cons. apply elem_of_app. left. cbn. rewrite Ho2, H0. left.
    - destruct (HI b IH) as (e' & u' & o & r & Hi & Ho & Hsub). inversion Hi as [a hash hd kvs ps Hne Ea Hch|b' bm' pos' c' sl' chb essb Eb' Ec' Hsb]; subst.
      + apply elem_of_cons in Ho as [->|Ho]; [congruence|]. destruct (HamtHeapErase2.chain_pair _ _ _ _ _ Hch Ho) as (? & ? & ? & ?). congruence.
      + apply elem_of_cons in Ho as [->|Ho%elem_of_list_singleton]; [|congruence]. rewrite Eb in Eb'. injection Eb' as <- <- <-. apply Hsub. right. left.
    - by apply (HE c sl i (EK a)).
    - by apply (HE c sl i (EB b)).
    - destruct (HI a IH) as (e' & u' & o & r & Hi & Ho & Hsub). inversion Hi as [a1 hash hd kvs ps Hne Ea1 Hch|b' bm' pos' c' sl' chb essb Eb' Ec' Hsb]; subst.
      + apply elem_of_cons in Ho as [->|Ho]; [|destruct (HamtHeapErase2.chain_pair _ _ _ _ _ Hch Ho) as (? & ? & ? & ?); congruence]. rewrite Ea in Ea1. injection Ea1 as <- <-. unfold chain in Hch. assert (Hh := seg_head _ _ _ _ _ Hch). destruct ps; [done|]. injection Hh as ->. apply Hsub. right. left.
      + apply elem_of_cons in Ho as [->|Ho%elem_of_list_singleton]; congruence.
    - destruct (HI p IH) as (e' & u' & o & r & Hi & Ho & Hsub). inversion Hi as [a1 hash hd kvs ps Hne Ea1 Hch|b' bm' pos' c' sl' chb essb Eb' Ec' Hsb]; subst.
      + apply elem_of_cons in Ho as [->|Ho]; [congruence|]. apply Hsub. unfold owns. cbn. rewrite app_nil_r. right. by eapply chain_closed.
      + apply elem_of_cons in Ho as [->|Ho%elem_of_list_singleton]; congruence.
  Qed.
  Lemma chain_held h kvs : ∀ hd ps k v, (∀ p, hd = Some p → hamt_held h p) → chain h hd kvs ps → (k, v) ∈ kvs → ∃ x n, hamt_held h x ∧ h !! x = Some (OPair k v n).
  Proof.
    unfold chain. induction kvs as [|[k1 v1] kvs IH]; intros hd [|p1 ps] k v Hh; cbn [seg_to]; try done; [by intros _ ?%elem_of_nil|]. intros (-> & nx & E & Hc). assert (Hp := Hh p1 eq_refl). intros [[= -> ->]|Hin]%elem_of_cons; [by exists p1, nx|].
    apply (IH nx ps k v); [|done|done]. intros p ->. by eapply held_next.
  Qed.
  Lemma owned_held h : (∀ e u es, rep_e h e u es → hamt_held h (addr e) → ∀ k v, (k, v) ∈ eflat u → ∃ x n, hamt_held h x ∧ h !! x = Some (OPair k v n)) ∧
    (∀ sl ch ess, rep_s h sl ch ess → (∀ i e, sl !! i = Some (Some e) → hamt_held h (addr e)) → ∀ k v, (k, v) ∈ flat ch → ∃ x n, hamt_held h x ∧ h !! x = Some (OPair k v n)).
  Proof.
    apply rep_ind.
    - intros a hash hd kvs ps _ Ea Hc Ha k v Hin. eapply chain_held; [|exact Hc|exact Hin]. intros p ->. by eapply held_pairs.
    - intros a bm pos c sl ch ess Ea Ec _ IH Ha k v. rewrite eflat_at. apply IH. intros i e Ei. assert (Hc : hamt_held h c) by (by eapply held_children). destruct e as [y|y]; [by eapply held_kv_entry|by eapply held_bitmap_entry].
    - by intros _ k v ?%elem_of_nil.
    - intros sl ch ess _ IH Hh k v Hin. apply IH; [|done]. intros i e Ei. by apply (Hh (S i)).
    - intros e u es sl ch ess _ IHe _ IHs Hh k v. cbn [flat]. intros [Hin|Hin]%elem_of_app; [apply IHe; [by apply (Hh 0)|done]|apply IHs; [|done]]. intros i e' Ei. by apply (Hh (S i)).
  Qed.
End held.

Section props.
  Context {T W : Type} (hf : key → N) (Hhf : ∀ k, is_bytes k → (hf k < 2 ^ 64)%N).
  (** C107 for the Hamt: after any history, every pair reachable from the root holds a present key and its present
      value, and every entry is in such a pair: an erased key or value and an overwritten value can be reclaimed *)
  Theorem hamt_holds_contents (ops : list (hm_op T W)) : Forall hm_op_ok ops → let m := foldl hm_after (∅ : gmap key T) ops in
    ∃ rs h, run (hh_step hf) ops hh_new = Ok (rs, h) ∧ ∀ k v, (∃ x n, hamt_held h x ∧ h !! x = Some (OPair k v n)) ↔ m !! k = Some v.
  Proof using Hhf.
    intros Hok m. destruct (run_sim hf Hhf ops hh_new hm_new ∅ Hok (holds_new hf) stands_new) as (rs & t & h & _ & Hh & E & es & Hr & Hn). fold m in Hh. exists rs, h. split; [done|]. intros k v.
    assert (Hgood : good hf h t es m). { split_and!; [done|done|done|]. apply after_bytes; [done|]. intros k' [v' Hk]. by rewrite lookup_empty in Hk. } split.
    - intros (x & n & Hx & Ex). eapply (pair_val hf h t es m x); [done| |done]. by eapply held_owned.
    - intros Hk. apply (proj1 (owned_held h) _ _ _ Hr); [apply held_root|]. rewrite eflat_at. by apply Hh.
  Qed.
End props.
Print Assumptions hamt_holds_contents.
Lemma found_pair (h : list (obj nat)) l : existsb (λ x, match h !! x with Some (OPair k v _) => bool_decide (k = [129%N]) && (v =? 25) | _ => false end) l = true → ∃ x n, h !! x = Some (OPair [129%N] 25 n).
Proof.
  intros (x & _ & Hx)%existsb_exists. destruct (h !! x) as [[| | |k v n]|] eqn:Ex; try discriminate. apply andb_true_iff in Hx as [->%bool_decide_eq_true ->%Nat.eqb_eq]. exists x, n. exact Ex.
Qed.
(** it is about something: the pairs of two entries that collide are both reached, and the pair erased by the last call
    of [nested_ops] is still an object of the heap, unreached *)
Example nested_held : match run (hh_step first_byte) nested_ops hh_new with
  | Ok (_, h) => (∃ x n, hamt_held h x ∧ h !! x = Some (OPair [1%N] 10 n)) ∧ (∃ x n, hamt_held h x ∧ h !! x = Some (OPair [1%N; 5%N] 11 n)) ∧
      (∃ x n, h !! x = Some (OPair [129%N] 25 n)) ∧ ¬ ∃ x n, hamt_held h x ∧ h !! x = Some (OPair [129%N] 25 n)
  | _ => False end.
Proof.
  destruct (hamt_holds_contents (W := unit) first_byte (proj2 nested_ok) nested_ops (proj1 nested_ok)) as (rs & h & E & H).
  assert (Hx : match run (hh_step (W := unit) first_byte) nested_ops hh_new with Ok (_, h) => existsb (λ x, match h !! x with Some (OPair k v _) => bool_decide (k = [129%N]) && (v =? 25) | _ => false end) (seq 0 100) = true | _ => False end) by (vm_compute; done).
  rewrite E in Hx |- *. split_and!; [apply H; vm_compute; done|apply H; vm_compute; done| |].
  - exact (found_pair _ _ Hx).
  - intros Hy%H. vm_compute in Hy. discriminate Hy.
Qed.
