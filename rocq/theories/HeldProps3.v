(** C107 is false of vectors and deques (and the queues and stacks built on them): they shorten
    their arrays without clearing the slots. *)
From Verif Require Import Base Wp History GoSliceModel GoSliceProofs VectorModel VectorSpec VectorProofs VectorProps SegmentProofs DequeModel DequeSpec DequeProofs DequeOps DequeHist DequeProps HeldSpec.
Open Scope nat_scope.

(** for every element type and element: pushed, popped, the vector empty, the element still in its array *)
Theorem vector_holds_contents_refuted {T} (zero x : T) (grow : nat → nat → nat) :
  ∃ w, run (v_step zero grow) [VNew 1; VPushBack 0 x; VPopBack 0] world0 = Ok ([VVec 0; VUnit; VVal x], w) ∧ v_size 0 w = Ok (0%Z, w) ∧ v_held w 0 x.
Proof.
  eexists. split; [vm_compute; reflexivity|]. split; [vm_compute; reflexivity|].
  eexists. split; [vm_compute; reflexivity|]. vm_compute. apply elem_of_list_here.
Qed.
Print Assumptions vector_holds_contents_refuted.
(** what holds: at most Capacity values are kept alive, the contents among them, and after
    ShrinkToFit exactly the contents are *)
Theorem vector_holds_contents_partial {T} (zero : T) grow ops rs w v n :
  run (v_step zero grow) ops world0 = Ok (rs, w) → v_size v w = Ok (n, w) →
  (∃ vs, v_capacity v w = Ok (Z.of_nat (length vs), w) ∧ (∀ x, v_held w v x ↔ x ∈ vs)) ∧
  (∀ i x, v_at v i w = Ok (x, w) → v_held w v x) ∧
  ∃ w', v_shrink_to_fit zero v w = Ok (tt, w') ∧ (∀ i x, v_at v i w' = Ok (x, w') ↔ v_at v i w = Ok (x, w)) ∧ ∀ x, v_held w' v x ↔ ∃ i, v_at v i w' = Ok (x, w').
Proof.
  intros E Hn. destruct (v_reach zero grow _ _ _ E) as (ls & _ & R).
  destruct (ls !! v) as [l|] eqn:Hl.
  2: { unfold v_size, mbind_, data in Hn. by rewrite (rel_lookup_None zero grow _ _ _ R Hl) in Hn. }
  assert (∀ w1, v_rel w1 ls → ∃ vs k, v_capacity v w1 = Ok (Z.of_nat (length vs), w1) ∧ (∀ x, v_held w1 v x ↔ x ∈ vs) ∧ l = take k vs) as Harr.
  { intros w1 R1. destruct (rel_lookup zero grow w1 ls v l R1 Hl) as (s & Hs & Hoff & Hlt & a & Ha & Hla & Hle & Hta). exists a, (s_len s). split_and!; [| |done].
    - unfold v_capacity, mbind_, data, mret_, cap_. rewrite Hs. by rewrite Hla.
    - intros x. split; [intros (s' & Hs' & Hx)|intros Hx; exists s; split; [done|]; unfold array_of; by rewrite Ha]. rewrite Hs in Hs'. injection Hs' as <-. unfold array_of in Hx. by rewrite Ha in Hx. }
  assert (∀ i x, nth_ l i = Some x → x ∈ l) as Hnth. { intros i x. unfold nth_. destruct (VectorSpec.in_range l i); [|done]. apply elem_of_list_lookup_2. }
  split_and!.
  - destruct (Harr w R) as (vs & k & H1 & H2 & _). by exists vs.
  - intros i x Hx. rewrite (v_at_ok zero grow w ls v l i R Hl) in Hx. destruct (nth_ l i) as [y|] eqn:Ey; [|done]. injection Hx as ->. destruct (Harr w R) as (vs & k & _ & H2 & ->). apply H2.
    apply Hnth in Ey. apply elem_of_take in Ey as (j & Hj & _). by eapply elem_of_list_lookup_2.
  - destruct (v_cap_ok zero grow _ _ _ _ R Hl) as (c & _ & _ & _ & w' & E1 & E2 & R'). exists w'. split; [done|].
    pose proof (λ i, v_at_ok zero grow w ls v l i R Hl) as O. pose proof (λ i, v_at_ok zero grow w' ls v l i R' Hl) as O'. split.
    + intros i x. rewrite O, O'. destruct (nth_ l i); naive_solver.
    + intros x. destruct (Harr w' R') as (vs & k & H1 & H2 & H3). rewrite H2. rewrite E2 in H1. injection H1 as H1. apply Nat2Z.inj in H1.
      assert (vs = l) as ->. { rewrite H3, take_length in H1. rewrite H3. symmetry. apply take_ge. lia. }
      split.
      * intros Hx. apply elem_of_list_lookup in Hx as (i & Hi). exists (Z.of_nat i). rewrite O'. unfold nth_. assert (VectorSpec.in_range l (Z.of_nat i) = true) as ->; [|by rewrite Nat2Z.id, Hi]. apply lookup_lt_Some in Hi. unfold VectorSpec.in_range. apply bool_decide_eq_true_2. lia.
      * intros (i & Hi). rewrite O' in Hi. destruct (nth_ l i) as [y|] eqn:Ey; [|done]. injection Hi as ->. by eapply Hnth.
Qed.
Print Assumptions vector_holds_contents_partial.

(** for every element type and element: pushed, popped, the deque empty, the element still in a segment *)
Theorem deque_holds_contents_refuted {T} (zero x : T) :
  ∃ d, run (dq_step zero) [DPushBack x; DPopBack; DClear] dq_new = Ok ([DUnit; DVal x; DUnit], d) ∧ dq_Size d = Ok (0%Z, d) ∧ dq_held d x.
Proof.
  eexists. split; [vm_compute; reflexivity|]. split; [vm_compute; reflexivity|].
  exists 0. eexists. split; [right; apply elem_of_list_here|]. split; [reflexivity|]. apply elem_of_list_here.
Qed.
Print Assumptions deque_holds_contents_refuted.
(** what holds: a deque of n elements keeps at most 2n + 640 values alive *)
Theorem deque_holds_contents_partial {T} (zero : T) ops rs d n :
  run (dq_step zero) ops dq_new = Ok (rs, d) → dq_Size d = Ok (Z.of_nat n, d) → ∃ vs, (∀ x, dq_held d x ↔ x ∈ vs) ∧ length vs <= 2 * n + 640.
Proof.
  intros E Hn. pose proof (deque_storage zero ops rs d n E Hn) as (Hlive & _ & Hpool & _). destruct (dq_reach zero _ _ _ E) as (l & _ & ps & ls & [Hr Hs _ _ _ _ _ _]).
  set (as_ := omap id (dq_segs d) ++ dq_pool d). exists (mjoin (omap (λ a, sg_data <$> dq_heap d !! a) as_)). split.
  - intros x. split.
    + intros (a & sg & Ha & Hsg & Hx). apply elem_of_list_join. exists (sg_data sg). split; [done|]. apply elem_of_list_omap. exists a. split; [|by rewrite Hsg].
      unfold as_. apply elem_of_app. destruct Ha as [Ha|Ha]; [left|by right]. apply elem_of_list_omap. by exists (Some a).
    + intros Hx. apply elem_of_list_join in Hx as (dt & Hx & Hd). apply elem_of_list_omap in Hd as (a & Ha & Hd). apply fmap_Some in Hd as (sg & Hsg & ->). exists a, sg. split_and!; [|done..].
      unfold as_ in Ha. apply elem_of_app in Ha as [Ha|Ha]; [left|by right]. apply elem_of_list_omap in Ha as (y & Hy & Hya). cbn in Hya. by subst y.
  - assert (∀ a sg, a ∈ as_ → dq_heap d !! a = Some sg → length (sg_data sg) = 128) as Hlen.
    { intros a sg Ha Hsg. assert (∃ l0, holds (dq_heap d) a l0) as (l0 & sg' & Hsg' & b & [Hd _]); [|rewrite Hsg in Hsg'; injection Hsg' as <-; exact Hd].
      unfold as_ in Ha. apply elem_of_app in Ha as [Ha|Ha].
      - apply elem_of_list_omap in Ha as (y & Hy & Hya). cbn in Hya. subst y. assert (a ∈ ps) as Hps.
        { destruct Hr as [(E0 & _)|(b & Hb & Hlp & _ & _ & Hi)]; [rewrite E0 in Hy; by apply elem_of_nil in Hy|]. apply elem_of_list_lookup in Hy as (j & Hj). pose proof (lookup_lt_Some _ _ _ Hj) as Hjl.
          set (m := length (dq_segs d)) in *. assert (∃ i, i < m ∧ ri m b i = j) as (i & Him & Hij). { destruct (decide (b <= j)); [exists (j - b)|exists (j + m - b)]; (split; [lia|ring_lia]). }
          rewrite <-Hij, (Hi i Him) in Hj. injection Hj as Hj. by eapply elem_of_list_lookup_2. }
        apply elem_of_list_lookup in Hps as (i & Hi). destruct (Forall2_lookup_l _ _ _ _ _ (so_items _ _ _ _ Hs) Hi) as (l0 & _ & Hl0). by exists l0.
      - pose proof (so_pool _ _ _ _ Hs) as Hp. rewrite Forall_forall in Hp. exists []. by apply Hp. }
    assert (length (mjoin (omap (λ a, sg_data <$> dq_heap d !! a) as_)) <= 128 * length as_) as Hc.
    { clear -Hlen. induction as_ as [|a as' IH]; [apply Nat.le_0_l|]. specialize (IH (λ b sg Hb, Hlen b sg (elem_of_list_further _ _ _ Hb))).
      change (length (a :: as')) with (S (length as')). rewrite Nat.mul_succ_r. change (omap (λ a, sg_data <$> dq_heap d !! a) (a :: as')) with (match sg_data <$> dq_heap d !! a with Some y => y :: omap (λ a, sg_data <$> dq_heap d !! a) as' | None => omap (λ a, sg_data <$> dq_heap d !! a) as' end). destruct (dq_heap d !! a) as [sg|] eqn:Ea.
      - pose proof (Hlen a sg (elem_of_list_here _ _) Ea) as H0. change (length (sg_data sg ++ mjoin (omap (λ a, sg_data <$> dq_heap d !! a) as')) <= 128 * length as' + 128).
        rewrite app_length, H0. clear -IH. lia.
      - change (length (mjoin (omap (λ a, sg_data <$> dq_heap d !! a) as')) <= 128 * length as' + 128). clear -IH. lia. }
    unfold as_ in Hc at 2. rewrite app_length in Hc. unfold dq_live, dq_pooled in *. pose proof (Nat.div_mod n 128 ltac:(lia)). lia.
Qed.
Print Assumptions deque_holds_contents_partial.
