(** Deque histories refine the specification; storage bounds. *)
From Verif Require Import Base History Wp DequeModel DequeSpec SegmentProofs DequeLists DequeProofs DequeOps DequeOps2 DequeOps3 DequeOps4 IterSpec.
Open Scope nat_scope.

Section hist.
  Context {T : Type} (zero : T).
  Implicit Types (d : deque T) (l : list T).
  Lemma wp_agrees {A} (m : M (deque T) A) r d l :
    wp m (λ _ d', dinv d' l) d → agrees dinv ((m ;; mret_ (A := dq_out T) r)%go d) (Some (r, l)).
  Proof using. intros H. apply wp_Ok in H as (a & d' & E & Hd). unfold agrees, mbind_. rewrite E. by exists d'. Qed.
  Lemma dq_step_agrees o d l : dinv d l → agrees dinv (dq_step zero o d) (dq_spec o l).
  Proof using.
    intros Hd. destruct o as [x|x|i x|i x| | |i| | |i|i j| | |]; cbn [dq_step dq_spec].
    - apply wp_agrees. by apply push_front_dq.
    - apply wp_agrees. by apply push_back_dq.
    - apply wp_agrees. by apply insert_dq.
    - case_bool_decide as Hi.
      + pose proof (set_dq d l (Z.to_nat i) x Hd ltac:(lia)) as H. rewrite Z2Nat.id in H by lia.
        apply wp_Ok in H as (a & d' & E & -> & Hd'). unfold agrees, mbind_. rewrite E. by exists d'.
      + unfold agrees, mbind_. rewrite (set_dq_out d l i x Hd) by lia. by exists d.
    - unfold agrees, mbind_. rewrite (front_dq d l Hd). destruct (head l); cbn [mbind option_bind]; [by exists d|done].
    - unfold agrees, mbind_. rewrite (back_dq d l Hd). destruct (last l); cbn [mbind option_bind]; [by exists d|done].
    - unfold agrees, mbind_, dq_nth. case_bool_decide as Hi.
      + destruct (l !! Z.to_nat i) as [x|] eqn:Ex; cbn [mbind option_bind].
        * pose proof (at_dq d l (Z.to_nat i) x Hd Ex) as H. rewrite Z2Nat.id in H by lia. rewrite H. by exists d.
        * rewrite (at_dq_panic d l i Hd); [done|]. apply lookup_ge_None in Ex. lia.
      + cbn [mbind option_bind]. rewrite (at_dq_panic d l i Hd); [done|]. lia.
    - unfold agrees, mbind_. destruct l as [|x l]; cbn [head tail].
      + cbn [mbind option_bind]. by rewrite (pop_front_dq_0 d Hd).
      + cbn [mbind option_bind]. destruct (proj1 (wp_Ok _ _ _) (pop_front_dq d x l Hd)) as (? & d' & -> & -> & Hd'). by exists d'.
    - unfold agrees, mbind_. destruct l as [|x l _] using rev_ind; cbn [head tail].
      + cbn [mbind option_bind last]. by rewrite (pop_back_dq_0 d Hd).
      + rewrite last_snoc. cbn [option_bind mbind]. destruct (proj1 (wp_Ok _ _ _) (pop_back_dq d x l Hd)) as (? & d' & -> & -> & Hd'). exists d'.
        rewrite app_length. cbn [length]. replace (length l + 1 - 1) with (length l) by lia. by rewrite take_app.
    - apply wp_agrees. case_bool_decide as Hi.
      + pose proof (erase_at_dq d l (Z.to_nat i) Hd ltac:(lia)) as H. by rewrite Z2Nat.id in H by lia.
      + eapply wp_eq; [by apply (erase_at_out d l)|done].
    - apply wp_agrees. case_bool_decide as Hi.
      + pose proof (erase_range_dq d l (Z.to_nat i) (Z.to_nat j) Hd ltac:(lia) ltac:(lia)) as H. by rewrite !Z2Nat.id in H by lia.
      + eapply wp_eq; [apply (erase_range_out d l); [done|lia]|done].
    - apply wp_agrees. by apply (clear_dq d l).
    - exists d. split; [|done]. unfold dq_Size, dget, mbind_, mret_. by rewrite (size_dq _ _ Hd).
    - exists d. split; [|done]. unfold dq_Empty, dget, mbind_, mret_. rewrite (size_dq _ _ Hd). by destruct l.
  Qed.
  Lemma dq_history ops : agrees dinv (run (dq_step zero) ops dq_new) (srun dq_spec ops []).
  Proof using.
    apply (run_agrees _ _ _ (λ _, True)); [intros; by apply dq_step_agrees|by apply Forall_forall|apply dinv_new].
  Qed.
  Lemma dq_reach ops rs d : run (dq_step zero) ops dq_new = Ok (rs, d) → ∃ l, srun dq_spec ops [] = Some (rs, l) ∧ dinv d l.
  Proof using.
    intros E. pose proof (dq_history ops) as H. unfold agrees in H. destruct (srun _ _ _) as [[rs' ls]|].
    - destruct H as (w' & E' & ?). rewrite E in E'. simplify_eq. eauto.
    - by rewrite E in H.
  Qed.

  Lemma Some_omap (ps : list nat) : omap id (Some <$> ps) = ps.
  Proof using. induction ps as [|p ps IH]; [done|]. cbn. by rewrite IH. Qed.
  Lemma None_omap n : omap id (replicate n (@None nat)) = [].
  Proof using. by induction n as [|n IH]. Qed.
  Lemma ring_live segs bz ez ps : ring_ok segs bz ez ps → length (omap id segs) = length ps.
  Proof using.
    intros [(-> & -> & _)|(b & Hb & Hl & _ & _ & Hi)]; [done|]. set (n := length segs) in *.
    (* rotating the table *)
    assert (drop b segs ++ take b segs = (Some <$> ps) ++ replicate (n - length ps) None) as E.
    { apply list_eq. intros i. destruct (decide (i < n)).
      - assert ((drop b segs ++ take b segs) !! i = segs !! ri n b i) as ->.
        { destruct (decide (b + i < n)).
          - rewrite lookup_app_l by (rewrite drop_length; lia). rewrite lookup_drop. f_equal. ring_lia.
          - rewrite lookup_app_r by (rewrite drop_length; lia). rewrite drop_length. fold n. rewrite lookup_take by lia. f_equal. ring_lia. }
        rewrite Hi by done. destruct (decide (i < length ps)).
        + rewrite lookup_app_l by (rewrite fmap_length; lia). rewrite list_lookup_fmap. destruct (lookup_lt_is_Some_2 ps i ltac:(lia)) as [x ->]. done.
        + rewrite lookup_app_r by (rewrite fmap_length; lia). rewrite lookup_replicate_2 by (rewrite fmap_length; lia). by rewrite lookup_ge_None_2 by lia.
      - rewrite !lookup_ge_None_2; [done| |]; rewrite app_length, ?drop_length, ?take_length, ?fmap_length, ?replicate_length; fold n; lia. }
    assert (Permutation segs (drop b segs ++ take b segs)) as Hperm. { rewrite <-(take_drop b segs) at 1. apply Permutation_app_comm. }
    rewrite E in Hperm. rewrite (omap_Permutation id _ _ Hperm). rewrite omap_app, Some_omap, None_omap, app_nil_r. done.
  Qed.
  Lemma storage_dq d l : dinv d l →
    dq_live d <= length l / 128 + 2 ∧ dq_slots d <= 2 `max` (24 * dq_live d / 10) ∧ dq_pooled d <= dq_live d + 1 ∧
    (l = [] → dq_live d = 0).
  Proof using.
    intros (ps & ls & [Hr Hs Hsh Hc Hsz [Hg1 Hg2] Hroom Hpl]). unfold dq_live, dq_slots, dq_pooled. rewrite (ring_live _ _ _ _ Hr).
    pose proof (store_ok_len _ _ _ _ Hs) as Hlen. split_and!.
    - rewrite Hlen. destruct (decide (length ls <= 2)); [lia|].
      pose proof (off_interior ls (length ls - 1) Hsh ltac:(lia) ltac:(lia)) as Ho. destruct Hsh as [H1 _].
      pose proof (off_le ls (length ls - 1)) as Hle. rewrite Hc in Hle. pose proof (H1 0 ltac:(lia)) as H0.
      assert (length ls - 2 <= length l / 128); [|lia]. apply Nat.div_le_lower_bound; [lia|].
      assert (C = 128) as HC by done. rewrite HC in Ho. replace (length ls - 1 - 1) with (length ls - 2) in Ho by lia. lia.
    - done.
    - unfold pool_lim in Hpl. assert (length (dq_pool d) * 6 < 5 * (S (length ps) + 1)).
      { pose proof (Nat.mul_succ_div_gt (length (dq_pool d) * 6) 5 ltac:(lia)). lia. } lia.
    - intros ->. destruct ps; [done|]. destruct ls as [|a ls]; [done|]. exfalso. by apply (shape_nonempty _ Hsh).
  Qed.

  (** the deque as a container for random access iterators *)
  Lemma deque_ra_law o : ra_law (W := deque T) (λ _, dq_Size) (λ _, dq_at) (λ _ i x, dq_set i x ;; mret_ tt)%go o dinv.
  Proof using.
    split.
    - intros d l Hd. unfold dq_Size, dget, mbind_, mret_. by rewrite (size_dq _ _ Hd).
    - intros d l i Hd. 
      destruct (if bool_decide (0 <= i)%Z then l !! Z.to_nat i else None) as [x|] eqn:E.
      + destruct (decide (0 <= i)%Z); [|by rewrite bool_decide_eq_false_2 in E by done]. rewrite bool_decide_eq_true_2 in E by done.
        pose proof (at_dq d l _ x Hd E) as H'. by rewrite Z2Nat.id in H' by done.
      + apply (at_dq_panic d l); [done|]. intros Hi. rewrite bool_decide_eq_true_2 in E by lia. apply lookup_ge_None in E. lia.
    - intros d l i x Hd. destruct (decide (0 <= i < Z.of_nat (length l))%Z) as [Hi|Hi].
      + pose proof (set_dq d l (Z.to_nat i) x Hd ltac:(lia)) as H. rewrite Z2Nat.id in H by lia.
        apply wp_Ok in H as (a & d' & E & -> & Hd'). exists d'. unfold mbind_. rewrite E. split; [done|]. by rewrite bool_decide_eq_true_2 by lia.
      + exists d. unfold mbind_. rewrite (set_dq_out d l i x Hd Hi). split; [done|]. case_bool_decide; [|done]. by rewrite list_insert_ge by lia.
  Qed.
End hist.
