(** C113, the lists: proofs. *)
From Verif Require Import Base Wp History BidlistModel BidlistSpec BidlistCyc BidlistProofs BidlistOps BidlistHist VisitEraseModel VisitEraseSpec.
Open Scope nat_scope.
Open Scope go_scope.

Lemma entries_cons {T} (vals : list T) a v ps : vals !! a = Some v → entries vals (a :: ps) = (a, v) :: entries vals ps.
Proof. intros H. unfold entries. cbn. by rewrite H. Qed.

Lemma remove_a {T} l (w : bworld T) s p a q v : brel w s → s_lists s !! l = Some (p ++ a :: q) → s_vals s !! a = Some v →
  ∃ w', b_Remove l (Some a) w = Ok (v, w') ∧ brel w' (upd_list s l (p ++ q)) ∧ b_Next (Some a) w' = Ok (None, w').
Proof.
  intros H Hl Hv. assert (Hnd : NoDup (p ++ a :: q)) by (by destruct (br_lists _ _ H l _ Hl) as (_ & ? & _)).
  set (s0 := MkBs (s_lists s) (s_vals s) (filter (λ c, c ≠ a) (s_cleared s))).
  assert (H0 : brel w s0).
  { destruct H as [H1 H2 H3 H4]. split; [done..|]. cbn. intros c k Ho Hc. destruct (decide (c = a)) as [->|Hne].
    - destruct (br_elem w s l _ a ltac:(by split) Hl) as (n & x & Hn & Ho' & _); [set_solver|]. unfold own in Ho. rewrite Hn in Ho. cbn in Ho. assert (k = l) as -> by congruence. eexists. split; [exact Hl|set_solver].
    - apply H4; [done|]. intros Hin. apply Hc. apply elem_of_list_filter. done. }
  pose proof (Remove_ok w s l _ a v H Hl Hv ltac:(right; set_solver)) as R1. pose proof (Remove_ok w s0 l _ a v H0 Hl Hv ltac:(right; set_solver)) as R2.
  apply wp_Ok in R1 as (r & w' & E & -> & R1). apply (wp_elim _ _ _ _ _) with (2 := E) in R2 as [_ R2]. exists w'. split; [done|].
  rewrite without_split in R1, R2 by done. split; [done|].
  destruct (br_val _ _ a v R2 Hv) as (n & Hn & _). unfold b_Next, mbind_. rewrite (nd_ok w' a n Hn). destruct (b_owner n) as [k|] eqn:Eo; [|done]. exfalso.
  destruct (br_owner _ _ R2 a k) as (ps & Hps & Hin); [unfold own; rewrite Hn; cbn; by rewrite Eo|cbn; rewrite elem_of_list_filter; tauto|]. cbn in Hps.
  destruct (NoDup_mid _ _ _ Hnd) as (Hnp & Hnq & _). destruct (decide (k = l)) as [->|Hne].
  - rewrite list_lookup_insert in Hps by (by eapply lookup_lt_Some). simplify_eq. set_solver.
  - rewrite list_lookup_insert_ne in Hps by done. eapply (br_other w s l k _ ps a H Hl Hps); [done|set_solver|done].
Qed.

Lemma visits_loop_ext {S D C W} (read : nat → M S D) nxt (act : C → M S unit) (vis vis' : D → W → list C * (bool * W)) f : (∀ d u, vis d u = vis' d u) →
  ∀ x u s, visits_loop read nxt act vis f x u s = visits_loop read nxt act vis' f x u s.
Proof.
  intros Hv. induction f as [|f IH]; intros x u s; destruct x as [a|]; cbn [visits_loop]; try done. unfold mbind_. destruct (read a s) as [[d s1]| |]; [|done..]. rewrite Hv.
  destruct (act_all act _ s1) as [[[] s2]| |]; [|done..]. destruct (negb _); [done|]. destruct (nxt (Some a) s2) as [[y s3]| |]; [|done..]. by rewrite IH.
Qed.

Section bid.
  Context {T W : Type} (l : nat) (pick : nat * T → bool).
  (** a visitor that removes what pick picks *)
  Definition bid_removing : nat * T → W → list (b_op T) * (bool * W) := λ d u, (if pick d then [BRemove l (Some d.1)] else [], (true, u)).
  Lemma bid_loop_ok (w : bworld T) s : ∀ q p f u, brel w s → s_lists s !! l = Some (p ++ q) → length q ≤ f →
    ∃ tr w', visits_loop (λ a, let! x := nd (Some a) in mret_ (a, b_val x)) b_Next (λ o, b_step o ;; mret_ tt) bid_removing f (head q) u w = Ok (tr, w') ∧
      tr.*1 = through_first pick (entries (s_vals s) q) ∧
      brel w' (upd_list s l (p ++ drop_first pick (entries (s_vals s) q))).
  Proof using.
    induction q as [|a q IH]; intros p f u H Hl Hf.
    { exists [], w. split_and!; [by destruct f|done|]. cbn. unfold upd_list. rewrite list_insert_id by done. by destruct s. }
    destruct f as [|f]; [cbn in Hf; lia|]. destruct (br_elem w s l _ a H Hl) as (n & v & Hn & Ho & Hv & Hnv); [set_solver|].
    rewrite (entries_cons _ a v q Hv). cbn [through_first drop_first visits_loop head fst].
    assert (Er : (let! x := nd (Some a) in mret_ (a, b_val x)) w = Ok ((a, v), w)) by (unfold mbind_, mret_; rewrite (nd_ok w a n Hn); by rewrite Hnv).
    assert (Ep : bid_removing (a, v) u = (if pick (a, v) then [BRemove l (Some a)] else [], (true, u))) by done.
    destruct (pick (a, v)) eqn:Epk.
    - destruct (remove_a l w s p a q v H Hl Hv) as (w' & E' & H' & N'). exists [((a, v), [BRemove l (Some a)])], w'. split_and!.
      + unfold mbind_ at 1. rewrite Er. cbv zeta. rewrite Ep. cbn [fst snd negb act_all b_step]. unfold mbind_ at 1 2 3 4. unfold mbind_ at 1. rewrite E'. cbn [mret_]. unfold mbind_ at 1. rewrite N'. unfold mbind_. by destruct f.
      + done.
      + assert (q = (entries (s_vals s) q).*1) as <-; [|done]. clear -Hl H. assert (Hq : ∀ c, c ∈ q → ∃ x, s_vals s !! c = Some x).
        { intros c Hc. destruct (br_elem w s l _ c H Hl) as (? & ? & ? & ? & ? & ?); [set_solver|eauto]. }
        clear Hl H. induction q as [|c q IH]; [done|]. destruct (Hq c ltac:(set_solver)) as [x Hx]. rewrite (entries_cons _ c x q Hx). cbn. f_equal. apply IH. intros d Hd. apply Hq. set_solver.
    - destruct (IH (p ++ [a]) f u H) as (tr & w' & E & Htr & H'); [by rewrite <-app_assoc|cbn in Hf; lia|]. exists (((a, v), []) :: tr), w'. split_and!.
      + unfold mbind_ at 1. rewrite Er. cbv zeta. rewrite Ep. cbn [fst snd negb act_all]. unfold mbind_ at 1, mret_ at 1. unfold mbind_ at 1. rewrite (Next_ok w s l p a q H Hl). unfold mbind_ at 1. by rewrite E.
      + cbn. by rewrite Htr.
      + cbn. by rewrite <-app_assoc in H'.
  Qed.
End bid.
