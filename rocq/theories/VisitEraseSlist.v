(** C113, simplelist: proofs. *)
From Verif Require Import Base Wp History BidlistSpec BidlistProofs SlistModel SlistSpec SlistProofs VisitEraseModel VisitEraseSpec VisitEraseLists.
Open Scope nat_scope.
Open Scope go_scope.

(** Remove(pre, n) leaves n.next as it was *)
Section frame.
  Context {T : Type} (zero : T) (a : nat).
  Definition keeps {A} (m : M (sworld T) A) : Prop := ∀ w r w', m w = Ok (r, w') → nx (sw_nodes w') a = nx (sw_nodes w) a.
  Lemma keeps_bind {A B} (m : M (sworld T) A) (g : A → M (sworld T) B) : keeps m → (∀ r, keeps (g r)) → keeps (mbind_ m g).
  Proof using. intros Hm Hg w r w'. unfold mbind_. destruct (m w) as [[x w1]| |] eqn:E; try done. intros E'. by rewrite (Hg _ _ _ _ E'), (Hm _ _ _ E). Qed.
  Lemma keeps_ret {A} (x : A) : keeps (mret_ x).
  Proof using. intros w r w' E. unfold mret_ in E. by injection E as _ <-. Qed.
  Lemma keeps_sn p : keeps (sn p).
  Proof using. intros w r w'. unfold sn. destruct p as [c|]; [|done]. destruct (sw_nodes w !! c); [|done]. intros E. by injection E as _ <-. Qed.
  Lemma keeps_sl p : keeps (sl p).
  Proof using. intros w r w'. unfold sl. destruct (sw_lists w !! p); [|done]. intros E. by injection E as _ <-. Qed.
  Lemma keeps_upd p g : keeps (sl_upd p g).
  Proof using. intros w r w'. unfold sl_upd. destruct (sw_lists w !! p); [|done]. intros E. by injection E as _ <-. Qed.
  Lemma keeps_next p v : p ≠ Some a → keeps (sset_next p v).
  Proof using.
    intros Hp w r w'. unfold sset_next, sn_upd. destruct p as [c|]; [|done]. destruct (sw_nodes w !! c); [|done]. intros E. simplify_eq/=.
    unfold nx. rewrite list_lookup_insert_ne; [done|]. intros ->. by apply Hp.
  Qed.
  Lemma s_Remove_keeps l pre n : pre ≠ Some a → keeps (s_Remove zero l pre n).
  Proof using.
    intros Hp. unfold s_Remove, slen_add, sset_head, sset_tail. destruct (speq n None); [apply keeps_ret|].
    repeat first [apply keeps_ret | apply keeps_sn | apply keeps_sl | apply keeps_upd | by apply keeps_next | apply keeps_bind; [|intros] | match goal with |- keeps (if ?b then _ else _) => destruct b end].
  Qed.
End frame.

Section slist.
  Context {T : Type} (zero : T) (l : nat) (pick : nat * T → bool).
  (** A visitor that removes what pick picks: its state is the node before the one it is handed, as Remove wants it. *)
  Definition s_removing : nat * T → option nat → list (s_op T) * (bool * option nat) := λ d pre,
    if pick d then ([SRemove l pre (Some d.1)], (true, pre)) else ([], (true, Some d.1)).
  Lemma s_loop_ok : ∀ q p f (w : sworld T) s, srel w s → ss_lists s !! l = Some (p ++ q) → length q ≤ f →
    ∃ tr w', visits_loop (λ a, let! x := sn (Some a) in mret_ (a, sn_val x)) s_Next (λ o, s_step zero o ;; mret_ tt) s_removing f (head q) (last p) w = Ok (tr, w') ∧
      tr.*1 = entries (ss_vals s) q ∧
      srel w' (s_upd s l (p ++ (filter (λ d, pick d = false) (entries (ss_vals s) q)).*1)).
  Proof using.
    induction q as [|a q IH]; intros p f w s H Hl Hf.
    { exists [], w. split_and!; [by destruct f|done|]. cbn. by rewrite s_upd_id. }
    destruct f as [|f]; [cbn in Hf; lia|]. destruct (sr_elem w s l _ a H Hl) as (v & Hv); [set_solver|]. destruct (sr_val _ _ _ _ H Hv) as (n & Hn & Hnv).
    destruct (sr_lists _ _ H l _ Hl) as [Hs Hnd]. apply seg_mid in Hs as (_ & Hx & _). destruct (NoDup_mid _ _ _ Hnd) as (Hnp & Hnq & _).
    rewrite (entries_cons _ a v q Hv), filter_cons. cbn [visits_loop head fst].
    assert (Er : (let! x := sn (Some a) in mret_ (a, sn_val x)) w = Ok ((a, v), w)) by (unfold mbind_, mret_; rewrite (sn_ok w a n Hn); by rewrite Hnv).
    assert (Ep : s_removing (a, v) (last p) = if pick (a, v) then ([SRemove l (last p) (Some a)], (true, last p)) else ([], (true, Some a))) by done.
    destruct (pick (a, v)) eqn:Epk.
    - rewrite decide_False by done.
      pose proof (Remove_ok zero w s l _ p a q v H Hl eq_refl Hv) as R. apply wp_Ok in R as (r & w1 & E1 & -> & H1).
      assert (Hpa : last p ≠ Some a) by (intros Hla; apply Hnp; by apply last_Some_elem_of).
      pose proof (s_Remove_keeps zero a l (last p) (Some a) Hpa w v w1 E1) as Hk. rewrite Hx in Hk. destruct (sn_nx w1 a _ Hk) as (x1 & Ex1 & Hx1).
      destruct (IH p f w1 _ H1) as (tr & w' & E & Htr & H').
      { cbn. apply list_lookup_insert. by eapply lookup_lt_Some. } { cbn in Hf. lia. }
      exists (((a, v), [SRemove l (last p) (Some a)]) :: tr), w'. split_and!.
      + unfold mbind_ at 1. rewrite Er. cbv zeta. rewrite Ep. cbn [fst snd negb act_all s_step]. unfold mbind_ at 1 2 3 4. rewrite E1. cbn [mret_]. unfold mbind_ at 1. unfold s_Next at 1. unfold mbind_ at 1. rewrite Ex1. cbn [mret_]. rewrite Hx1. unfold mbind_ at 1. by rewrite E.
      + cbn. by rewrite Htr.
      + unfold s_upd in *. cbn [ss_lists ss_vals] in H'. by rewrite list_insert_insert in H'.
    - rewrite decide_True by done. destruct (IH (p ++ [a]) f w s H) as (tr & w' & E & Htr & H'); [by rewrite <-app_assoc|cbn in Hf; lia|]. rewrite last_snoc in E.
      exists (((a, v), []) :: tr), w'. split_and!.
      + unfold mbind_ at 1. rewrite Er. cbv zeta. rewrite Ep. cbn [fst snd negb act_all]. unfold mbind_ at 1, mret_ at 1. unfold mbind_ at 1. rewrite (sNext_ok w s l p a q H Hl). unfold mbind_ at 1. by rewrite E.
      + cbn. by rewrite Htr.
      + cbn. by rewrite <-app_assoc in H'.
  Qed.
End slist.
