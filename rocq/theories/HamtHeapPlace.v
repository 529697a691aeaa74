(** Copying the entries of a children array into a new one. *)
From Verif Require Import Base HamtModel HamtHeapModel HamtHeapRep.
Open Scope nat_scope.

Lemma nodup_rot {A} (a b c d : list A) : NoDup (a ++ b ++ c ++ d) → NoDup ((c ++ a ++ b) ++ d).
Proof. intros H. eapply NoDup_Permutation_proper; [|exact H]. rewrite <-!app_assoc. rewrite !(app_assoc a b), (app_assoc (a ++ b)), (app_assoc c). f_equiv. apply Permutation_app_comm. Qed.
Section place.
  Context {T : Type}.
  Implicit Types (h : heap T) (ch : list (option (entry T))).
  Definition place (nils : bool) (bm : N) (d : nat) : list (option (entry T)) → list (option (entry T)) → res (list (option (entry T))) := if nils then place_some bm d else place_all bm d.
  Fixpoint filled ch : nat := match ch with [] => 0 | None :: ch => filled ch | Some _ :: ch => S (filled ch) end.
  Lemma filled_upd ch j t : j < length ch → filled (<[j := Some t]> ch) = match ch !! j with Some None => S (filled ch) | _ => filled ch end.
  Proof.
    revert j. induction ch as [|[x|] ch IH]; intros [|j]; cbn [length insert list_insert lookup list_lookup filled]; intros Hj; try lia; auto; rewrite IH by lia; by destruct (ch !! j) as [[|]|].
  Qed.
  Lemma filled_nones n : filled (replicate n None) = 0.
  Proof. by induction n. Qed.
  Lemma rep_s_none h sl ch ess j : rep_s h sl ch ess → ch !! j = Some None → ess !! j = Some [].
  Proof. intros H. revert j. induction H as [|sl ch ess _ IH|e t es sl ch ess _ _ IH]; intros [|j]; cbn; try done; apply IH. Qed.
  Lemma elem_upd (ess : list (list (item T))) j old es x : ess !! j = Some old → x ∈ concat (<[j := es]> ess) → x ∈ es ∨ x ∈ concat ess.
  Proof.
    intros E (l & Hl & Hx)%elem_concat. apply elem_of_list_lookup in Hl as [i Hi]. destruct (decide (j = i)) as [<-|Hne].
    - left. rewrite list_lookup_insert in Hi by (by eapply lookup_lt_Some). by injection Hi as ->.
    - right. rewrite list_lookup_insert_ne in Hi by done. apply elem_concat. exists l. split; [by eapply elem_of_list_lookup_2|done].
  Qed.
  Lemma elem_upd2 (ess : list (list (item T))) j old es x : ess !! j = Some old → x ∈ concat ess → x ∈ old ∨ x ∈ concat (<[j := es]> ess).
  Proof.
    intros E (l & Hl & Hx)%elem_concat. apply elem_of_list_lookup in Hl as [i Hi]. destruct (decide (j = i)) as [<-|Hne].
    - left. rewrite E in Hi. by injection Hi as ->.
    - right. apply elem_concat. exists l. split; [|done]. apply elem_of_list_lookup. exists i. by rewrite list_lookup_insert_ne.
  Qed.
  Lemma elem_upd3 (ess : list (list (item T))) j es x : j < length ess → x ∈ es → x ∈ concat (<[j := es]> ess).
  Proof. intros E Hx. rewrite insert_take_drop by done. rewrite !concat_app. cbn [concat]. rewrite !elem_of_app. tauto. Qed.
  Lemma own_sub (A B C : list (item T)) y : (∀ x, x ∈ A → x ∈ B ∨ x ∈ C) → y ∈ owns A → y ∈ owns B ∨ y ∈ owns C.
  Proof. intros H (i & Hi & Hy)%elem_owns. destruct (H _ Hi); [left|right]; apply elem_owns; eauto. Qed.

  Lemma h_place_ok nils b d from to bm pos c sl : from ≠ to → b ≠ to → ∀ n i h chr essr tl tch tess tch',
    h !! b = Some (OBit bm pos c) → h !! from = Some (OArr sl) → h !! to = Some (OArr tl) →
    rep_s h (drop i sl) chr essr → n = length (drop i sl) → rep_s h tl tch tess → NoDup (own_all tess ++ own_all essr) → to ∉ own_all tess → to ∉ own_all essr →
    place nils bm d chr tch = Ok tch' →
    ∃ tl' tess', h_place nils b d from to n i h = Ok (tt, <[to := OArr tl']> h) ∧ rep_s h tl' tch' tess' ∧ NoDup (own_all tess') ∧
      (∀ x, x ∈ concat tess' → x ∈ concat tess ∨ x ∈ concat essr) ∧ filled tch' ≤ filled tch + filled chr ∧
      (filled tch' = filled tch + filled chr → ∀ x, x ∈ concat tess ∨ x ∈ concat essr → x ∈ concat tess').
  Proof.
    intros Hft Hbt. induction n as [|n IH]; intros i h chr essr tl tch tess tch' Eb Ef Et Hr Hn Hl Hnd Ht1 Ht2 Ep.
    { destruct (drop i sl); [|done]. inversion Hr; subst. assert (tch' = tch) as -> by (destruct nils; injection Ep; done).
      exists tl, tess. split_and!; try done.
      - cbn [h_place]. unfold mret_. by rewrite list_insert_id.
      - by rewrite app_nil_r in Hnd.
      - auto.
      - lia.
      - intros _ x [?|?%elem_of_nil]; done. }
    destruct (drop i sl) as [|oe sl'] eqn:Ed; [done|]. assert (Ei : sl !! i = Some oe) by (rewrite <-(Nat.add_0_r i), <-lookup_drop, Ed; done).
    assert (Ed' : drop (S i) sl = sl') by (rewrite (drop_S sl oe i Ei) in Ed; congruence).
    injection Hn as Hn. cbn [h_place]. rewrite (bind_Ok (slot_eq _ _ _ _ _ Ef Ei)). inversion Hr as [|? ? ? Hr'|e t es ? ? ? He Hr']; subst.
    - destruct nils; [|done]. destruct (IH (S i) h ch ess tl tch tess tch') as (tl' & tess' & -> & H1 & H2 & H3 & H4 & H5); try done. by exists tl', tess'.
    - rewrite (bind_Ok (bitposnum_eq _ _ _ _ d He)), (bind_Ok (h_index_eq _ _ _ _ _ _ Eb)). set (j := index bm (bitposnum d t)).
      destruct (rep_s_len _ _ _ _ Hl) as [Hl1 Hl2]. destruct (decide (j < length tch)) as [Hj|Hj].
      2:{ exfalso. revert Ep. destruct nils; cbn [place place_some place_all]; fold j; unfold assign; by rewrite decide_False. }
      assert (Ep' : place nils bm d ch (<[j := Some t]> tch) = Ok tch') by (revert Ep; destruct nils; cbn [place place_some place_all]; fold j; unfold assign; by rewrite decide_True).
      assert (Hj' : j < length tl) by lia. rewrite (bind_Ok (setslot_eq _ _ _ _ (Some e) Et Hj')). set (h1 := <[to := OArr (<[j := Some e]> tl)]> h).
      assert (Hh1 : ∀ x, x ≠ to → h1 !! x = h !! x) by (intros x Hx; by apply list_lookup_insert_ne).
      destruct (lookup_lt_is_Some_2 tess j ltac:(lia)) as [old Eo]. rewrite own_all_cons in Hnd, Ht2. rewrite not_elem_of_app in Ht2. destruct Ht2 as [Ht2 Ht3].
      destruct (IH (S i) h1 ch ess (<[j := Some e]> tl) (<[j := Some t]> tch) (<[j := es]> tess) tch') as (tl' & tess' & E & H1 & H2 & H3 & H4 & H5); try done.
      + by rewrite Hh1.
      + by rewrite Hh1.
      + apply list_lookup_insert. by eapply lookup_lt_Some.
      + eapply rep_s_frame; [done|]. intros x Hx. apply Hh1. by intros ->.
      + eapply rep_s_frame; [by apply rep_s_update|]. intros x Hx. apply Hh1. intros ->. by destruct (own_upd_sub _ _ _ _ _ Eo Hx).
      + rewrite (own_all_upd _ _ _ _ Eo). rewrite (own_all_at _ _ _ Eo), <-!app_assoc in Hnd. apply NoDup_app in Hnd as (_ & _ & Hnd).
        by apply nodup_rot.
      + intros Hx. by destruct (own_upd_sub _ _ _ _ _ Eo Hx).
      + exists tl', tess'. split_and!; try done.
        * rewrite E. unfold h1. by rewrite list_insert_insert.
        * eapply rep_s_frame; [done|]. intros x Hx. symmetry. apply Hh1. intros ->. destruct (own_sub _ _ _ _ H3 Hx) as [Hy|Hy]; [by destruct (own_upd_sub _ _ _ _ _ Eo Hy)|done].
        * intros x [Hx|Hx]%H3; [destruct (elem_upd _ _ _ _ _ Eo Hx) as [?|?]|]; cbn [concat]; rewrite elem_of_app; auto.
        * etransitivity; [exact H4|]. rewrite filled_upd by done. cbn [filled]. destruct (tch !! j) as [[|]|]; lia.
        * cbn [filled concat]. intros Hc x Hx. rewrite filled_upd in H4, H5 by done. destruct (tch !! j) as [[y|]|] eqn:Ej; [lia| |apply lookup_ge_None in Ej; lia].
          assert (old = []) as -> by (rewrite (rep_s_none _ _ _ _ _ Hl Ej) in Eo; congruence). apply H5; [lia|].
          destruct Hx as [Hx|[Hx|Hx]%elem_of_app]; [left|left|by right]; [by destruct (elem_upd2 _ _ _ es _ Eo Hx) as [?%elem_of_nil|?]|apply elem_upd3; [lia|done]].
  Qed.
  Lemma place_length nils bm d ch to to' : place nils bm d ch to = Ok to' → length to' = length to.
  Proof.
    revert to. induction ch as [|[e|] ch IH]; intros to; destruct nils; cbn [place place_some place_all]; try (by intros [= ->]); try done; try exact (IH to).
    all: unfold assign; destruct (decide _); [|done]; intros H; rewrite (IH _ H); apply insert_length.
  Qed.
End place.
