(** C99, C100: iterators of the singly linked list follow the laws of node iterators. *)
From Verif Require Import Base Wp History BidlistSpec BidlistProofs SlistModel SlistSpec SlistProofs TextModel NodeAlgoModel NodeAlgoSpec NodeAlgoList.
Open Scope nat_scope.

Section sl.
  Context {T : Type} (zero : T).
  (** w and s are where the history ops leads *)
  Definition s_reach (ops : list (s_op T)) (w : sworld T) (s : ss T) : Prop :=
    s_safe_run zero ops ss0 ∧ ∃ rs, run (s_step zero) ops sworld0 = Ok (rs, w) ∧ srun (s_spec zero) ops ss0 = Some (rs, s).
  Lemma s_reach_rel ops w s : s_reach ops w s → srel w s.
  Proof using. intros (Hs & rs & E1 & E2). pose proof (s_history_from zero ops sworld0 ss0 srel_0 Hs) as H. rewrite E2 in H. cbn in H. destruct H as (w' & E & H). rewrite E1 in E. by simplify_eq. Qed.
  (** a world that differs from s0 at most in the values of the nodes ps, which are l *)
  Definition slist_holds (s0 : ss T) (ps : list nat) (w : sworld T) (l : list T) : Prop :=
    ∃ ops s, s_reach ops w s ∧ ss_lists s = ss_lists s0 ∧ s_vals_of s ps = l ∧ ∀ a, a ∉ ps → ss_vals s !! a = ss_vals s0 !! a.
  Lemma s_safe_run_snoc ops o (s : ss T) rs s' : s_safe_run zero ops s → srun (s_spec zero) ops s = Some (rs, s') → s_safe o s' → s_safe_run zero (ops ++ [o]) s.
  Proof using.
    revert s rs. induction ops as [|p ops IH]; intros s rs Hs E Ho; cbn [s_safe_run srun app] in *.
    - injection E as <- <-. split; [done|]. by destruct (s_spec zero o s) as [[? ?]|].
    - destruct Hs as [Hp Hs]. split; [done|]. destruct (s_spec zero p s) as [[r0 s0]|]; [|done]. destruct (srun (s_spec zero) ops s0) as [[rs0 s0']|] eqn:E0; try done. injection E as <- ->. by eapply IH.
  Qed.
  Lemma s_reach_set ops w s a v x : s_reach ops w s → ss_vals s !! a = Some v →
    ∃ w', sset_val (Some a) x w = Ok (tt, w') ∧ s_reach (ops ++ [SSetValue (Some a) x]) w' (MkSs (ss_lists s) (<[a := x]> (ss_vals s))).
  Proof using.
    intros Hr Ha. pose proof (s_reach_rel _ _ _ Hr) as Hrel.
    pose proof (s_step_agrees zero (SSetValue (Some a) x) w s Hrel I) as A. cbn [s_spec s_step mbind option_bind] in A. rewrite Ha in A. cbn [mbind option_bind agrees] in A. destruct A as (w' & E & H').
    unfold mbind_ in E. destruct (sset_val (Some a) x w) as [[[] w1]| |] eqn:E1; try done. injection E as ->. exists w'. split; [done|]. destruct Hr as (Hs & rs & R1 & R2). split; [by eapply s_safe_run_snoc|].
    exists (rs ++ [SUnit]). split; [eapply run_snoc'; [done|]|eapply srun_snoc'; [done|]].
    - cbn [s_step]. unfold mbind_. by rewrite E1.
    - cbn [s_spec mbind option_bind]. by rewrite Ha.
  Qed.
  Lemma slist_some ops w s k ps : s_reach ops w s → ss_lists s !! k = Some ps → ∀ a, a ∈ ps → is_Some (ss_vals s !! a).
  Proof using. intros Hr Hk a Ha. exact (sr_elem w s k ps a (s_reach_rel _ _ _ Hr) Hk Ha). Qed.
  Lemma slist_law (s0 : ss T) k ps : ss_lists s0 !! k = Some ps → NoDup ps → node_law sli_Next sli_Value sli_Equal ps (slist_holds s0 ps).
  Proof using.
    intros Hk Hnd. split; [done| | | | | |].
    - intros w l (ops & s & Hr & E1 & <- & _). rewrite <-E1 in Hk. apply omap_len. by eapply slist_some.
    - intros w l i a (ops & s & Hr & E1 & <- & _) Hi. cbn [sli_Next]. rewrite <-E1 in Hk. pose proof (take_drop_middle _ _ _ Hi) as E. rewrite <-E in Hk.
      rewrite (sNext_ok w s k (take i ps) a (drop (S i) ps) (s_reach_rel _ _ _ Hr) Hk). by rewrite head_lookup, lookup_drop, Nat.add_0_r.
    - done.
    - intros w l i a x (ops & s & Hr & E1 & <- & _) Hi Hx. rewrite <-E1 in Hk. unfold s_vals_of in Hx. rewrite (omap_get _ _ _ a) in Hx by (done || by eapply slist_some).
      destruct (sr_val _ _ _ _ (s_reach_rel _ _ _ Hr) Hx) as (n & Hn & <-). unfold sli_Value, mbind_. unfold sn. cbn. rewrite Hn. done.
    - done.
    - intros i j. unfold sli_Equal, speq. apply bool_decide_ext. split; congruence.
  Qed.
  Lemma slist_write (s0 : ss T) k ps : ss_lists s0 !! k = Some ps → NoDup ps → node_write sli_SetValue ps (slist_holds s0 ps).
  Proof using.
    intros Hk Hnd. split. intros w l i a x (ops & s & Hr & E1 & <- & Ho) Hi. cbn [sli_SetValue]. rewrite <-E1 in Hk. pose proof (slist_some _ _ _ _ _ Hr Hk) as Hv.
    pose proof (elem_of_list_lookup_2 _ _ _ Hi) as Ha. destruct (Hv a Ha) as [v Hva]. destruct (s_reach_set ops w s a v x Hr Hva) as (w' & E & Hr'). exists w'. split; [done|].
    eexists _, _. split; [exact Hr'|]. cbn [ss_lists ss_vals]. split_and!; [done| |].
    - unfold s_vals_of. cbn [ss_vals]. apply (omap_upd _ _ _ _ a); [done|done|done| |]. { by apply list_lookup_insert, lookup_lt_is_Some; eexists. } intros b Hb. by apply list_lookup_insert_ne.
    - intros b Hb. rewrite list_lookup_insert_ne; [by apply Ho|]. by intros ->.
  Qed.
  Lemma slist_start ops w s k ps : s_reach ops w s → ss_lists s !! k = Some ps → slist_holds s ps w (s_vals_of s ps) ∧ NoDup ps.
  Proof using. intros Hr Hk. split; [by exists ops, s|]. by destruct (sr_lists _ _ (s_reach_rel _ _ _ Hr) k ps Hk) as (_ & Hnd). Qed.
End sl.
