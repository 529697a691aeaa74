(** C99, C100: list iterators (bidlist) follow the laws of node iterators. *)
From Verif Require Import Base Wp ListLib History SortSpec AlgoModel AlgoSpec AlgoProofs AlgoProps NodeAlgoModel NodeAlgoSpec NodeAlgoProofs
  BidlistModel BidlistSpec BidlistCyc BidlistProofs BidlistOps BidlistHist BidlistProps.
Open Scope nat_scope.

Lemma run_snoc' {S O R} (step : O → M S R) ops o s rs s1 r s2 : run step ops s = Ok (rs, s1) → step o s1 = Ok (r, s2) → run step (ops ++ [o]) s = Ok (rs ++ [r], s2).
Proof.
  revert s rs. induction ops as [|p ops IH]; intros s rs E H; cbn [run app] in *.
  - injection E as <- <-. by rewrite H.
  - destruct (step p s) as [[r0 s0]| |]; try done. destruct (run step ops s0) as [[rs0 s0']| |] eqn:E0; try done. injection E as <- ->. by rewrite (IH _ _ E0 H).
Qed.
Lemma srun_snoc' {A O R} (spec : O → A → option (R * A)) ops o s rs s1 r s2 : srun spec ops s = Some (rs, s1) → spec o s1 = Some (r, s2) → srun spec (ops ++ [o]) s = Some (rs ++ [r], s2).
Proof.
  revert s rs. induction ops as [|p ops IH]; intros s rs E H; cbn [srun app] in *.
  - injection E as <- <-. by rewrite H.
  - destruct (spec p s) as [[r0 s0]|]; try done. destruct (srun spec ops s0) as [[rs0 s0']|] eqn:E0; try done. injection E as <- ->. by rewrite (IH _ _ E0 H).
Qed.
Lemma omap_get {A} (vs : list A) (ps : list nat) (k a : nat) : (∀ a, a ∈ ps → is_Some (vs !! a)) → ps !! k = Some a → omap (λ a, vs !! a) ps !! k = vs !! a.
Proof.
  revert k. induction ps as [|b ps IH]; intros k Hv Hk; [done|]. cbn. destruct (Hv b) as [x Hx]; [set_solver|]. rewrite Hx. destruct k as [|k]; cbn in *; [congruence|]. apply IH; [set_solver|done].
Qed.
Lemma omap_len {A} (vs : list A) (ps : list nat) : (∀ a, a ∈ ps → is_Some (vs !! a)) → length (omap (M:=list) (λ a, vs !! a) ps) = length ps.
Proof. induction ps as [|b ps IH]; intros Hv; [done|]. cbn. destruct (Hv b) as [x Hx]; [set_solver|]. rewrite Hx. cbn. rewrite IH; [done|set_solver]. Qed.
Lemma omap_same {A} (f g : nat → option A) (qs : list nat) : (∀ b, b ∈ qs → f b = g b) → omap (M:=list) f qs = omap (M:=list) g qs.
Proof. induction qs as [|c qs IH]; intros Hb; [done|]. cbn. rewrite (Hb c), IH; [done|set_solver|set_solver]. Qed.
Lemma omap_upd {A} (f g : nat → option A) (ps : list nat) (k a : nat) (x : A) : NoDup ps → (∀ b, b ∈ ps → is_Some (f b)) → ps !! k = Some a → g a = Some x → (∀ b, b ≠ a → g b = f b) →
  omap (M:=list) g ps = <[k := x]> (omap (M:=list) f ps).
Proof.
  intros Hnd Hf Hk Hg Ho. revert k Hf Hk. induction Hnd as [|b ps Hb Hnd IH]; intros k Hf Hk; [done|]. destruct (Hf b) as [z Hz]; [set_solver|]. destruct k as [|k].
  - injection Hk as ->. cbn. rewrite Hg, Hz. cbn. f_equal. apply omap_same. intros c Hc. apply Ho. by intros ->.
  - change (ps !! k = Some a) in Hk. cbn. rewrite (Ho b), Hz. 2:{ intros ->. apply Hb. by eapply elem_of_list_lookup_2. } cbn. f_equal. apply IH; [set_solver|done].
Qed.

(** lists *)
Section bid.
  Context {T : Type}.
  (** a world that differs from s0 at most in the values of the nodes ps, which are l *)
  Definition list_holds (s0 : bs T) (ps : list nat) (w : bworld T) (l : list T) : Prop :=
    ∃ ops s, b_reach ops w s ∧ s_lists s = s_lists s0 ∧ s_cleared s = s_cleared s0 ∧ vals_of s ps = l ∧ ∀ a, a ∉ ps → s_vals s !! a = s_vals s0 !! a.
  Lemma b_safe_run_snoc ops o (s : bs T) rs s' : b_safe_run ops s → srun b_spec ops s = Some (rs, s') → b_safe o s' → b_safe_run (ops ++ [o]) s.
  Proof.
    revert s rs. induction ops as [|p ops IH]; intros s rs Hs E Ho; cbn [b_safe_run srun app] in *.
    - injection E as <- <-. split; [done|]. by destruct (b_spec o s) as [[? ?]|].
    - destruct Hs as [Hp Hs]. split; [done|]. destruct (b_spec p s) as [[r0 s0]|]; [|done]. destruct (srun b_spec ops s0) as [[rs0 s0']|] eqn:E0; try done. injection E as <- ->. by eapply IH.
  Qed.
  Lemma reach_set ops (w : bworld T) s a v x : b_reach ops w s → s_vals s !! a = Some v →
    ∃ w', set_val (Some a) x w = Ok (tt, w') ∧ b_reach (ops ++ [BSetValue (Some a) x]) w' (MkBs (s_lists s) (<[a := x]> (s_vals s)) (s_cleared s)).
  Proof.
    intros Hr Ha. pose proof (reach_rel _ _ _ Hr) as Hrel. assert (b_safe (BSetValue (Some a) x) s) as Hsafe by (split; [cbn; set_solver|]; split; [cbn; set_solver|done]).
    pose proof (b_step_agrees (BSetValue (Some a) x) w s Hrel Hsafe) as A. cbn [b_spec b_step mbind option_bind] in A. rewrite Ha in A. cbn [mbind option_bind agrees] in A. destruct A as (w' & E & H').
    unfold mbind_ in E. destruct (set_val (Some a) x w) as [[[] w1]| |] eqn:E1; try done. injection E as ->. exists w'. split; [done|]. destruct Hr as (Hs & rs & R1 & R2). split; [by eapply b_safe_run_snoc|].
    exists (rs ++ [BUnit]). split; [eapply run_snoc'; [done|]|eapply srun_snoc'; [done|]].
    - cbn [b_step]. unfold mbind_. by rewrite E1.
    - cbn [b_spec mbind option_bind]. by rewrite Ha.
  Qed.
  Lemma list_law (s0 : bs T) k ps : s_lists s0 !! k = Some ps → NoDup ps → node_law bi_Next bi_Value bi_Equal ps (list_holds s0 ps).
  Proof.
    intros Hk Hnd. assert (∀ ops (w : bworld T) (s : bs T), b_reach ops w s → s_lists s = s_lists s0 → ∀ a, a ∈ ps → is_Some (s_vals s !! a)) as Hv.
    { intros ops w s Hr E a Ha. rewrite <-E in Hk. destruct (br_elem w s k ps a (reach_rel _ _ _ Hr) Hk Ha) as (n & x & _ & _ & -> & _). by eexists. }
    split; [done| | | | | |].
    - intros w l (ops & s & Hr & E1 & _ & <- & _). apply omap_len. by eapply Hv.
    - intros w l i a (ops & s & Hr & E1 & _ & <- & _) Hi. cbn [bi_Next]. rewrite <-E1 in Hk. pose proof (take_drop_middle _ _ _ Hi) as E. rewrite <-E in Hk.
      rewrite (Next_ok w s k (take i ps) a (drop (S i) ps) (reach_rel _ _ _ Hr) Hk). by rewrite head_lookup, lookup_drop, Nat.add_0_r.
    - done.
    - intros w l i a x (ops & s & Hr & E1 & _ & <- & _) Hi Hx. unfold vals_of in Hx. rewrite (omap_get _ _ _ a) in Hx by (done || by eapply Hv).
      destruct (br_val _ _ _ _ (reach_rel _ _ _ Hr) Hx) as (n & Hn & <-). unfold bi_Value, mbind_. by rewrite (nd_ok _ _ _ Hn).
    - done.
    - intros i j. unfold bi_Equal, ptr_eqb. apply bool_decide_ext. split; congruence.
  Qed.
  Lemma list_write (s0 : bs T) k ps : s_lists s0 !! k = Some ps → NoDup ps → node_write bi_SetValue ps (list_holds s0 ps).
  Proof.
    intros Hk Hnd. split. intros w l i a x (ops & s & Hr & E1 & E2 & <- & Ho) Hi. cbn [bi_SetValue].
    assert (∀ a, a ∈ ps → is_Some (s_vals s !! a)) as Hv. { intros b Hb. rewrite <-E1 in Hk. destruct (br_elem w s k ps b (reach_rel _ _ _ Hr) Hk Hb) as (n & y & _ & _ & -> & _). by eexists. }
    pose proof (elem_of_list_lookup_2 _ _ _ Hi) as Ha. destruct (Hv a Ha) as [v Hva]. destruct (reach_set ops w s a v x Hr Hva) as (w' & E & Hr'). exists w'. split; [done|].
    eexists _, _. split; [exact Hr'|]. cbn. split_and!; [done|done| |].
    - unfold vals_of. cbn [s_vals]. apply (omap_upd _ _ _ _ a); [done|done|done| |]. { by apply list_lookup_insert, lookup_lt_is_Some; eexists. } intros b Hb. by apply list_lookup_insert_ne.
    - intros b Hb. rewrite list_lookup_insert_ne; [by apply Ho|]. by intros ->.
  Qed.
  Lemma list_back (s0 : bs T) k ps : s_lists s0 !! k = Some ps → node_back bi_Prev ps (list_holds s0 ps).
  Proof.
    intros Hk. assert (∀ ops (w : bworld T) (s : bs T) i a, b_reach ops w s → s_lists s = s_lists s0 → ps !! i = Some a → b_Prev (Some a) w = Ok (last (take i ps), w)) as Hp.
    { intros ops w s i a Hr E1 Hi. rewrite <-E1 in Hk. pose proof (take_drop_middle _ _ _ Hi) as E. rewrite <-E in Hk. apply (Prev_ok w s k _ a _ (reach_rel _ _ _ Hr) Hk). }
    split.
    - intros w l a (ops & s & Hr & E1 & _) Hi. cbn [bi_Prev]. by rewrite (Hp _ _ _ _ _ Hr E1 Hi).
    - intros w l i a (ops & s & Hr & E1 & _) Hi. cbn [bi_Prev]. rewrite (Hp _ _ _ _ _ Hr E1 Hi). pose proof (lookup_lt_Some _ _ _ Hi). destruct (lookup_lt_is_Some_2 ps i ltac:(lia)) as [b Hb].
      by rewrite (take_S_r _ _ _ Hb), last_snoc, Hb.
    - done.
  Qed.
  Lemma list_start ops (w : bworld T) s k ps : b_reach ops w s → s_lists s !! k = Some ps → list_holds s ps w (vals_of s ps) ∧ NoDup ps.
  Proof. intros Hr Hk. split; [by exists ops, s|]. destruct (br_lists _ _ (reach_rel _ _ _ Hr) k ps Hk) as (_ & Hnd & _). done. Qed.
End bid.
