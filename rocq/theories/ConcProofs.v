(** An object whose methods hold its lock from beginning to end is linearizable. *)
From Verif Require Import Base ConcModel ConcSpec.

Section proofs.
  Context {S O R : Type} (lock : O → mode) (body : O → prog S R).
  Context (Hplain : ∀ o, plain (body o)) (Hread : ∀ o, lock o = Rd → reading (body o)).
  Notation method := (guarded lock body).
  Notation entry := (nat * O * R)%type.
  Implicit Types (L : list entry) (s A : S) (h : list (event O R)) (c : config S R).

  Lemma reading_exec (p : prog S R) : reading p → ∀ s, (exec p s).2 = s.
  Proof using. induction p as [r|w k IH| | | | |]; cbn [reading exec]; try done. intros H s. destruct (H s) as [E Hk]. rewrite E. by apply IH. Qed.
  Lemma reading_plain (p : prog S R) : reading p → plain p.
  Proof using. induction p as [r|w k IH| | | | |]; cbn [reading plain]; try done. intros H s. apply IH, H. Qed.

  Notation atomic := (one_by_one body).
  Lemma atomic_snoc L s A i o r A' : atomic L s A → exec (body o) A = (r, A') → atomic (L ++ [(i, o, r)]) s A'.
  Proof using. revert s. induction L as [|[[j o'] r'] L IH]; intros s; cbn [one_by_one app]; [intros -> E; eauto|]. intros (s1 & E & H) E'. exists s1. auto. Qed.

  Definition fin (m : mode) (r : R) : prog S R := match m with Rd => PRUnlock 0 (PDone r) | Wr => PUnlock 0 (PDone r) end.
  (** where a call stands: lock not asked for; announced; inside reading; inside writing; done *)
  Definition phase s A L (rs : gset nat) (w : option nat) (win : bool) (i : nat) (o : O) (p : prog S R) : Prop :=
    (p = method o ∧ i ∉ map lin_id L ∧ i ∉ rs ∧ w ≠ Some i) ∨
    (lock o = Wr ∧ p = PLocking 0 (bindp (body o) (fin Wr)) ∧ i ∉ map lin_id L ∧ i ∉ rs ∧ w = Some i ∧ win = false) ∨
    (lock o = Rd ∧ i ∈ rs ∧ w ≠ Some i ∧ ∃ q r, p = bindp q (fin Rd) ∧ reading q ∧ (exec q s).1 = r ∧ (i, o, r) ∈ L) ∨
    (lock o = Wr ∧ w = Some i ∧ i ∉ rs ∧ rs = ∅ ∧ win = true ∧ ∃ q r, p = bindp q (fin Wr) ∧ plain q ∧ exec q s = (r, A) ∧ (i, o, r) ∈ L) ∨
    (i ∉ rs ∧ w ≠ Some i ∧ ∃ r, p = PDone r ∧ (i, o, r) ∈ L).
  Lemma phase_frame s A L rs w win s' A' L' rs' w' win' i o p : phase s A L rs w win i o p →
    (∀ x, x ∈ L → x ∈ L') → (i ∈ map lin_id L' → i ∈ map lin_id L) → (i ∈ rs ↔ i ∈ rs') → (w = Some i ↔ w' = Some i) →
    (i ∈ rs → s' = s) → (w = Some i → s' = s ∧ A' = A ∧ (rs = ∅ → rs' = ∅) ∧ win' = win) → phase s' A' L' rs' w' win' i o p.
  Proof using.
    intros H HL Hi Hrs Hw Hs HA. destruct H as [(-> & H1 & H2 & H3)|[(H1 & -> & H2 & H3 & H4 & H5)|[(H1 & H2 & H3 & q & r & -> & H4 & H5 & H6)|[(H1 & H2 & H3 & H4 & H5 & q & r & -> & H6 & H7 & H8)|(H1 & H2 & r & -> & H3)]]]].
    - left. naive_solver.
    - right; left. destruct (HA H4) as (-> & -> & Hr & ->). naive_solver.
    - right; right; left. rewrite (Hs H2). split_and!; [done | naive_solver | naive_solver |]. exists q, r. auto.
    - right; right; right; left. destruct (HA H2) as (-> & -> & Hr & ->). split_and!; [done | naive_solver | naive_solver | auto | done |]. exists q, r. auto.
    - right; right; right; right. split_and!; [naive_solver | naive_solver |]. exists r. auto.
  Qed.

  Record inv (s0 : S) h c L A rs w win : Prop := {
    iv_seq : atomic L s0 A;
    iv_lock : lks c 0 = MkRw (size rs) (bool_decide (is_Some w));
    iv_win : win = true → is_Some w ∧ rs = ∅;
    iv_mem : win = false → mem c = A;
    iv_call : ∀ i, match calls c !! i with
      | None => (∀ o, EInv i o ∉ h) ∧ (∀ r, ERet i r ∉ h) ∧ i ∉ map lin_id L ∧ i ∉ rs ∧ w ≠ Some i
      | Some Returned => i ∉ rs ∧ w ≠ Some i
      | Some (Running p) => (∀ r, ERet i r ∉ h) ∧ ∃ o, EInv i o ∈ h ∧ phase (mem c) A L rs w win i o p
      end;
    iv_lin : linearizes h L;
  }.
  Lemma in_ids L x i : x ∈ L → lin_id x = i → i ∈ map lin_id L.
  Proof using. intros Hx <-. by apply elem_of_list_fmap_1. Qed.
  Lemma before_app {X} (x y : X) (L L' : list X) : before x y L → before x y (L ++ L').
  Proof using. intros (l1 & l2 & l3 & ->). exists l1, l2, (l3 ++ L'). rewrite <- !app_assoc. cbn. rewrite <- !app_assoc. done. Qed.
  Lemma before_snoc {X} (x y : X) (L : list X) : x ∈ L → before x y (L ++ [y]).
  Proof using. intros (l1 & l2 & ->)%elem_of_list_split. exists l1, l2, []. by rewrite <- app_assoc. Qed.
  Lemma snoc_cut {X} (h h1 h2 h3 : list X) (e a b : X) : h ++ [e] = h1 ++ a :: h2 ++ b :: h3 → (∃ h3' : list X, h = h1 ++ a :: h2 ++ b :: h3') ∨ (b = e ∧ h = h1 ++ a :: h2).
  Proof using.
    intros E. destruct h3 as [|z h3 _] using rev_ind.
    - right. assert (E' : h ++ [e] = (h1 ++ a :: h2) ++ [b]) by (rewrite E, <- app_assoc; done). apply app_inj_tail in E' as [-> ->]. done.
    - left. exists h3. assert (E' : h ++ [e] = (h1 ++ a :: h2 ++ b :: h3) ++ [z]) by (rewrite E, <- app_assoc; cbn; by rewrite <- app_assoc). apply app_inj_tail in E' as [-> _]. done.
  Qed.
  (** a call takes effect *)
  Lemma lin_take h L i o r : linearizes h L → i ∉ map lin_id L → EInv i o ∈ h → (∀ r, ERet i r ∉ h) → linearizes h (L ++ [(i, o, r)]).
  Proof using.
    intros [H1 H2 H3 H4] Hi Hc Hr. split.
    - rewrite map_app. apply NoDup_app. split_and!; [done | | by apply NoDup_singleton]. intros x Hx ->%elem_of_list_singleton. done.
    - intros j o' r' [Hj|[= -> -> ->]%elem_of_list_singleton]%elem_of_app; eauto.
    - intros j r' Hj. destruct (H3 j r' Hj) as [o' Ho]. exists o'. apply elem_of_app. by left.
    - intros h1 h2 h3 j r' k o' x y -> Hx Hy Ex Ey.
      assert (Hret : ERet j r' ∈ h1 ++ ERet j r' :: h2 ++ EInv k o' :: h3) by (apply elem_of_app; right; left).
      assert (x ∈ L) as HxL. { apply elem_of_app in Hx as [Hx| ->%elem_of_list_singleton]; [done|]. cbn in Ex. subst j. by apply Hr in Hret. }
      apply elem_of_app in Hy as [Hy| ->%elem_of_list_singleton]; [apply before_app; eauto | by apply before_snoc].
  Qed.
  (** a new call *)
  Lemma lin_call h L i o : linearizes h L → i ∉ map lin_id L → linearizes (h ++ [EInv i o]) L.
  Proof using.
    intros [H1 H2 H3 H4] Hi. split; [done | intros j o' r' Hj; apply elem_of_app; left; eauto | |].
    - intros j r' [Hj|E%elem_of_list_singleton]%elem_of_app; [eauto | done].
    - intros h1 h2 h3 j r' k o' x y E Hx Hy Ex Ey. destruct (snoc_cut _ _ _ _ _ _ _ E) as [[h3' E']|[[= -> ->] _]]; [eauto|]. destruct Hi. by eapply in_ids.
  Qed.
  (** a return *)
  Lemma lin_return h L i o r : linearizes h L → (i, o, r) ∈ L → linearizes (h ++ [ERet i r]) L.
  Proof using.
    intros [H1 H2 H3 H4] Hi. split; [done | intros j o' r' Hj; apply elem_of_app; left; eauto | |].
    - intros j r' [Hj|[= -> ->]%elem_of_list_singleton]%elem_of_app; eauto.
    - intros h1 h2 h3 j r' k o' x y E Hx Hy Ex Ey. destruct (snoc_cut _ _ _ _ _ _ _ E) as [[h3' E']|[? _]]; [eauto | done].
  Qed.
  Lemma not_in_ids L i o r j : j ≠ i → j ∉ map lin_id L → j ∉ map lin_id (L ++ [(i, o, r)]).
  Proof using. intros Hj H. rewrite map_app. intros [Hx|Hx%elem_of_list_singleton]%elem_of_app; done. Qed.
  Lemma in_ids_snoc L i o r j : j ≠ i → j ∈ map lin_id (L ++ [(i, o, r)]) → j ∈ map lin_id L.
  Proof using. intros Hj. rewrite map_app. intros [Hx|Hx%elem_of_list_singleton]%elem_of_app; done. Qed.
  Lemma bindp_done m (q : prog S R) p s f p' s' f' : plain q → p = bindp q (fin m) → pstep p s f p' s' f' →
    (∃ w k, q = PAct w k ∧ p' = bindp (k s) (fin m) ∧ s' = w s ∧ f' = f) ∨ (∃ r, q = PDone r ∧ p = fin m r).
  Proof using. intros Hq -> Hs. destruct q as [r|w k| | | | |]; try done; [right; by exists r|]. left. inversion Hs; subst. by exists w, k. Qed.

  Lemma inv_start s : inv s [] (start s) [] s ∅ None false.
  Proof using.
    split; try done.
    - intros i. cbn. rewrite lookup_empty. split_and!; [intros ? E; inversion E | intros ? E; inversion E | intros E; inversion E | apply not_elem_of_empty | done].
    - split; [constructor | intros ? ? ? E; by apply elem_of_nil in E | intros ? ? E; by apply elem_of_nil in E |]. intros h1 h2 h3 i r j o x y E. by destruct h1.
  Qed.
  Lemma inv_step s0 h c L A rs w win e c' : inv s0 h c L A rs w win → mstep method c e c' →
    ∃ L' A' rs' w' win', inv s0 (match e with None => h | Some e => h ++ [e] end) c' L' A' rs' w' win'.
  Proof using Hplain Hread.
    intros Hinv Hst. pose proof (iv_call _ _ _ _ _ _ _ _ Hinv) as Hcall. destruct Hst as [s f cs i o Hi|s f cs i p p' s' f' Hi Hp|s f cs i r Hi].
    - (* a call *)
      exists L, A, rs, w, win. pose proof (Hcall i) as Hc. cbn in Hc. rewrite Hi in Hc. destruct Hc as (H1 & H2 & H3 & H4 & H5).
      destruct Hinv as [I1 I2 I3 I4 _ I6]. split; [done | done | done | done | | by apply lin_call].
      intros j. cbn. destruct (decide (j = i)) as [->|Hj].
      + rewrite lookup_insert. split. { intros r [E|E%elem_of_list_singleton]%elem_of_app; [by eapply H2 | done]. }
        exists o. split; [apply elem_of_app; right; left|]. by left.
      + rewrite lookup_insert_ne by done. specialize (Hcall j). cbn in Hcall. destruct (cs !! j) as [[p|]|]; [| done |].
        * destruct Hcall as (Hr & o' & Ho & Hph). split. { intros r [E|E%elem_of_list_singleton]%elem_of_app; [by eapply Hr | done]. }
          exists o'. split; [apply elem_of_app; by left | done].
        * destruct Hcall as (Ha & Hb & Hc). split_and!; [| |apply Hc..].
          -- intros o' [E|[= ->]%elem_of_list_singleton]%elem_of_app; [by eapply Ha | done].
          -- intros r [E|E%elem_of_list_singleton]%elem_of_app; [by eapply Hb | done].
    - (* a step *)
      pose proof (Hcall i) as Hc. cbn in Hc. rewrite Hi in Hc. destruct Hc as (Hr & o & Ho & Hph). destruct Hinv as [I1 I2 I3 I4 _ I6]. cbn in I2, I4, Hcall.
      assert (Hothers : ∀ (L' : list entry) A' (rs' : gset nat) w' win', (∀ x, x ∈ L → x ∈ L') → (∀ j, j ≠ i → j ∈ map lin_id L' → j ∈ map lin_id L) → (∀ j, j ≠ i → (j ∈ rs ↔ j ∈ rs')) → (∀ j, j ≠ i → (w = Some j ↔ w' = Some j)) →
        (∀ j, j ≠ i → j ∈ rs → s' = s) → (∀ j, j ≠ i → w = Some j → s' = s ∧ A' = A ∧ (rs = ∅ → rs' = ∅) ∧ win' = win) → linearizes h L' →
        ((∀ r, ERet i r ∉ h) ∧ ∃ o, EInv i o ∈ h ∧ phase s' A' L' rs' w' win' i o p') → ∀ j, match (<[i := Running p']> cs) !! j with
          | None => (∀ o, EInv j o ∉ h) ∧ (∀ r, ERet j r ∉ h) ∧ j ∉ map lin_id L' ∧ j ∉ rs' ∧ w' ≠ Some j
          | Some Returned => j ∉ rs' ∧ w' ≠ Some j
          | Some (Running p) => (∀ r, ERet j r ∉ h) ∧ ∃ o, EInv j o ∈ h ∧ phase s' A' L' rs' w' win' j o p
          end).
      { intros L' A' rs' w' win' F1 F2 F3 F4 F5 F6 F7 Fi j. destruct (decide (j = i)) as [->|Hj]; [by rewrite lookup_insert|]. rewrite lookup_insert_ne by done. specialize (Hcall j).
        destruct (cs !! j) as [[q|]|].
        - destruct Hcall as (Hr' & o' & Ho' & Hph'). split; [done|]. exists o'. split; [done|]. eapply phase_frame; [exact Hph' | done | auto | auto | auto | eauto | eauto].
        - destruct Hcall. rewrite <- F3, <- F4 by done. done.
        - destruct Hcall as (? & ? & ? & ? & ?). rewrite <- F3, <- F4 by done. split_and!; auto. }
      destruct Hph as [(-> & H1 & H2 & H3)|[(H1 & -> & H2 & H3 & H4 & H5)|[(H1 & H2 & H3 & q & r & -> & H4 & H5 & H6)|[(H1 & H2 & H3 & H4 & H5 & q & r & -> & H6 & H7 & H8)|(H1 & H2 & r & -> & H3)]]]].
      + (* asks for the lock *)
        unfold guarded, locked in Hp. destruct (lock o) eqn:Elk.
        * inversion Hp as [|l p1 s1 f1 n Ef| | | |]; subst. rewrite I2 in Ef. injection Ef as <- Ew. assert (w = None) as -> by (destruct w; [by apply bool_decide_eq_false in Ew; destruct Ew | done]).
          assert (win = false) as -> by (destruct win; [|done]; destruct (I3 eq_refl) as [[? E] _]; discriminate E).
          rewrite (I4 eq_refl) in *. destruct (exec (body o) A) as [r A1] eqn:Ee. assert (A1 = A) as ->. { pose proof (reading_exec (body o) (Hread o Elk) A) as E. by rewrite Ee in E. }
          pose proof (lin_take h L i o r I6 H1 Ho Hr) as Hlin.
          exists (L ++ [(i, o, r)]), A, ({[i]} ∪ rs), None, false. split; cbn [mem lks calls].
          -- by eapply atomic_snoc.
          -- unfold set_lock. rewrite decide_True by done. rewrite size_union, size_singleton by set_solver. done.
          -- done.
          -- done.
          -- apply Hothers; try done; [intros x Hx; apply elem_of_app; by left | intros j Hj; by apply in_ids_snoc | set_solver |].
             split; [done|]. exists o. split; [done|]. right; right; left. split_and!; [done | set_solver | done |]. exists (body o), r. split_and!; [done | by apply Hread | by rewrite Ee | apply elem_of_app; right; left].
          -- done.
        * inversion Hp as [| | |l p1 s1 f1 n Ef| |]; subst. rewrite I2 in Ef. injection Ef as <- Ew. assert (w = None) as -> by (destruct w; [by apply bool_decide_eq_false in Ew; destruct Ew | done]).
          assert (win = false) as -> by (destruct win; [|done]; destruct (I3 eq_refl) as [[? E] _]; discriminate E).
          exists L, A, rs, (Some i), false. split; cbn [mem lks calls]; try done.
          -- apply Hothers; try done. { intros j Hj. split; [done|]. intros [= ->]. done. }
             split; [done|]. exists o. split; [done|]. right; left. done.
      + (* gets it *)
        inversion Hp as [| | | |l p1 s1 f1 b Ef|]; subst. rewrite I2 in Ef. injection Ef as Es _. apply size_empty_inv in Es. apply leibniz_equiv in Es. subst rs. rewrite (I4 eq_refl) in *.
        destruct (exec (body o) A) as [r A1] eqn:Ee. pose proof (lin_take h L i o r I6 H2 Ho Hr) as Hlin.
        exists (L ++ [(i, o, r)]), A1, ∅, (Some i), true. split; cbn [mem lks calls]; try done.
        * by eapply atomic_snoc.
        * apply Hothers; try done; [intros x Hx; apply elem_of_app; by left | intros j Hj; by apply in_ids_snoc | intros j Hj [= ->]; done|].
          split; [done|]. exists o. split; [done|]. right; right; right; left. split_and!; try done. exists (body o), r. split_and!; try done. apply elem_of_app; right; left.
      + (* reads, or leaves *)
        assert (Hw : win = false). { destruct win; [|done]. destruct (I3 eq_refl) as [_ ->]. by apply elem_of_empty in H2. }
        subst win. destruct (bindp_done Rd q _ _ _ _ _ _ (reading_plain _ H4) eq_refl Hp) as [(wr & k & -> & -> & -> & ->)|(r1 & -> & Ep)].
        * cbn [reading] in H4. destruct (H4 s) as [Ew Hk]. rewrite Ew in *. cbn [exec] in H5. rewrite Ew in H5.
          exists L, A, rs, w, false. split; cbn [mem lks calls]; try done. apply Hothers; try done. split; [done|]. exists o. split; [done|]. right; right; left. split_and!; try done. exists (k s), r. done.
        * cbn in Hp. cbn in H5. subst r1. inversion Hp as [| |l p1 s1 f1 n b Ef| | |]; subst. rewrite I2 in Ef. injection Ef as Es Eb.
          exists L, A, (rs ∖ {[i]}), w, false. split; cbn [mem lks calls]; try done.
          -- unfold set_lock. rewrite decide_True by done. rewrite size_difference by set_solver. rewrite size_singleton, Es, Eb. f_equal. lia.
          -- apply Hothers; try done; [set_solver | |]. { intros j Hj Hw. split_and!; try done. set_solver. }
             split; [done|]. exists o. split; [done|]. right; right; right; right. split_and!; [set_solver | done |]. by exists r.
      + (* writes, or leaves *)
        subst w win. destruct (bindp_done Wr q _ _ _ _ _ _ H6 eq_refl Hp) as [(wr & k & -> & -> & -> & ->)|(r1 & -> & Ep)].
        * cbn [plain] in H6. cbn [exec] in H7. exists L, A, rs, (Some i), true. split; cbn [mem lks calls]; try done.
          apply Hothers; try done; [intros j Hj Hx; rewrite H4 in Hx; by apply elem_of_empty in Hx | intros j Hj [= ->]; done|].
          split; [done|]. exists o. split; [done|]. right; right; right; left. split_and!; try done. exists (k s), r. done.
        * cbn in H7. injection H7 as E1 E2; subst r1 A. cbn in Hp. inversion Hp as [| | | | |l p1 s1 f1 n Ef]; subst. rewrite I2 in Ef. injection Ef as Es.
          exists L, s', ∅, None, false. split; cbn [mem lks calls]; try done.
          -- unfold set_lock. rewrite decide_True by done. subst n; by rewrite size_empty.
          -- apply Hothers; try done. { intros j Hj; split; [intros [= E]; by subst j | done]. } { intros j Hj [= E]. by subst j. }
             split; [done|]. exists o. split; [done|]. right; right; right; right. split_and!; [set_solver | done | eexists; done].
      + inversion Hp.
    - (* a return *)
      exists L, A, rs, w, win. pose proof (Hcall i) as Hc. cbn in Hc. rewrite Hi in Hc. destruct Hc as (Hr & o & Ho & Hph). destruct Hinv as [I1 I2 I3 I4 _ I6].
      assert (i ∉ rs ∧ w ≠ Some i ∧ (i, o, r) ∈ L) as (H1 & H2 & H3).
      { destruct Hph as [(E & _)|[(_ & E & _)|[(_ & _ & _ & q & r1 & E & _)|[(_ & _ & _ & _ & _ & q & r1 & E & _)|(H1 & H2 & r1 & [= ->] & H3)]]]]; [..|done]; exfalso.
        - unfold guarded, locked in E. by destruct (lock o). - done. - by destruct q. - by destruct q. }
      split; [done | done | done | done | | by eapply lin_return].
      intros j. cbn. destruct (decide (j = i)) as [->|Hj]; [by rewrite lookup_insert|]. rewrite lookup_insert_ne by done. specialize (Hcall j). cbn in Hcall.
      destruct (cs !! j) as [[p|]|]; [| done |].
      + destruct Hcall as (Hr' & o' & Ho' & Hph'). split. { intros r' [E|[= -> ->]%elem_of_list_singleton]%elem_of_app; [by eapply Hr' | done]. }
        exists o'. split; [apply elem_of_app; by left | done].
      + destruct Hcall as (Ha & Hb & Hc). split_and!; [| |apply Hc..].
        * intros o' [E|E%elem_of_list_singleton]%elem_of_app; [by eapply Ha | done].
        * intros r' [E|[= -> ->]%elem_of_list_singleton]%elem_of_app; [by eapply Hb | done].
  Qed.
  Lemma inv_execution s h c : execution method s h c → ∃ L A rs w win, inv s h c L A rs w win.
  Proof using Hplain Hread.
    induction 1 as [|h c c' _ (L & A & rs & w & win & IH) Hst|h c c' e _ (L & A & rs & w & win & IH) Hst].
    - eexists _, _, _, _, _. apply inv_start.
    - destruct (inv_step _ _ _ _ _ _ _ _ _ _ IH Hst) as (L' & A' & rs' & w' & win' & H). eauto 10.
    - destruct (inv_step _ _ _ _ _ _ _ _ _ _ IH Hst) as (L' & A' & rs' & w' & win' & H). eauto 10.
  Qed.

  (* ---------- no races, no deadlock ---------- *)
  Lemma no_race s h c i j w k w' k' : execution method s h c → i ≠ j →
    calls c !! i = Some (Running (PAct w k)) → calls c !! j = Some (Running (PAct w' k')) → (∀ m, w m = m) ∧ (∀ m, w' m = m).
  Proof using Hplain Hread.
    intros Hex Hij Hi Hj. destruct (inv_execution _ _ _ Hex) as (L & A & rs & wr & win & Hinv).
    assert (Hx : ∀ i w k, calls c !! i = Some (Running (PAct w k)) → (i ∈ rs ∧ ∀ m, w m = m) ∨ (wr = Some i ∧ rs = ∅)).
    { clear -Hinv. intros i w k Hi. pose proof (iv_call _ _ _ _ _ _ _ _ Hinv i) as Hc. rewrite Hi in Hc. destruct Hc as (_ & o & _ & Hph).
      destruct Hph as [(E & _)|[(_ & E & _)|[(_ & H & _ & q & r1 & E & H1 & _)|[(_ & H & _ & H' & _)|(_ & _ & r1 & E & _)]]]]; try done.
      - unfold guarded, locked in E. by destruct (lock o).
      - left. split; [done|]. destruct q; try done. injection E as -> _. intros m. by apply H1.
      - by right. }
    destruct (Hx _ _ _ Hi) as [[H1 H2]|[H1 H2]], (Hx _ _ _ Hj) as [[H3 H4]|[H3 H4]]; [done | set_solver | set_solver | congruence].
  Qed.
  Lemma progress s h c i p : execution method s h c → calls c !! i = Some (Running p) → ∃ c', goes_on method c c'.
  Proof using Hplain Hread.
    intros Hex Hi. destruct (inv_execution _ _ _ Hex) as (L & A & rs & w & win & Hinv). destruct c as [m f cs]. cbn in Hi.
    pose proof (iv_call _ _ _ _ _ _ _ _ Hinv) as Hc. pose proof (iv_lock _ _ _ _ _ _ _ _ Hinv) as Hl. cbn in Hc, Hl.
    assert (Hgo : ∀ j (q : prog S R) (md : mode), cs !! j = Some (Running (bindp q (fin md))) → plain q → (md = Rd → ∃ n b, f 0%nat = MkRw (Datatypes.S n) b) → (md = Wr → ∃ n, f 0%nat = MkRw n true) → ∃ c', goes_on method (MkCfg m f cs) c').
    { intros j q md Hj Hq H1 H2. destruct q as [r|wr k| | | | |]; try done.
      - destruct md; cbn in Hj.
        + destruct (H1 eq_refl) as (n & b & E). eexists. left. eapply ms_step; [exact Hj|]. by econstructor.
        + destruct (H2 eq_refl) as (n & E). eexists. left. eapply ms_step; [exact Hj|]. by econstructor.
      - eexists. left. eapply ms_step; [exact Hj|]. cbn. constructor. }
    assert (Hrs : ∀ j, j ∈ rs → ∃ c', goes_on method (MkCfg m f cs) c').
    { intros j Hj. specialize (Hc j). destruct (cs !! j) as [[q|]|] eqn:Ej; [| by destruct Hc | by destruct Hc as (_ & _ & _ & ? & ?)]. destruct Hc as (_ & o & _ & Hph).
      destruct Hph as [(_ & _ & E & _)|[(_ & _ & _ & E & _)|[(_ & _ & _ & q1 & r1 & -> & H1 & _)|[(_ & _ & E & _)|(E & _)]]]]; try done.
      eapply Hgo; [exact Ej | by apply reading_plain | | done]. intros _. rewrite Hl. assert (size rs ≠ 0%nat) as Hs. { intros E. apply size_empty_inv in E. set_solver. }
      destruct (size rs) as [|n]; [done|]. eauto. }
    destruct w as [j|].
    - specialize (Hc j). destruct (cs !! j) as [[q|]|] eqn:Ej; [| by destruct Hc | by destruct Hc as (_ & _ & _ & ? & ?)]. destruct Hc as (_ & o & _ & Hph).
      destruct Hph as [(_ & _ & _ & E)|[(_ & -> & _)|[(_ & _ & E & _)|[(_ & _ & _ & _ & _ & q1 & r1 & -> & H1 & _)|(_ & E & _)]]]]; try done.
      + destruct (decide (rs = ∅)) as [->|(x & Hx)%set_choose_L]; [|by eapply Hrs]. eexists. left. eapply ms_step; [exact Ej|]. eapply ps_locking. by rewrite Hl.
      + eapply Hgo; [exact Ej | done | done |]. intros _. rewrite Hl. eauto.
    - specialize (Hc i). rewrite Hi in Hc. destruct Hc as (_ & o & _ & Hph).
      destruct Hph as [(-> & _)|[(_ & _ & _ & _ & E & _)|[(_ & E & _)|[(_ & E & _)|(_ & _ & r1 & -> & _)]]]]; try done.
      + unfold guarded, locked in Hi. destruct (lock o); eexists; left; (eapply ms_step; [exact Hi|]); by econstructor.
      + by eapply Hrs.
      + eexists. right. eexists _, _. by constructor.
  Qed.
End proofs.
Section finish.
  Context {S O R : Type} (method : O → prog S R).
  (* ---------- every schedule ends ---------- *)
  Inductive tlt : thread S R → thread S R → Prop :=
  | tl_act w k s : tlt (Running (k s)) (Running (PAct w k))
  | tl_rlock l p : tlt (Running p) (Running (PRLock l p))
  | tl_runlock l p : tlt (Running p) (Running (PRUnlock l p))
  | tl_lock l p : tlt (Running (PLocking l p)) (Running (PLock l p))
  | tl_locking l p : tlt (Running p) (Running (PLocking l p))
  | tl_unlock l p : tlt (Running p) (Running (PUnlock l p))
  | tl_done p : tlt Returned (Running p).
  Lemma tlt_wf t : Acc tlt t.
  Proof using.
    assert (Acc tlt Returned) as H0 by (constructor; intros ? H; inversion H).
    destruct t as [p|]; [|exact H0]. induction p as [r|w k IH|l p IH|l p IH|l p IH|l p IH|l p IH].
    - constructor. intros t' Ht. inversion Ht. exact H0.
    - constructor. intros t' Ht. inversion Ht; subst; [apply IH | exact H0].
    - constructor. intros t' Ht. inversion Ht; subst; [exact IH | exact H0].
    - constructor. intros t' Ht. inversion Ht; subst; [exact IH | exact H0].
    - constructor. intros t' Ht. inversion Ht; subst; [|exact H0]. constructor. intros t' Ht'. inversion Ht'; subst; [exact IH | exact H0].
    - constructor. intros t' Ht. inversion Ht; subst; [exact IH | exact H0].
    - constructor. intros t' Ht. inversion Ht; subst; [exact IH | exact H0].
  Qed.
  Definition mlt (m' m : gmap nat (thread S R)) : Prop := ∃ i t t', m !! i = Some t ∧ tlt t' t ∧ m' = <[i := t']> m.
  Lemma mlt_wf m : Acc mlt m.
  Proof using.
    induction m as [|i t m Hi IH] using map_ind.
    - constructor. intros m' (j & t & t' & E & _). by rewrite lookup_empty in E.
    - revert t. induction IH as [m _ IHm]. intros t. pose proof (tlt_wf t) as Ht. induction Ht as [t _ IHt]. constructor. intros m' (j & t1 & t2 & E & Hlt & ->).
      destruct (decide (j = i)) as [->|Hj].
      + rewrite lookup_insert in E. injection E as ->. rewrite insert_insert. by apply IHt.
      + rewrite lookup_insert_ne in E by done. rewrite insert_commute by done. apply IHm; [by exists j, t1, t2 | by rewrite lookup_insert_ne].
  Qed.
  Lemma goes_on_mlt (c c' : config S R) : goes_on method c c' → mlt (calls c') (calls c).
  Proof using.
    intros [H|(i & r & H)]; inversion H as [|s f cs i1 p p' s' f' Hi Hp|s f cs i1 r1 Hi]; subst; cbn; [exists i1, (Running p), (Running p') | exists i, (Running (PDone r)), Returned]; (split_and!; [done | | done]).
    - inversion Hp; subst; constructor.
    - constructor.
  Qed.
  Lemma no_infinite_run (run : nat → config S R) : ¬ ∀ n, goes_on method (run n) (run (Datatypes.S n)).
  Proof using.
    intros H. assert (∀ m, Acc mlt m → ∀ n, m = calls (run n) → False) as Hx; [|by apply (Hx _ (mlt_wf (calls (run 0%nat))) 0%nat)].
    intros m Hm. induction Hm as [m _ IH]. intros n ->. eapply (IH (calls (run (Datatypes.S n)))); [by apply goes_on_mlt | done].
  Qed.
End finish.
