(** Methods made of several critical sections of one lock: the sections take effect one by one. *)
From Verif Require Import Base ConcModel ConcSpec ConcProofs.

Section proofs.
  Context {S SO SR O R : Type} (lock : SO → mode) (body : SO → prog S SR) (meth : O → code SO SR R).
  Context (Hplain : ∀ o, plain (body o)) (Hread : ∀ o, lock o = Rd → reading (body o)).
  Notation flat := (flatten lock body).
  Notation method := (λ o, flat (meth o)).
  Notation entry := (nat * SO * SR)%type.
  Implicit Types (L : list entry) (s A : S) (h : list (event O R)) (c : config S R).

  Lemma of_call_snoc L i o r j : of_call j (L ++ [(i, o, r)]) = of_call j L ++ (if decide (i = j) then [(o, r)] else []).
  Proof using. unfold of_call. rewrite omap_app. f_equal. cbn. by destruct (decide (i = j)). Qed.
  Lemma of_call_same L i o r : of_call i (L ++ [(i, o, r)]) = of_call i L ++ [(o, r)].
  Proof using. rewrite of_call_snoc. by rewrite decide_True. Qed.
  Lemma of_call_other L i o r j : j ≠ i → of_call j (L ++ [(i, o, r)]) = of_call j L.
  Proof using. intros H. rewrite of_call_snoc. by rewrite decide_False, app_nil_r by congruence. Qed.
  Lemma of_call_in L x : x ∈ L → of_call (lin_id x) L ≠ [].
  Proof using.
    intros (l1 & l2 & ->)%elem_of_list_split. unfold of_call. rewrite omap_app. cbn. rewrite decide_True by done. by intros [_ E]%app_eq_nil.
  Qed.
  Lemma runs_snoc (cd : code SO SR R) l o k r : runs cd l (COp o k) → runs cd (l ++ [(o, r)]) (k r).
  Proof using. intros H. remember (COp o k) as c eqn:E. revert E. induction H as [c|o' k' r' l c H IH]; intros E; cbn; [subst; constructor; constructor | constructor; auto]. Qed.

  Notation into o k q := (bindp (bindp q (fin (R := SR) (lock o))) (λ r : SR, flat (k r))).
  (** where a call stands: outside; announced; inside reading; inside writing *)
  Definition phase s A L (rs : gset nat) (w : option nat) (win : bool) (i : nat) (cd : code SO SR R) (p : prog S R) : Prop :=
    (∃ k, p = flat k ∧ runs cd (of_call i L) k ∧ i ∉ rs ∧ w ≠ Some i) ∨
    (∃ o k, lock o = Wr ∧ p = PLocking 0 (into o k (body o)) ∧ runs cd (of_call i L) (COp o k) ∧ i ∉ rs ∧ w = Some i ∧ win = false) ∨
    (∃ o (k : SR → code SO SR R) (q : prog S SR) r, lock o = Rd ∧ i ∈ rs ∧ w ≠ Some i ∧ p = into o k q ∧ reading q ∧ (exec q s).1 = r ∧ runs cd (of_call i L) (k r)) ∨
    (∃ o (k : SR → code SO SR R) (q : prog S SR) r, lock o = Wr ∧ w = Some i ∧ i ∉ rs ∧ rs = ∅ ∧ win = true ∧ p = into o k q ∧ plain q ∧ exec q s = (r, A) ∧ runs cd (of_call i L) (k r)).
  Lemma phase_frame s A L rs w win s' A' L' rs' w' win' i o p : phase s A L rs w win i o p →
    of_call i L' = of_call i L → (i ∈ rs ↔ i ∈ rs') → (w = Some i ↔ w' = Some i) →
    (i ∈ rs → s' = s) → (w = Some i → s' = s ∧ A' = A ∧ (rs = ∅ → rs' = ∅) ∧ win' = win) → phase s' A' L' rs' w' win' i o p.
  Proof using.
    intros H HL Hrs Hw Hs HA. unfold phase. rewrite HL. destruct H as [(k & H1 & H2 & H3 & H4)|[(so & k & H1 & H2 & H3 & H4 & H5 & H6)|[(so & k & q & r & H1 & H2 & H3 & H4 & H5 & H6 & H7)|(so & k & q & r & H1 & H2 & H3 & H4 & H5 & H6 & H7 & H8 & H9)]]].
    - left. exists k. split_and!; [done | done | by rewrite <- Hrs | by rewrite <- Hw].
    - right; left. destruct (HA H5) as (-> & -> & Hr & ->). exists so, k. split_and!; [done | done | done | by rewrite <- Hrs | by apply Hw | done].
    - right; right; left. rewrite (Hs H2). exists so, k, q, r. split_and!; [done | by apply Hrs | by rewrite <- Hw | done..].
    - right; right; right. destruct (HA H2) as (-> & -> & Hr & ->). exists so, k, q, r. split_and!; [done | by apply Hw | by rewrite <- Hrs | auto | done..].
  Qed.
  Record inv (s0 : S) h c L A rs w win : Prop := {
    iv_seq : one_by_one body L s0 A;
    iv_lock : lks c 0 = MkRw (size rs) (bool_decide (is_Some w));
    iv_win : win = true → is_Some w ∧ rs = ∅;
    iv_mem : win = false → mem c = A;
    iv_call : ∀ i, match calls c !! i with
      | None => (∀ o, EInv i o ∉ h) ∧ (∀ r, ERet i r ∉ h) ∧ of_call i L = [] ∧ i ∉ rs ∧ w ≠ Some i
      | Some Returned => i ∉ rs ∧ w ≠ Some i ∧ ∃ o r, (∀ o', EInv i o' ∈ h ↔ o' = o) ∧ (∀ r', ERet i r' ∈ h ↔ r' = r) ∧ runs (meth o) (of_call i L) (CRet r)
      | Some (Running p) => (∀ r, ERet i r ∉ h) ∧ ∃ o, (∀ o', EInv i o' ∈ h ↔ o' = o) ∧ phase (mem c) A L rs w win i (meth o) p
      end;
    iv_ids : ∀ x, x ∈ L → ∃ o, EInv (lin_id x) o ∈ h;
    iv_ord : ∀ h1 h2 h3 i r j o m n x y, h = h1 ++ ERet i r :: h2 ++ EInv j o :: h3 →
      L !! m = Some x → L !! n = Some y → lin_id x = i → lin_id y = j → (m < n)%nat;
  }.
  Lemma inv_start s : inv s [] (start s) [] s ∅ None false.
  Proof using.
    split; try done.
    - intros i. cbn. rewrite lookup_empty. split_and!; [intros ? E; inversion E | intros ? E; inversion E | done | apply not_elem_of_empty | done].
    - intros x Hx. by apply elem_of_nil in Hx.
  Qed.
  Lemma atomic_snoc' L s A i o r A' : one_by_one body L s A → exec (body o) A = (r, A') → one_by_one body (L ++ [(i, o, r)]) s A'.
  Proof using. revert s. induction L as [|[[j o'] r'] L IH]; intros s; cbn [one_by_one app]; [intros -> E; eauto|]. intros (s1 & E & H) E'. exists s1. auto. Qed.
  Lemma into_step (o : SO) (k : SR → code SO SR R) (q : prog S SR) s f (p' : prog S R) s' f' : plain q → pstep (into o k q) s f p' s' f' →
    (∃ w kk, q = PAct w kk ∧ p' = into o k (kk s) ∧ s' = w s ∧ f' = f) ∨
    (∃ r, q = PDone r ∧ pstep (bindp (fin (lock o) r) (λ r, flat (k r))) s f p' s' f').
  Proof using. intros Hq Hs. destruct q as [r|w kk| | | | |]; try done; [right; by exists r|]. left. inversion Hs; subst. by exists w, kk. Qed.
  Lemma lookup_snoc_Some {X} (l : list X) x n y : (l ++ [x]) !! n = Some y → ((n < length l)%nat ∧ l !! n = Some y) ∨ (n = length l ∧ x = y).
  Proof using.
    intros H. destruct (decide (n < length l)%nat) as [Hn|Hn]; [left; by rewrite lookup_app_l in H|]. right. rewrite lookup_app_r in H by lia.
    apply list_lookup_singleton_Some in H as [H ->]. split; [lia | done].
  Qed.
  (** the order survives a new section of a running call *)
  Lemma ord_snoc h L i so r : (∀ r, ERet i r ∉ h) → (∀ h1 h2 h3 i r j o m n x y, h = h1 ++ ERet i r :: h2 ++ EInv j o :: h3 →
      L !! m = Some x → L !! n = Some y → lin_id x = i → lin_id y = j → (m < n)%nat) →
    ∀ h1 h2 h3 i' r' j o m n x y, h = h1 ++ ERet i' r' :: h2 ++ EInv j o :: h3 →
      (L ++ [(i, so, r)]) !! m = Some x → (L ++ [(i, so, r)]) !! n = Some y → lin_id x = i' → lin_id y = j → (m < n)%nat.
  Proof using.
    intros Hr IH h1 h2 h3 i' r' j o m n x y E Hm Hn Ex Ey. apply lookup_snoc_Some in Hm as [[Hm1 Hm2]|[-> <-]].
    - apply lookup_snoc_Some in Hn as [[Hn1 Hn2]|[-> _]]; [by eapply IH | done].
    - cbn in Ex. subst i'. destruct (Hr r'). rewrite E. apply elem_of_app. right. left.
  Qed.
  Lemma ids_snoc h L i so r o : EInv i o ∈ h → (∀ x, x ∈ L → ∃ o, EInv (lin_id x) o ∈ h) → ∀ x, x ∈ L ++ [(i, so, r)] → ∃ o, EInv (lin_id x) o ∈ h.
  Proof using. intros Ho IH x [Hx| ->%elem_of_list_singleton]%elem_of_app; [auto | by exists o]. Qed.

  Lemma inv_step s0 h c L A rs w win e c' : inv s0 h c L A rs w win → mstep method c e c' →
    ∃ L' A' rs' w' win', inv s0 (match e with None => h | Some e => h ++ [e] end) c' L' A' rs' w' win'.
  Proof using Hplain Hread.
    intros Hinv Hst. pose proof (iv_call _ _ _ _ _ _ _ _ Hinv) as Hcall. destruct Hst as [s f cs i o Hi|s f cs i p p' s' f' Hi Hp|s f cs i r Hi].
    - (* a call *)
      exists L, A, rs, w, win. pose proof (Hcall i) as Hc. cbn in Hc. rewrite Hi in Hc. destruct Hc as (H1 & H2 & H3 & H4 & H5).
      destruct Hinv as [I1 I2 I3 I4 _ I6 I7]. split; [done | done | done | done | | |].
      + intros j. cbn. destruct (decide (j = i)) as [->|Hj].
        * rewrite lookup_insert. split. { intros r [E|E%elem_of_list_singleton]%elem_of_app; [by eapply H2 | done]. }
          exists o. split. { intros o'. split; [intros [E|[= ->]%elem_of_list_singleton]%elem_of_app; [by apply H1 in E | done] | intros ->; apply elem_of_app; right; left]. }
          left. exists (meth o). rewrite H3. split_and!; [done | constructor | done | done].
        * rewrite lookup_insert_ne by done. specialize (Hcall j). cbn in Hcall.
          assert (Heq : ∀ o', EInv j o' ∈ h ++ [EInv i o] ↔ EInv j o' ∈ h). { intros o'. rewrite elem_of_app, elem_of_list_singleton. split; [intros [?|[= -> ->]]; done | auto]. }
          assert (Heqr : ∀ r, ERet j r ∈ h ++ [EInv i o] ↔ ERet j r ∈ h). { intros r. rewrite elem_of_app, elem_of_list_singleton. split; [intros [?|E]; done | auto]. }
          destruct (cs !! j) as [[p|]|].
          -- destruct Hcall as (Hr & o' & Ho & Hph). split; [intros r; by rewrite Heqr|]. exists o'. split; [|done]. intros o1. by rewrite Heq.
          -- destruct Hcall as (Ha & Hb & o' & r' & Ho & Hr & Hx). split_and!; [done | done |]. exists o', r'. split_and!; [intros o1; by rewrite Heq | intros r1; by rewrite Heqr | done].
          -- destruct Hcall as (Ha & Hb & Hc). split_and!; [intros o1; by rewrite Heq | intros r1; by rewrite Heqr | apply Hc..].
      + intros x Hx. destruct (I6 x Hx) as [o' Ho]. exists o'. apply elem_of_app. by left.
      + intros h1 h2 h3 i' r' j o' m n x y E Hm Hn Ex Ey. destruct (snoc_cut _ _ _ _ _ _ _ E) as [[h3' E']|[[= -> ->] _]]; [eauto|].
        destruct (of_call_in L y); [by eapply elem_of_list_lookup_2 | by rewrite Ey].
    - (* a step *)
      pose proof (Hcall i) as Hc. cbn in Hc. rewrite Hi in Hc. destruct Hc as (Hr & o & Ho & Hph). destruct Hinv as [I1 I2 I3 I4 _ I6 I7]. cbn in I2, I4, Hcall.
      assert (Hoi : EInv i o ∈ h) by (by apply Ho).
      assert (Hothers : ∀ (L' : list entry) A' (rs' : gset nat) w' win', (∀ j, j ≠ i → of_call j L' = of_call j L) → (∀ j, j ≠ i → (j ∈ rs ↔ j ∈ rs')) → (∀ j, j ≠ i → (w = Some j ↔ w' = Some j)) →
        (∀ j, j ≠ i → j ∈ rs → s' = s) → (∀ j, j ≠ i → w = Some j → s' = s ∧ A' = A ∧ (rs = ∅ → rs' = ∅) ∧ win' = win) →
        phase s' A' L' rs' w' win' i (meth o) p' → ∀ j, match (<[i := Running p']> cs) !! j with
          | None => (∀ o, EInv j o ∉ h) ∧ (∀ r, ERet j r ∉ h) ∧ of_call j L' = [] ∧ j ∉ rs' ∧ w' ≠ Some j
          | Some Returned => j ∉ rs' ∧ w' ≠ Some j ∧ ∃ o r, (∀ o', EInv j o' ∈ h ↔ o' = o) ∧ (∀ r', ERet j r' ∈ h ↔ r' = r) ∧ runs (meth o) (of_call j L') (CRet r)
          | Some (Running p) => (∀ r, ERet j r ∉ h) ∧ ∃ o, (∀ o', EInv j o' ∈ h ↔ o' = o) ∧ phase s' A' L' rs' w' win' j (meth o) p
          end).
      { intros L' A' rs' w' win' F2 F3 F4 F5 F6 Fi j. destruct (decide (j = i)) as [->|Hj]; [rewrite lookup_insert; eauto|]. rewrite lookup_insert_ne by done. specialize (Hcall j).
        destruct (cs !! j) as [[q|]|].
        - destruct Hcall as (Hr' & o' & Ho' & Hph'). split; [done|]. exists o'. split; [done|]. eapply phase_frame; [exact Hph' | auto | auto | auto | eauto | eauto].
        - rewrite F2, <- F3, <- F4 by done. done.
        - rewrite F2, <- F3, <- F4 by done. done. }
      destruct Hph as [(k & -> & H2 & H3 & H4)|[(so & k & H1 & -> & H3 & H4 & H5 & H6)|[(so & k & q & r & H1 & H2 & H3 & -> & H5 & H6 & H7)|(so & k & q & r & H1 & H2 & H3 & H4 & H5 & -> & H7 & H8 & H9)]]].
      + (* asks for the lock *)
        destruct k as [r|so k]; cbn [flatten] in Hp; [by inversion Hp|]. unfold locked in Hp. destruct (lock so) eqn:Elk.
        * inversion Hp as [|l p1 s1 f1 n Ef| | | |]; subst. rewrite I2 in Ef. injection Ef as <- Ew. assert (w = None) as -> by (destruct w; [by apply bool_decide_eq_false in Ew; destruct Ew | done]).
          assert (win = false) as -> by (destruct win; [|done]; destruct (I3 eq_refl) as [[? E] _]; discriminate E).
          rewrite (I4 eq_refl) in *. destruct (exec (body so) A) as [r A1] eqn:Ee. assert (A1 = A) as ->. { pose proof (reading_exec (body so) (Hread so Elk) A) as E. by rewrite Ee in E. }
          exists (L ++ [(i, so, r)]), A, ({[i]} ∪ rs), None, false. split; cbn [mem lks calls].
          -- by eapply atomic_snoc'.
          -- unfold set_lock. rewrite decide_True by done. rewrite size_union, size_singleton by set_solver. done.
          -- done.
          -- done.
          -- apply Hothers; try done; [intros j Hj; by apply of_call_other | set_solver |].
             right; right; left. exists so, k, (body so), r. split_and!; [done | set_solver | done | by rewrite Elk | by apply Hread | by rewrite Ee | rewrite of_call_same; by apply runs_snoc].
          -- by eapply ids_snoc.
          -- by apply ord_snoc.
        * inversion Hp as [| | |l p1 s1 f1 n Ef| |]; subst. rewrite I2 in Ef. injection Ef as <- Ew. assert (w = None) as -> by (destruct w; [by apply bool_decide_eq_false in Ew; destruct Ew | done]).
          assert (win = false) as -> by (destruct win; [|done]; destruct (I3 eq_refl) as [[? E] _]; discriminate E).
          exists L, A, rs, (Some i), false. split; cbn [mem lks calls]; try done.
          apply Hothers; try done. { intros j Hj. split; [done|]. intros [= ->]. done. }
          right; left. exists so, k. rewrite Elk. done.
      + (* gets it *)
        inversion Hp as [| | | |l p1 s1 f1 b Ef|]; subst. rewrite I2 in Ef. injection Ef as Es _. apply size_empty_inv in Es. apply leibniz_equiv in Es. subst rs. rewrite (I4 eq_refl) in *.
        destruct (exec (body so) A) as [r A1] eqn:Ee.
        exists (L ++ [(i, so, r)]), A1, ∅, (Some i), true. split; cbn [mem lks calls]; try done.
        * by eapply atomic_snoc'.
        * apply Hothers; try done; [intros j Hj; by apply of_call_other | intros j Hj [= ->]; done|].
          right; right; right. exists so, k, (body so), r. split_and!; try done. rewrite of_call_same. by apply runs_snoc.
        * by eapply ids_snoc.
        * by apply ord_snoc.
      + (* reads, or leaves *)
        assert (Hw : win = false). { destruct win; [|done]. destruct (I3 eq_refl) as [_ ->]. by apply elem_of_empty in H2. }
        subst win. destruct (into_step _ _ _ _ _ _ _ _ (reading_plain _ H5) Hp) as [(wr & kk & -> & -> & -> & ->)|(r1 & -> & Hp')].
        * cbn [reading] in H5. destruct (H5 s) as [Ew Hk]. rewrite Ew in *. cbn [exec] in H6. rewrite Ew in H6.
          exists L, A, rs, w, false. split; cbn [mem lks calls]; try done. apply Hothers; try done. right; right; left. exists so, k, (kk s), r. done.
        * cbn in H6. subst r1. rewrite H1 in Hp'. cbn in Hp'. inversion Hp' as [| |l p1 s1 f1 n b Ef| | |]; subst. rewrite I2 in Ef. injection Ef as Es Eb.
          exists L, A, (rs ∖ {[i]}), w, false. split; cbn [mem lks calls]; try done.
          -- unfold set_lock. rewrite decide_True by done. rewrite size_difference by set_solver. rewrite size_singleton, Es, Eb. f_equal. lia.
          -- apply Hothers; try done; [set_solver | |]. { intros j Hj Hw. split_and!; try done. set_solver. }
             left. exists (k r). split_and!; [done | done | set_solver | done].
      + (* writes, or leaves *)
        subst w win. destruct (into_step _ _ _ _ _ _ _ _ H7 Hp) as [(wr & kk & -> & -> & -> & ->)|(r1 & -> & Hp')].
        * cbn [plain] in H7. cbn [exec] in H8. exists L, A, rs, (Some i), true. split; cbn [mem lks calls]; try done.
          apply Hothers; try done; [intros j Hj Hx; rewrite H4 in Hx; by apply elem_of_empty in Hx | intros j Hj [= ->]; done|].
          right; right; right. exists so, k, (kk s), r. split_and!; try done.
        * cbn in H8. injection H8 as E1 E2; subst r1 A. rewrite H1 in Hp'. cbn in Hp'. inversion Hp' as [| | | | |l p1 s1 f1 n Ef]; subst. rewrite I2 in Ef. injection Ef as Es.
          exists L, s', ∅, None, false. split; cbn [mem lks calls]; try done.
          -- unfold set_lock. rewrite decide_True by done. subst n; by rewrite size_empty.
          -- apply Hothers; try done. { intros j Hj; split; [intros [= E]; by subst j | done]. } { intros j Hj [= E]. by subst j. }
             left. exists (k r). split_and!; [done | done | set_solver | done].
    - (* a return *)
      exists L, A, rs, w, win. pose proof (Hcall i) as Hc. cbn in Hc. rewrite Hi in Hc. destruct Hc as (Hr & o & Ho & Hph). destruct Hinv as [I1 I2 I3 I4 _ I6 I7].
      assert (i ∉ rs ∧ w ≠ Some i ∧ runs (meth o) (of_call i L) (CRet r)) as (H1 & H2 & H3).
      { destruct Hph as [(k & E & H2 & H3 & H4)|[(so & k & _ & E & _)|[(so & k & q & r1 & _ & _ & _ & E & _)|(so & k & q & r1 & _ & _ & _ & _ & _ & E & _)]]].
        - destruct k as [r1|so k]; [by injection E as <-|]. exfalso. cbn in E. unfold locked in E. by destruct (lock so).
        - done.
        - exfalso. destruct q; try done. cbn in E. by destruct (lock so).
        - exfalso. destruct q; try done. cbn in E. by destruct (lock so). }
      split; [done | done | done | done | | |].
      + intros j. cbn. destruct (decide (j = i)) as [->|Hj].
        * rewrite lookup_insert. split_and!; [done | done |]. exists o, r. split_and!; [| |done].
          -- intros o'. rewrite elem_of_app, elem_of_list_singleton, Ho. naive_solver.
          -- intros r'. rewrite elem_of_app, elem_of_list_singleton. split; [intros [E|[= E]]; [by apply Hr in E | done] | intros ->; by right].
        * rewrite lookup_insert_ne by done. specialize (Hcall j). cbn in Hcall.
          assert (Heq : ∀ o', EInv j o' ∈ h ++ [ERet i r] ↔ EInv j o' ∈ h). { intros o'. rewrite elem_of_app, elem_of_list_singleton. split; [intros [?|E]; done | auto]. }
          assert (Heqr : ∀ r', ERet j r' ∈ h ++ [ERet i r] ↔ ERet j r' ∈ h). { intros r'. rewrite elem_of_app, elem_of_list_singleton. split; [intros [?|[= -> ->]]; done | auto]. }
          destruct (cs !! j) as [[p|]|].
          -- destruct Hcall as (Hr' & o' & Ho' & Hph'). split; [intros r'; by rewrite Heqr|]. exists o'. split; [|done]. intros o1. by rewrite Heq.
          -- destruct Hcall as (Ha & Hb & o' & r' & Ho' & Hr' & Hx). split_and!; [done | done |]. exists o', r'. split_and!; [intros o1; by rewrite Heq | intros r1; by rewrite Heqr | done].
          -- destruct Hcall as (Ha & Hb & Hc). split_and!; [intros o1; by rewrite Heq | intros r1; by rewrite Heqr | apply Hc..].
      + intros x Hx. destruct (I6 x Hx) as [o' Ho']. exists o'. apply elem_of_app. by left.
      + intros h1 h2 h3 i' r' j o' m n x y E Hm Hn Ex Ey. destruct (snoc_cut _ _ _ _ _ _ _ E) as [[h3' E']|[E' _]]; [eauto | done].
  Qed.
  Lemma inv_execution s h c : execution method s h c → ∃ L A rs w win, inv s h c L A rs w win.
  Proof using Hplain Hread.
    induction 1 as [|h c c' _ (L & A & rs & w & win & IH) Hst|h c c' e _ (L & A & rs & w & win & IH) Hst].
    - eexists _, _, _, _, _. apply inv_start.
    - destruct (inv_step _ _ _ _ _ _ _ _ _ _ IH Hst) as (L' & A' & rs' & w' & win' & H). eauto 10.
    - destruct (inv_step _ _ _ _ _ _ _ _ _ _ IH Hst) as (L' & A' & rs' & w' & win' & H). eauto 10.
  Qed.
  Lemma phase_runs s A L rs w win i cd p : phase s A L rs w win i cd p → ∃ k, runs cd (of_call i L) k.
  Proof using. intros [(k & _ & H & _)|[(so & k & _ & _ & H & _)|[(so & k & q & r & _ & _ & _ & _ & _ & _ & H)|(so & k & q & r & _ & _ & _ & _ & _ & _ & _ & _ & H)]]]; eauto. Qed.

  (** sections take effect one after the other, in an order that respects the order of calls *)
  Theorem sections_atomic s h c : execution method s h c → ∃ L s', arranges meth h L ∧ one_by_one body L s s'.
  Proof using Hplain Hread.
    intros Hex. destruct (inv_execution s h c Hex) as (L & A & rs & w & win & Hinv). exists L, A. split; [|apply Hinv].
    pose proof (iv_call _ _ _ _ _ _ _ _ Hinv) as Hcall. split; [apply Hinv | | | apply Hinv].
    - intros i o Ho. specialize (Hcall i). destruct (calls c !! i) as [[p|]|].
      + destruct Hcall as (_ & o' & Ho' & Hph). apply Ho' in Ho. subst o. by eapply phase_runs.
      + destruct Hcall as (_ & _ & o' & r & Ho' & _ & Hr). apply Ho' in Ho. subst o. eauto.
      + destruct Hcall as (H & _). by apply H in Ho.
    - intros i r Hr. specialize (Hcall i). destruct (calls c !! i) as [[p|]|].
      + destruct Hcall as (H & _). by apply H in Hr.
      + destruct Hcall as (_ & _ & o' & r' & Ho' & Hr' & Hx). apply Hr' in Hr. subst r. exists o'. split; [by apply Ho' | done].
      + destruct Hcall as (_ & H & _). by apply H in Hr.
  Qed.
End proofs.
Print Assumptions sections_atomic.
