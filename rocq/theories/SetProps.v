(** Properties C33, C34, C35, C62 and the set part of C36. *)
From Coq Require Import String Ascii.
From Verif Require Import Base Wp History RbModel RbTree RbRot RbIns RbIns2 RbDel RbNav RbDel2 RbSpec RbFind RbProps RbApi MapModel MapSpec MapProofs SetModel SetSpec SetProofs.
Open Scope Z_scope.
Open Scope go_scope.

Section props.
  Context {T W : Type} (cmp : T → T → Z) (CO : CmpOK cmp).
  Implicit Types (s n : rb T bool) (l : list T) (ops : list (set_op T W)).
  (** C33: every history of a new set gives the results of the list it denotes, and panics exactly
      where the list says so *)
  Theorem set_is_finite_set : behaves (W := W) cmp set_new [].
  Proof using CO.
    intros ops. pose proof (run_agrees (set_step (W := W) cmp) (set_spec cmp) (asholds cmp) (λ _, True) (λ o s l _ H, set_agrees cmp CO o s l H) ops set_new []) as H.
    unfold agrees in H. destruct (srun (set_spec cmp) ops []) as [[rs l]|].
    - destruct H as (s & H & _); [by apply Forall_forall|split; [by apply sholds_new|constructor]|eauto].
    - apply H; [by apply Forall_forall|split; [by apply sholds_new|constructor]].
  Qed.
  Lemma srun_asc ops : ∀ l rs l', s_asc cmp l → srun (set_spec cmp) ops l = Some (rs, l') → s_asc cmp l'.
  Proof using CO.
    induction ops as [|o ops IH]; intros l rs l' Ha E1; cbn in E1; [by injection E1 as <- <-|]. destruct (set_spec cmp o l) as [[r l1]|] eqn:Eo; [|done]. destruct (srun (set_spec cmp) ops l1) as [[rs1 l2]|] eqn:Er; [|done]. injection E1 as <- <-.
    eapply IH; [|exact Er]. clear IH Er. destruct o; cbn in Eo; try (injection Eo as <- <-; done || constructor).
    - injection Eo as <- <-. destruct (existsb (same cmp x) l) eqn:Ex; [done|]. apply place_asc; [done..|]. apply Forall_forall. intros y Hy Hxy. assert (existsb (same cmp x) l = true) as Hc; [|congruence]. apply existsb_exists. exists y. split; [by apply elem_of_list_In|]. unfold same. lia.
    - injection Eo as <- <-. by apply remove_all_asc.
    - destruct (l !! i) as [x|]; [|done]. cbn in Eo. by injection Eo as <- <-.
  Qed.
  (** ... that list is strictly ascending, so that its length (Size) counts distinct elements *)
  Theorem set_ascending ops rs l : srun (set_spec cmp) ops [] = Some (rs, l) → s_asc cmp l.
  Proof using CO. apply srun_asc. constructor. Qed.
  (** what Contains x must answer after a history *)
  Definition last_touch (x : T) (acc : bool) (o : set_op T W) : bool :=
    match o with
    | SInsert y => if same cmp x y then true else acc
    | SErase y => if same cmp x y then false else acc
    | SClear => false
    | _ => acc
    end.
  Lemma same_trans x y z : cmp x y = 0 → same cmp x z = same cmp y z. Proof using CO. intros H. unfold same. pose proof (cmp_eq_l _ CO x y z H). lia. Qed.
  Lemma same_sym x y : same cmp x y = same cmp y x. Proof using CO. unfold same. pose proof (cmp_flip_eq _ CO x y). pose proof (cmp_flip_eq _ CO y x). lia. Qed.
  Lemma existsb_place x y l : existsb (same cmp x) (place cmp y l) = same cmp x y || existsb (same cmp x) l.
  Proof using. clear CO. induction l as [|z l IH]; cbn; [done|]. destruct (cmp y z <? 0); cbn; [done|]. rewrite IH. by destruct (same cmp x z), (same cmp x y). Qed.
  Lemma existsb_remove x y l : existsb (same cmp x) (remove_all cmp y l) = negb (same cmp x y) && existsb (same cmp x) l.
  Proof using CO.
    unfold remove_all. induction l as [|z l IH]; [cbn; by destruct (same cmp x y)|]. rewrite filter_cons. cbn [existsb]. destruct (decide (¬ same cmp y z)) as [Hd|Hd]; cbn [existsb]; rewrite IH.
    - destruct (same cmp x y) eqn:Exy; [|done]. unfold same in Exy. rewrite (same_trans x y z) by lia. destruct (same cmp y z); [by destruct Hd|done].
    - destruct (same cmp y z) eqn:Eyz; [|by destruct Hd; intros []]. destruct (same cmp x y) eqn:Exy; [done|]. rewrite same_sym in Exy. unfold same in Eyz. rewrite (same_trans y z x), same_sym in Exy by lia. by rewrite Exy.
  Qed.
  Theorem set_contains_last_touch ops x : ∀ rs s, run (set_step cmp) (ops ++ [SContains x]) set_new = Ok (rs, s) → last rs = Some (QBool (foldl (last_touch x) false ops)).
  Proof using CO.
    intros rs s E1. pose proof (set_is_finite_set (ops ++ [SContains x])) as H.
    assert (∀ ops l, match srun (set_spec cmp) (ops ++ [SContains x]) l with Some (rs, _) => last rs = Some (QBool (foldl (last_touch x) (existsb (same cmp x) l) ops)) | None => True end) as Hs.
    { clear - CO. intros ops. induction ops as [|o ops IH]; intros l; [done|]. cbn [srun app foldl].
      destruct (set_spec cmp o l) as [[r l']|] eqn:Eo; [|done].
      assert (existsb (same cmp x) l' = last_touch x (existsb (same cmp x) l) o) as Hl'.
      { destruct o; cbn in Eo; try (injection Eo as <- <-); cbn [last_touch]; try done.
        - destruct (existsb (same cmp x0) l) eqn:E0.
          + destruct (same cmp x x0) eqn:Ex; [|done]. clear - CO E0 Ex. apply existsb_exists in E0 as (y & Hy & Hxy). apply existsb_exists. exists y. split; [done|]. unfold same in Ex. by rewrite (same_trans x x0) by lia.
          + rewrite existsb_place. by destruct (same cmp x x0).
        - rewrite existsb_remove. by destruct (same cmp x x0).
        - destruct (l !! i); [|done]. cbn in Eo. by injection Eo as <- <-. }
      specialize (IH l'). destruct (srun (set_spec cmp) (ops ++ [SContains x]) l') as [[rs l'']|] eqn:Er; [|done]. rewrite <-Hl', <-IH. destruct rs; [|done].
      exfalso. clear - Er. destruct ops as [|o1 ops]; cbn in Er; [done|]. destruct (set_spec cmp o1 l') as [[? ?]|]; [|done]. by destruct (srun _ _ _) as [[? ?]|]. }
    specialize (Hs ops []). destruct (srun (set_spec cmp) (ops ++ [SContains x]) []) as [[rs' l']|].
    - destruct H as (s' & E2). rewrite E1 in E2. injection E2 as <- <-. done.
    - congruence.
  Qed.

  (** C34.  Every set that can be built, by operations and by the set algebra, has a strictly
      ascending list of elements that determines the results of all its histories. *)
  Lemma behaves_of s l : asholds cmp s l → behaves (W := W) cmp s l.
  Proof using CO.
    intros Hh ops. pose proof (run_agrees (set_step (W := W) cmp) (set_spec cmp) (asholds cmp) (λ _, True) (λ o s l _ H, set_agrees cmp CO o s l H) ops s l ltac:(by apply Forall_forall) Hh) as H.
    unfold agrees in H. destruct (srun (set_spec cmp) ops l) as [[rs l']|]; [|done]. destruct H as (s' & ? & _). by exists s'.
  Qed.
  Lemma behaves_unique s l1 l2 : behaves (W := W) cmp s l1 → behaves (W := W) cmp s l2 → l1 = l2.
  Proof using.
    clear CO. intros H1 H2. apply list_eq. intros i. specialize (H1 [SFwd i]). specialize (H2 [SFwd i]). cbn in H1, H2. destruct H1 as (s1 & E1), H2 as (s2 & E2). rewrite E1 in E2. by injection E2 as ->.
  Qed.
  (** all three algorithms *)
  Lemma merge_start (ie il ig : bool) s o ls lo : asholds cmp s ls → asholds cmp o lo →
    ∃ ts to n out P1 R1 P2 R2 f, tinv cmp s ts ∧ tinv cmp o to ∧ (let! i := on_s rb_First in let! j := on_o rb_First in let! f := fuel2 in let! ij := merge_loop cmp ie il ig f i j in mret_ (f, ij)) (s, o, rb_new) = Ok ((f, (hd R1, hd R2)), (s, o, n))
      ∧ io ts = P1 ++ R1 ∧ io to = P2 ++ R2 ∧ ls = P1.*2.*1 ++ R1.*2.*1 ∧ lo = P2.*2.*1 ++ R2.*2.*1 ∧ (length R1 < f)%nat ∧ (length R2 < f)%nat ∧ sholds cmp n out ∧ (R1 = [] ∨ R2 = []) ∧ s_asc cmp out
      ∧ (∀ x, x ∈ out ↔ (x ∈ P1.*2.*1 ∧ (has cmp x lo ∧ ie ∨ ¬ has cmp x lo ∧ il)) ∨ (x ∈ P2.*2.*1 ∧ ¬ has cmp x ls ∧ ig))
      ∧ (∀ x y, x ∈ P1.*2.*1 ∨ x ∈ P2.*2.*1 → y ∈ R1.*2.*1 ∨ y ∈ R2.*2.*1 → cmp x y < 0).
  Proof using CO.
    intros [(ts & Hs & <-) A1] [(to & Ho & <-) A2]. pose proof (tinv_rep _ _ _ Hs) as Hps. pose proof (tinv_rep _ _ _ Ho) as Hpo. pose proof (count_ok _ _ Hps) as C1. pose proof (count_ok _ _ Hpo) as C2.
    destruct (merge_ok cmp CO ie il ig s ts o to Hs Ho (S (rb_next s) + S (rb_next o))%nat [] (io ts) [] (io to) rb_new []) as (n & out & P1 & R1 & P2 & R2 & Em & Hn & F1 & F2 & Hend & Ao & Hout & Hord); try done.
    { lia. } { by apply sholds_new. } { intros x y Hx. by apply elem_of_nil in Hx. }
    exists ts, to, n, out, P1, R1, P2, R2, (S (rb_next s) + S (rb_next o))%nat. split_and!; try done.
    - unfold mbind_ at 1. unfold on_s at 1. cbn [fst snd]. rewrite (hd_first _ _ Hps). unfold mbind_ at 1. unfold on_o at 1. cbn [fst snd]. rewrite (hd_first _ _ Hpo). unfold mbind_ at 1. unfold fuel2, mbind_, on_s, on_o, fuel. cbn [fst snd]. unfold mret_. cbn [fst snd]. rewrite Em. done.
    - by rewrite F1 at 1; rewrite !fmap_app.
    - by rewrite F2 at 1; rewrite !fmap_app.
    - rewrite F1, app_length in C1. lia.
    - rewrite F2, app_length in C2. lia.
  Qed.
  Lemma prefix_bind (ie il ig : bool) (k : nat → ptr * ptr → M (three (T := T)) unit) w :
    (let! i := on_s rb_First in let! j := on_o rb_First in let! f := fuel2 in let! ij := merge_loop cmp ie il ig f i j in k f ij) w
    = match (let! i := on_s rb_First in let! j := on_o rb_First in let! f := fuel2 in let! ij := merge_loop cmp ie il ig f i j in mret_ (f, ij)) w with Ok ((f, ij), w') => k f ij w' | Panic => Panic | Fuel => Fuel end.
  Proof using. clear CO. unfold mbind_. destruct (on_s rb_First w) as [[i w1]| |]; try done. destruct (on_o rb_First w1) as [[j w2]| |]; try done. destruct (fuel2 w2) as [[f w3]| |]; try done. by destruct (merge_loop cmp ie il ig f i j w3) as [[ij w4]| |]. Qed.
  Lemma intersect_ok s o ls lo : asholds cmp s ls → asholds cmp o lo → ∃ n l, set_Intersect cmp s o = Ok (tt, (s, o, n)) ∧ asholds cmp n l ∧ ∀ x, x ∈ l ↔ x ∈ ls ∧ has cmp x lo.
  Proof using CO.
    intros Hs Ho. destruct (merge_start true false false s o ls lo Hs Ho) as (ts & to & n & out & P1 & R1 & P2 & R2 & f & Hts & Hto & E1 & F1 & F2 & -> & -> & _ & _ & Hn & Hend & Ao & Hout & Hord).
    exists n, out. unfold set_Intersect, set_intersect_code. rewrite (prefix_bind true false false (λ _ _, mret_ tt)), E1. split_and!; try done. intros x. rewrite Hout. split.
    - intros [[Hx [[Hh _]|[_ []]]]|[_ [_ []]]]. split; [|done]. rewrite elem_of_app. by left.
    - intros [[Hx|Hx]%elem_of_app Hh]; [left; split; [done|by left]|]. exfalso. destruct Hend as [->| ->]; [by apply elem_of_nil in Hx|]. destruct Hh as (y & Hy & Hxy). cbn in Hy. rewrite app_nil_r in Hy. assert (cmp y x < 0) as Hlt by (apply Hord; tauto). apply cmp_flip_eq in Hxy; [|done]. lia.
  Qed.
  Lemma diff_ok s o ls lo : asholds cmp s ls → asholds cmp o lo → ∃ n l, set_Diff cmp s o = Ok (tt, (s, o, n)) ∧ asholds cmp n l ∧ ∀ x, x ∈ l ↔ x ∈ ls ∧ ¬ has cmp x lo.
  Proof using CO.
    intros Hs Ho. destruct (merge_start false true false s o ls lo Hs Ho) as (ts & to & n & out & P1 & R1 & P2 & R2 & f & Hts & Hto & E1 & F1 & F2 & -> & -> & Hf1 & Hf2 & Hn & Hend & Ao & Hout & Hord).
    assert (s_asc cmp (P1.*2.*1 ++ R1.*2.*1)) as (A1 & A2 & A3)%s_asc_app by by destruct Hs.
    assert (∀ x y, x ∈ out → y ∈ R1.*2.*1 ∨ y ∈ R2.*2.*1 → cmp x y < 0) as Hlt. { intros x y Hx Hy. apply Hord; [|done]. apply Hout in Hx. tauto. }
    destruct (rest_s_ok cmp CO s ts o Hts f P1 R1 n out F1 Hf1 A2 Hn) as (n' & E2 & Hn'). { intros x y Hx Hy. apply Hlt; tauto. }
    exists n', (out ++ R1.*2.*1). unfold set_Diff, set_diff_code. rewrite (prefix_bind false true false (λ f ij, rest_s cmp f ij.1)), E1. cbn [fst]. split_and!; try done.
    - split; [done|]. apply s_asc_app. split_and!; [done|done|]. intros x y Hx Hy. apply Hlt; tauto.
    - intros x. rewrite !elem_of_app, Hout. split.
      + intros [[[Hx [[_ []]|[Hh _]]]|[_ [_ []]]]|Hx]; [split; [by left|done]|]. split; [by right|]. intros (y & Hy & Hxy). destruct Hend as [->| ->]; [by apply elem_of_nil in Hx|]. cbn in Hy. rewrite app_nil_r in Hy. assert (cmp y x < 0) as Hl by (apply Hord; tauto). apply cmp_flip_eq in Hxy; [|done]. lia.
      + intros [[Hx|Hx] Hh]; [left; left; split; [done|by right]|by right].
  Qed.
  Lemma union_ok s o ls lo : asholds cmp s ls → asholds cmp o lo → ∃ n l, set_Union cmp s o = Ok (tt, (s, o, n)) ∧ asholds cmp n l ∧ ∀ x, x ∈ l ↔ x ∈ ls ∨ (x ∈ lo ∧ ¬ has cmp x ls).
  Proof using CO.
    intros Hs Ho. destruct (merge_start true true true s o ls lo Hs Ho) as (ts & to & n & out & P1 & R1 & P2 & R2 & f & Hts & Hto & E1 & F1 & F2 & -> & -> & Hf1 & Hf2 & Hn & Hend & Ao & Hout & Hord).
    assert (s_asc cmp (P1.*2.*1 ++ R1.*2.*1)) as (A1 & A2 & A3)%s_asc_app by by destruct Hs.
    assert (s_asc cmp (P2.*2.*1 ++ R2.*2.*1)) as (B1 & B2 & B3)%s_asc_app by by destruct Ho.
    assert (∀ x y, x ∈ out → y ∈ R1.*2.*1 ∨ y ∈ R2.*2.*1 → cmp x y < 0) as Hlt. { intros x y Hx Hy. apply Hord; [|done]. apply Hout in Hx. tauto. }
    destruct (rest_s_ok cmp CO s ts o Hts f P1 R1 n out F1 Hf1 A2 Hn) as (n1 & E2 & Hn1). { intros x y Hx Hy. apply Hlt; tauto. }
    destruct (rest_o_ok cmp CO s o to Hto f P2 R2 n1 (out ++ R1.*2.*1) F2 Hf2 B2 Hn1) as (n' & E3 & Hn'). { intros x y [Hx|Hx]%elem_of_app Hy; [apply Hlt; tauto|]. destruct Hend as [->| ->]; [by apply elem_of_nil in Hx|by apply elem_of_nil in Hy]. }
    exists n', ((out ++ R1.*2.*1) ++ R2.*2.*1). unfold set_Union, set_union_code. rewrite (prefix_bind true true true (λ f ij, rest_s cmp f ij.1 ;; rest_o cmp f ij.2)), E1. cbn [fst snd]. unfold mbind_. rewrite E2, E3. split_and!; try done.
    - split; [done|]. apply s_asc_app. split_and!; [apply s_asc_app; split_and!|..]; try done.
      + intros x y Hx Hy. apply Hlt; tauto.
      + intros x y [Hx|Hx]%elem_of_app Hy; [apply Hlt; tauto|]. destruct Hend as [->| ->]; [by apply elem_of_nil in Hx|by apply elem_of_nil in Hy].
    - intros x. rewrite !elem_of_app, Hout.
      assert (x ∈ R2.*2.*1 → ¬ has cmp x (P1.*2.*1 ++ R1.*2.*1)) as Hr. { intros Hx (y & Hy & Hxy). destruct Hend as [->| ->]; [|by apply elem_of_nil in Hx]. cbn in Hy. rewrite app_nil_r in Hy. assert (cmp y x < 0) as Hl by (apply Hord; tauto). apply cmp_flip_eq in Hxy; [|done]. lia. }
      assert (has cmp x (P2.*2.*1 ++ R2.*2.*1) ∨ ¬ has cmp x (P2.*2.*1 ++ R2.*2.*1)) as Hdec. { destruct (decide (Exists (λ y, cmp x y = 0) (P2.*2.*1 ++ R2.*2.*1))) as [He|He]; [left; by apply Exists_exists in He|right; intros Hh; by apply He, Exists_exists]. }
      split.
      + intros [[[[Hx _]|[Hx [Hh _]]]|Hx]|Hx]; [left; by left|right; split; [by left|done]|left; by right|right; split; [by right|by apply Hr]].
      + intros [[Hx|Hx]|[[Hx|Hx] Hh]]; [left; left; left; split; [done|]; destruct Hdec; [left|right]; done|left; by right|left; left; right; done|by right].
  Qed.
  Lemma reach_holds s : set_reach (W := W) cmp s → ∃ l, asholds cmp s l.
  Proof using CO.
    induction 1 as [|s o r s' _ [l IH] E1|s o n _ [l1 IH1] _ [l2 IH2] E1|s o n _ [l1 IH1] _ [l2 IH2] E1|s o n _ [l1 IH1] _ [l2 IH2] E1].
    - exists []. split; [by apply sholds_new|constructor].
    - pose proof (set_agrees cmp CO o s l IH) as H. unfold agrees in H. destruct (set_spec cmp o l) as [[r' l']|]; [|congruence]. destruct H as (s1 & E2 & H). rewrite E1 in E2. injection E2 as <- <-. by exists l'.
    - destruct (union_ok s o l1 l2 IH1 IH2) as (n' & l & E2 & H & _). rewrite E1 in E2. injection E2 as <-. by exists l.
    - destruct (intersect_ok s o l1 l2 IH1 IH2) as (n' & l & E2 & H & _). rewrite E1 in E2. injection E2 as <-. by exists l.
    - destruct (diff_ok s o l1 l2 IH1 IH2) as (n' & l & E2 & H & _). rewrite E1 in E2. injection E2 as <-. by exists l.
  Qed.
  Theorem reachable_sets s : set_reach (W := W) cmp s → ∃ l, s_asc cmp l ∧ behaves (W := W) cmp s l ∧ ∀ l', behaves (W := W) cmp s l' → l' = l.
  Proof using CO.
    intros (l & H)%reach_holds. exists l. split_and!; [by destruct H|by apply behaves_of|]. intros l' H'. eapply behaves_unique; [exact H'|]. by apply behaves_of.
  Qed.
  Lemma open_set s l : set_reach (W := W) cmp s → behaves (W := W) cmp s l → asholds cmp s l.
  Proof using CO. intros (l' & H)%reach_holds Hb. by rewrite (behaves_unique s l l' Hb (behaves_of s l' H)). Qed.
  (** the operands are returned unchanged, the result is a reachable set whose elements are as
      stated; where both operands have equal elements, the receiver's is kept *)
  Theorem set_union s o l1 l2 : set_reach (W := W) cmp s → set_reach (W := W) cmp o → behaves (W := W) cmp s l1 → behaves (W := W) cmp o l2 →
    ∃ n l, set_Union cmp s o = Ok (tt, (s, o, n)) ∧ set_reach (W := W) cmp n ∧ behaves (W := W) cmp n l ∧ s_asc cmp l ∧ (∀ x, has cmp x l ↔ has cmp x l1 ∨ has cmp x l2) ∧ (∀ x, x ∈ l ↔ x ∈ l1 ∨ (x ∈ l2 ∧ ¬ has cmp x l1)).
  Proof using CO.
    intros Hs Ho B1 B2. destruct (union_ok s o l1 l2) as (n & l & E1 & Hn & Hl); [by apply open_set..|]. exists n, l. split_and!; [done|by apply (sr_union _ s o)|by apply behaves_of|by destruct Hn| |done].
    intros x. split.
    - intros (y & Hy & Hxy). apply Hl in Hy as [Hy|[Hy _]]; [left|right]; by exists y.
    - intros [(y & Hy & Hxy)|(y & Hy & Hxy)]; [exists y; split; [apply Hl; by left|done]|].
      destruct (decide (Exists (λ z, cmp x z = 0) l1)) as [(z & Hz & Hxz)%Exists_exists|He]; [exists z; split; [apply Hl; by left|done]|]. exists y. split; [|done]. apply Hl. right. split; [done|]. intros (z & Hz & Hyz). apply He, Exists_exists. exists z. split; [done|]. by eapply cmp_eq_trans.
  Qed.
  Theorem set_intersect s o l1 l2 : set_reach (W := W) cmp s → set_reach (W := W) cmp o → behaves (W := W) cmp s l1 → behaves (W := W) cmp o l2 →
    ∃ n l, set_Intersect cmp s o = Ok (tt, (s, o, n)) ∧ set_reach (W := W) cmp n ∧ behaves (W := W) cmp n l ∧ s_asc cmp l ∧ (∀ x, has cmp x l ↔ has cmp x l1 ∧ has cmp x l2) ∧ (∀ x, x ∈ l ↔ x ∈ l1 ∧ has cmp x l2).
  Proof using CO.
    intros Hs Ho B1 B2. destruct (intersect_ok s o l1 l2) as (n & l & E1 & Hn & Hl); [by apply open_set..|]. exists n, l. split_and!; [done|by apply (sr_intersect _ s o)|by apply behaves_of|by destruct Hn| |done].
    intros x. split.
    - intros (y & Hy & Hxy). apply Hl in Hy as [Hy (z & Hz & Hyz)]. split; [by exists y|]. exists z. split; [done|]. by eapply cmp_eq_trans.
    - intros [(y & Hy & Hxy) (z & Hz & Hxz)]. exists y. split; [|done]. apply Hl. split; [done|]. exists z. split; [done|]. apply cmp_flip_eq in Hxy; [|done]. by eapply cmp_eq_trans.
  Qed.
  Theorem set_diff s o l1 l2 : set_reach (W := W) cmp s → set_reach (W := W) cmp o → behaves (W := W) cmp s l1 → behaves (W := W) cmp o l2 →
    ∃ n l, set_Diff cmp s o = Ok (tt, (s, o, n)) ∧ set_reach (W := W) cmp n ∧ behaves (W := W) cmp n l ∧ s_asc cmp l ∧ (∀ x, has cmp x l ↔ has cmp x l1 ∧ ¬ has cmp x l2) ∧ (∀ x, x ∈ l ↔ x ∈ l1 ∧ ¬ has cmp x l2).
  Proof using CO.
    intros Hs Ho B1 B2. destruct (diff_ok s o l1 l2) as (n & l & E1 & Hn & Hl); [by apply open_set..|]. exists n, l. split_and!; [done|by apply (sr_diff _ s o)|by apply behaves_of|by destruct Hn| |done].
    intros x. split.
    - intros (y & Hy & Hxy). apply Hl in Hy as [Hy Hno]. split; [by exists y|]. intros (z & Hz & Hxz). apply Hno. exists z. split; [done|]. apply cmp_flip_eq in Hxy; [|done]. by eapply cmp_eq_trans.
    - intros [(y & Hy & Hxy) Hno]. exists y. split; [|done]. apply Hl. split; [done|]. intros (z & Hz & Hyz). apply Hno. exists z. split; [done|]. by eapply cmp_eq_trans.
  Qed.

  (** C35 *)
  Theorem multiset_is_bag ops :
    match srun (ms_spec cmp) ops [] with
    | Some (rs, l) => ∃ s, run (ms_step cmp) ops set_new = Ok (rs, s)
    | None => run (ms_step cmp) ops set_new = Panic
    end.
  Proof using CO.
    pose proof (run_agrees (ms_step (W := W) cmp) (ms_spec cmp) (sholds cmp) (λ _, True) (λ o s l _ H, ms_agrees cmp CO o s l H) ops set_new [] ltac:(by apply Forall_forall) ltac:(by apply sholds_new)) as H.
    unfold agrees in H. destruct (srun (ms_spec cmp) ops []) as [[rs l]|]; [|done]. destruct H as (s & H & _). eauto.
  Qed.
  Lemma sorted_cons x l : s_sorted cmp (x :: l) ↔ s_sorted cmp l ∧ ∀ y, y ∈ l → cmp x y <= 0. Proof using. clear CO. unfold s_sorted. split; [by intros [??]%SS_cons|]. intros [??]. by apply SS_cons. Qed.
  Theorem multiset_sorted ops rs l : srun (ms_spec cmp) ops [] = Some (rs, l) → s_sorted cmp l.
  Proof using CO.
    assert (∀ ops l rs l', s_sorted cmp l → srun (ms_spec cmp) ops l = Some (rs, l') → s_sorted cmp l') as Hg; [|intros E1; eapply Hg; [|exact E1]; constructor].
    clear ops rs l. intros ops. induction ops as [|o ops IH]; intros l rs l' Hs E1; cbn in E1; [by injection E1 as <- <-|]. destruct (ms_spec cmp o l) as [[r l1]|] eqn:Eo; [|done]. destruct (srun (ms_spec cmp) ops l1) as [[rs1 l2]|] eqn:Er; [|done]. injection E1 as <- <-. eapply IH; [|exact Er]. clear IH Er.
    destruct o; cbn in Eo; try (injection Eo as <- <-; done || constructor).
    - injection Eo as <- <-. induction l as [|y l IHl]; [repeat constructor|]. apply sorted_cons in Hs as [Hs Hy]. cbn. destruct (Z.ltb_spec (cmp x y) 0) as [Hl|Hg]; apply sorted_cons.
      + split; [by apply sorted_cons|]. intros z [->|Hz]%elem_of_cons; [lia|]. specialize (Hy z Hz). pose proof (cmp_lt_le_trans _ CO _ _ _ Hl Hy). lia.
      + split; [by apply IHl|]. intros z [->|Hz]%place_elem; [by apply cmp_flip_le|by apply Hy].
    - injection Eo as <- <-. clear - Hs. assert (∀ z l, z ∈ remove_one cmp x l → z ∈ l) as Hsub. { intros z l0. induction l0 as [|y l0 IHl]; [done|]. cbn. destruct (same cmp x y); [by right|]. intros [->|Hz]%elem_of_cons; [by left|]. right. auto. }
      induction l as [|y l IHl]; [done|]. apply sorted_cons in Hs as [Hs Hy]. cbn. destruct (same cmp x y); [done|]. apply sorted_cons. split; [auto|]. intros z Hz. by apply Hy, Hsub.
    - injection Eo as <- <-. clear - Hs. unfold remove_all. induction l as [|y l IHl]; [constructor|]. apply sorted_cons in Hs as [Hs Hy]. rewrite filter_cons. destruct (decide _); [|auto]. apply sorted_cons. split; [auto|]. intros z [_ Hz]%elem_of_list_filter. auto.
    - destruct (l !! i) as [x|]; [|done]. cbn in Eo. by injection Eo as <- <-.
  Qed.
  (** how many elements equal to x are held, after an operation *)
  Definition tally (x : T) (c : nat) (o : set_op T W) : nat :=
    match o with
    | SInsert y => if same cmp x y then S c else c
    | SErase y => if same cmp x y then pred c else c
    | SEraseAll y => if same cmp x y then 0%nat else c
    | SClear => 0%nat
    | _ => c
    end.
  Lemma count_cons x y l : count cmp x (y :: l) = ((if same cmp x y then 1 else 0) + count cmp x l)%nat.
  Proof using. clear CO. unfold count. rewrite filter_cons. destruct (same cmp x y); [rewrite decide_True by done|rewrite decide_False by (intros [])]; done. Qed.
  Lemma count_step x o l r l' : ms_spec cmp o l = Some (r, l') → count cmp x l' = tally x (count cmp x l) o.
  Proof using CO.
    intros Eo. destruct o; cbn in Eo; try (injection Eo as <- <-); cbn [tally]; try done.
    - induction l as [|y l IH]; cbn [place]. { rewrite count_cons. unfold count. cbn. by destruct (same cmp x x0). } destruct (cmp x0 y <? 0); rewrite !count_cons; [by destruct (same cmp x x0)|]. rewrite IH. destruct (same cmp x x0); lia.
    - induction l as [|y l IH]; cbn [remove_one]; [by destruct (same cmp x x0)|]. destruct (same cmp x0 y) eqn:E0; rewrite !count_cons.
      + unfold same in E0. rewrite (same_sym x y), <-(same_trans x0 y x) by lia. rewrite (same_sym x0 x). destruct (same cmp x x0); done.
      + rewrite IH. destruct (same cmp x x0) eqn:Ex; [|done]. unfold same in Ex. rewrite (same_trans x x0) by lia. rewrite E0. done.
    - unfold remove_all. induction l as [|y l IH]; [by destruct (same cmp x x0)|]. rewrite filter_cons. destruct (same cmp x0 y) eqn:E0; [rewrite decide_False by (intros Hn; by apply Hn)|rewrite decide_True by (intros [])]; rewrite !count_cons, IH.
      + unfold same in E0. rewrite (same_sym x y), <-(same_trans x0 y x) by lia. rewrite (same_sym x0 x). destruct (same cmp x x0); done.
      + destruct (same cmp x x0) eqn:Ex; [|done]. unfold same in Ex. rewrite (same_trans x x0) by lia. rewrite E0. done.
    - destruct (l !! i); [|done]. cbn in Eo. by injection Eo as <- <-.
  Qed.
  (** Count x after any history is the tally; Size is the length of the sorted list of elements *)
  Theorem multiset_count ops x : ∀ rs s, run (ms_step cmp) (ops ++ [SCount x]) set_new = Ok (rs, s) → last rs = Some (QInt (Z.of_nat (foldl (tally x) 0%nat ops))).
  Proof using CO.
    intros rs s E1. pose proof (multiset_is_bag (ops ++ [SCount x])) as H.
    assert (∀ ops l, match srun (ms_spec cmp) (ops ++ [SCount x]) l with Some (rs, _) => last rs = Some (QInt (Z.of_nat (foldl (tally x) (count cmp x l) ops))) | None => True end) as Hs.
    { clear - CO. intros ops. induction ops as [|o ops IH]; intros l; [done|]. cbn [srun app foldl].
      destruct (ms_spec cmp o l) as [[r l']|] eqn:Eo; [|done]. pose proof (count_step x o l r l' Eo) as Hl'.
      specialize (IH l'). destruct (srun (ms_spec cmp) (ops ++ [SCount x]) l') as [[rs l'']|] eqn:Er; [|done]. rewrite <-Hl', <-IH. destruct rs; [|done].
      exfalso. clear - Er. destruct ops as [|o1 ops]; cbn in Er; [done|]. destruct (ms_spec cmp o1 l') as [[? ?]|]; [|done]. by destruct (srun _ _ _) as [[? ?]|]. }
    specialize (Hs ops []). destruct (srun (ms_spec cmp) (ops ++ [SCount x]) []) as [[rs' l']|].
    - destruct H as (s' & E2). rewrite E1 in E2. injection E2 as <- <-. done.
    - congruence.
  Qed.

  (** C36 for Set: an iterator taken in any reachable set keeps its element, and its place in the
      iteration, through any insertions *)
  Fixpoint set_inserts (xs : list T) : M (rb T bool) unit := match xs with [] => mret_ tt | x :: xs => set_Insert cmp x ;; set_inserts xs end.
  #[local] Opaque rb_FindNode rb_Insert key.
  Theorem set_iterators_survive_insertions s i a x xs : set_reach (W := W) cmp s → (let! p := set_Begin in times i si_Next p) s = Ok (Some a, s) → si_Value (Some a) s = Ok (x, s) →
    ∃ s' j, set_inserts xs s = Ok (tt, s') ∧ si_Value (Some a) s' = Ok (x, s') ∧ (let! p := set_Begin in times j si_Next p) s' = Ok (Some a, s').
  Proof using CO.
    intros (l & (t & Ht & _) & _)%reach_holds Ei Ev.
    assert (∃ L b R, io t = L ++ (a, (x, b)) :: R) as Hin.
    { pose proof (tinv_rep _ _ _ Ht) as Hp. unfold mbind_ at 1 in Ei. unfold set_Begin, set_First in Ei. rewrite (hd_first _ _ Hp), (swalk_ok cmp s t [] (io t) i Ht eq_refl) in Ei. injection Ei as Ei. unfold hd in Ei. rewrite nth_cons_hd in Ei. destruct (io t !! i) as [[c [k' v']]|] eqn:El; [|done]. cbn in Ei. injection Ei as ->.
      pose proof (split_at _ _ _ El) as E2. unfold si_Value in Ev. rewrite (key_ok _ _ _ _ _ _ _ Hp E2) in Ev. injection Ev as ->. eauto. }
    clear Ei Ev. revert s t Ht Hin. induction xs as [|y xs IH]; intros s t Ht (L & b & R & E1); cbn [set_inserts].
    - pose proof (tinv_rep _ _ _ Ht) as Hp. exists s, (length L). split_and!; [done|by eapply key_ok|]. unfold mbind_, set_Begin, set_First. rewrite (hd_first _ _ Hp), (swalk_ok cmp s t [] (io t) _ Ht eq_refl). unfold hd. rewrite nth_cons_hd, E1, list_lookup_middle by done. done.
    - unfold mbind_ at 1. unfold set_Insert at 1. unfold mbind_ at 1. destruct (hd_search_eq cmp CO s t y Ht) as (L1 & R1 & E2 & E3 & _). rewrite E2. destruct R1 as [|[c [k2 v2]] R1]; cbn [hd head fmap option_fmap option_map fst].
      + destruct (insert_tinv cmp CO s t y set_Empty_const Ht) as (s1 & t1 & L2 & R2 & -> & Ht1 & E7 & E8 & _). apply (IH s1 t1 Ht1).
        assert ((a, (x, b)) ∈ io t) as Hi by (rewrite E1; apply elem_of_app; right; by left). rewrite E7 in Hi. assert ((a, (x, b)) ∈ io t1) as (L' & R' & E9)%elem_of_list_split. { rewrite E8. apply elem_of_app in Hi as [Hi|Hi]; apply elem_of_app; [by left|right; by right]. } eauto.
      + apply (IH s t Ht). eauto.
  Qed.

  (** C62: String lists the texts of the elements in order, separated by single spaces, in brackets,
      if the first text is not empty *)
  Definition bracketed (texts : list string) : string := ("[" ++ String.concat " " texts ++ "]")%string.
  Theorem set_string_partial s l show : set_reach (W := W) cmp s → behaves (W := W) cmp s l → (∀ x, head l = Some x → show x ≠ ""%string) → set_String show s = Ok (bracketed (map show l), s).
  Proof using CO.
    intros Hr Hb Hx. destruct (open_set s l Hr Hb) as [(t & Ht & <-) _]. unfold set_String, mbind_. change (λ (x : T) (str : string), (true, ((if String.eqb str "[" then str else str ++ " ") ++ show x)%string)) with (addtext show). rewrite (strav_all cmp (addtext show) s t "["%string Ht). unfold mret_. rewrite addtext_all. unfold render, bracketed.
    destruct (io t).*2.*1 as [|x l]; [done|]. cbn [map suffix]. specialize (Hx x eq_refl). apply String.eqb_neq in Hx. by rewrite Hx.
  Qed.
  (** the same for MultiSet: [l] is what Traversal visits *)
  Theorem multiset_string_partial (ops : list (set_op T W)) rs s show : run (ms_step cmp) ops set_new = Ok (rs, s) →
    ∃ l, ms_Traversal (λ x acc, (true, acc ++ [x])) [] s = Ok (l, s) ∧ s_sorted cmp l ∧ ((∀ x, head l = Some x → show x ≠ ""%string) → ms_String show s = Ok (bracketed (map show l), s)).
  Proof using CO.
    intros E1. pose proof (run_agrees (ms_step (W := W) cmp) (ms_spec cmp) (sholds cmp) (λ _, True) (λ o s l _ H, ms_agrees cmp CO o s l H) ops set_new [] ltac:(by apply Forall_forall) ltac:(by apply sholds_new)) as H.
    pose proof (multiset_sorted ops) as Hs. unfold agrees in H. destruct (srun (ms_spec cmp) ops []) as [[rs' l]|]; [|congruence]. destruct H as (s' & E2 & t & Ht & <-). rewrite E1 in E2. injection E2 as <- <-.
    specialize (Hs _ _ eq_refl). set (l := (io t).*2.*1) in *. exists l.
    assert (∀ (l acc : list T), visit1 (λ x acc, (true, acc ++ [x])) l acc = acc ++ l) as Hv. { clear. intros l. induction l as [|x l IH]; intros acc; [by rewrite app_nil_r|]. cbn [visit1 fst snd]. rewrite IH. by rewrite <-app_assoc. }
    split_and!; [|done|].
    - change (@ms_Traversal T (list T)) with (@set_Traversal T (list T)). rewrite (strav_all cmp _ s t _ Ht). fold l. by rewrite Hv.
    - intros Hx. change (@ms_String T) with (@set_String T). unfold set_String, mbind_. change (λ (x : T) (str : string), (true, ((if String.eqb str "[" then str else str ++ " ") ++ show x)%string)) with (addtext show). rewrite (strav_all cmp (addtext show) s t "["%string Ht). fold l. unfold mret_. rewrite addtext_all. unfold render, bracketed.
      destruct l as [|x l']; [done|]. cbn [map suffix]. specialize (Hx x eq_refl). apply String.eqb_neq in Hx. by rewrite Hx.
  Qed.
End props.
Print Assumptions multiset_string_partial.
Print Assumptions set_is_finite_set. Print Assumptions set_ascending. Print Assumptions set_contains_last_touch. Print Assumptions reachable_sets.
Print Assumptions set_union. Print Assumptions set_intersect. Print Assumptions set_diff. Print Assumptions multiset_is_bag. Print Assumptions multiset_sorted. Print Assumptions multiset_count.
Print Assumptions set_iterators_survive_insertions. Print Assumptions set_string_partial.

(** concrete histories *)
Definition sdemo : list (set_op Z Z) := [SInsert 2; SInsert 1; SInsert 2; SInsert 3; SErase 2; SContains 2; SContains 3; SSize; SCount 2; SFwd 0; SFwd 1; SLower 2 0; STraverse (λ x w, (true, w + x)) 0].
Example sdemo_set : ∃ s, run (set_step zc) sdemo set_new = Ok ([QUnit; QUnit; QUnit; QUnit; QUnit; QBool false; QBool true; QInt 2; QUnit; QElem (Some 1); QElem (Some 3); QElem (Some 3); QVis 4], s).
Proof. eexists. by vm_compute. Qed.
Example sdemo_multiset : ∃ s, run (ms_step zc) sdemo set_new = Ok ([QUnit; QUnit; QUnit; QUnit; QUnit; QBool true; QBool true; QInt 3; QInt 1; QElem (Some 1); QElem (Some 2); QElem (Some 2); QVis 6], s).
Proof. eexists. by vm_compute. Qed.
Definition build (xs : list Z) : rb Z bool := st_of rb_new (set_inserts zc xs rb_new).
Lemma build_reach xs : set_reach (W := Z) zc (build xs).
Proof.
  assert (∀ xs s, set_reach (W := Z) zc s → ∃ s', set_inserts zc xs s = Ok (tt, s') ∧ set_reach (W := Z) zc s') as Hg.
  { clear. intros xs. induction xs as [|x xs IH]; intros s Hs; [by exists s|]. cbn [set_inserts]. destruct (reach_holds zc zc_ok s Hs) as [l Hl]. pose proof (set_agrees (W := Z) zc zc_ok (SInsert x) s l Hl) as H. cbn [set_spec agrees] in H. destruct H as (s1 & E1 & _).
    pose proof (sr_op zc s (SInsert x) _ s1 Hs E1) as Hs1. cbn [set_step] in E1. unfold mbind_ in E1 |- *. destruct (set_Insert zc x s) as [[[] s2]| |]; try done. unfold mret_ in E1. injection E1 as <-. by apply IH. }
  unfold build. destruct (Hg xs rb_new (sr_new zc)) as (s' & E1 & H). change set_new with (@rb_new Z bool) in *. by rewrite E1.
Qed.
Example sdemo_algebra : match set_Union zc (build [1; 3; 5]) (build [2; 3; 6]) with Ok (_, (_, _, n)) => match set_String (λ z, match z with 1 => "1" | 2 => "2" | 3 => "3" | 5 => "5" | _ => "6" end)%string n with Ok (t, _) => t = "[1 2 3 5 6]"%string | _ => False end | _ => False end
  ∧ match set_Diff zc (build [1; 3; 5]) (build [2; 3; 6]) with Ok (_, (_, _, n)) => set_Size n = Ok (2, n) | _ => False end
  ∧ match set_Intersect zc (build [1; 3; 5]) (build [2; 3; 6]) with Ok (_, (_, _, n)) => set_Size n = Ok (1, n) | _ => False end.
Proof. by vm_compute. Qed.
(** C62 is false: with an empty first text the separator is lost, and two different sets of strings
    print alike *)
Definition sc (a b : string) : Z := match String.compare a b with Eq => 0 | Lt => -1 | Gt => 1 end.
Definition id_s (x : string) : string := x.
Theorem set_string_refuted : ∃ s1 s2 : rb string bool,
  run (set_step (W := Z) sc) [SInsert "a"; SInsert ""]%string set_new = Ok ([QUnit; QUnit], s1) ∧ run (set_step (W := Z) sc) [SInsert "a"]%string set_new = Ok ([QUnit], s2)
  ∧ set_String id_s s1 = Ok ("[a]"%string, s1) ∧ set_String id_s s2 = Ok ("[a]"%string, s2) ∧ bracketed ["";"a"]%string = "[ a]"%string.
Proof. eexists _, _. split; [by vm_compute|]. split; [by vm_compute|]. by vm_compute. Qed.
Print Assumptions set_string_refuted.
Theorem multiset_string_refuted : ∃ s1 s2 : rb string bool,
  run (ms_step (W := Z) sc) [SInsert "a"; SInsert ""]%string set_new = Ok ([QUnit; QUnit], s1) ∧ run (ms_step (W := Z) sc) [SInsert "a"]%string set_new = Ok ([QUnit], s2)
  ∧ ms_String id_s s1 = Ok ("[a]"%string, s1) ∧ ms_String id_s s2 = Ok ("[a]"%string, s2).
Proof. eexists _, _. split; [by vm_compute|]. split; [by vm_compute|]. by vm_compute. Qed.
Print Assumptions multiset_string_refuted.
Example multiset_string_demo : match run (ms_step (W := Z) sc) [SInsert "b"; SInsert "a"; SInsert "b"]%string set_new with Ok (_, s) => ms_String id_s s = Ok ("[a b b]"%string, s) | _ => False end.
Proof. by vm_compute. Qed.
Example sdemo_iterator : (mbind_ set_Begin (times 1 si_Next)) (build [2; 1]) = Ok (Some 0%nat, build [2; 1]) ∧ si_Value (Some 0%nat) (build [2; 1]) = Ok (2, build [2; 1]).
Proof. by vm_compute. Qed.
