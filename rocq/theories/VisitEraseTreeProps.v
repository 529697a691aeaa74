(** C113, Map and Set: what does hold of a visitor that erases what it is handed. *)
From Coq Require Import Sorting.Sorted.
From Verif Require Import Base Wp History RbModel RbTree RbRot RbIns RbIns2 RbDel RbNav RbDel2 RbSpec RbFind RbProps RbApi MapModel SetModel MapSpec MapProofs SetSpec SetProofs TreeIterSpec TreeIterProofs VisitInsertSpec VisitInsertProps VisitEraseModel VisitEraseSpec VisitEraseTree.
Open Scope Z_scope.
Local Open Scope go_scope.

Lemma asc_io {K V} (cmp : K → K → Z) (l : list (nat * (K * V))) : asc cmp l ↔ ascending cmp l.*2.
Proof.
  unfold asc, ascending. induction l as [|x l IH]; [split; constructor|]. rewrite fmap_cons, !SS_cons, IH. split; intros [H1 H2]; (split; [done|]).
  - intros y (z & -> & Hz)%elem_of_list_fmap. by apply H2.
  - intros y Hy. apply H2. apply elem_of_list_fmap. by exists y.
Qed.

Section map.
  Context {K V W W' : Type} (cmp : K → K → Z).
  (** The loop ends without a panic.  It hands over entries of the map only, and at the end exactly the entries are
      gone that were handed over and picked: no other entry is lost. *)
  Theorem map_traversal_removing_partial (ops : list (map_op K V W')) rs s l (vis : K * V → W → list (kv_call K V) * (bool * W)) (pick : _ → bool) f u : CmpOK cmp →
    srun (map_spec cmp) ops [] = Some (rs, l) → run (map_step cmp) ops map_new = Ok (rs, s) → removing vis pick → (length l * length l + length l ≤ f)%nat →
    ∃ tr s' l', map_visits cmp vis f u s = Ok (tr, s') ∧ (∀ d, d ∈ tr.*1 → d ∈ l) ∧
      l' `sublist_of` l ∧ (∀ d, d ∈ l' ↔ d ∈ l ∧ (pick d = false ∨ d ∉ tr.*1)) ∧ goes_on_as (map_step (W := W') cmp) (map_spec cmp) s' l'.
  Proof using.
    intros CO E1 E2 Hv Hf. assert (mholds cmp s l) as [(t & Ht & <-) Ha]. { refine (reached _ _ (mholds cmp) _ _ _ _ _ _ (map_agrees cmp CO) _ E1 E2). split; [by apply holds_new|constructor]. }
    assert (Ho : ok cmp s t) by (split; [apply Ht|by apply asc_io]). rewrite fmap_length in Hf.
    destruct (loop_safe cmp CO fst pair ltac:(done) (λ a, let! k := key (Some a) in let! v := value (Some a) in mret_ (k, v)) (map_act cmp) (λ d, VRemove d.1) vis pick) with (f := f) (s := s) (t := t) (x := fst <$> head (io t)) (u := u) as (tr & s' & t' & E & [Hi' Ha'] & Htr & Hsub & Hmem).
    - intros a s0 k v Ek Ev. unfold mbind_. by rewrite Ek, Ev.
    - intros d s0 z Ez. cbn [map_act]. unfold map_Erase, mbind_. by rewrite Ez.
    - exact Hv.
    - done.
    - destruct (io t) as [|[z kv] R]; [done|]. cbn. exists [], kv, R. split; [done|]. cbn in *. lia.
    - rewrite !cont_pairs in Hsub. setoid_rewrite cont_pairs in Htr. setoid_rewrite cont_pairs in Hmem. exists tr, s', ((io t').*2). split_and!; [|done|done|done|].
      + unfold map_visits, visits_all. unfold mbind_ at 1. rewrite (hd_first _ _ (tinv_rep _ _ _ Ht)). exact E.
      + apply (goes_on _ _ (mholds cmp) _ _ (map_agrees cmp CO)). split; [|by apply asc_io]. exists t'. split; [|done]. split; [done|]. by apply asc_kle.
  Qed.
  (** If it picks the entries up to some key and no others (erasing a range from the front, or everything), all
      entries are handed over once, in order, and the rest remain. *)
  Theorem map_traversal_removing_front_partial (ops : list (map_op K V W')) rs s l l1 l2 (vis : K * V → W → list (kv_call K V) * (bool * W)) (pick : _ → bool) f u : CmpOK cmp →
    srun (map_spec cmp) ops [] = Some (rs, l) → run (map_step cmp) ops map_new = Ok (rs, s) → removing vis pick → (length l ≤ f)%nat →
    l = l1 ++ l2 → (∀ d, d ∈ l1 → pick d = true) → (∀ d, d ∈ l2 → pick d = false) →
    ∃ tr s', map_visits cmp vis f u s = Ok (tr, s') ∧ tr.*1 = l ∧ goes_on_as (map_step (W := W') cmp) (map_spec cmp) s' l2.
  Proof using.
    intros CO E1 E2 Hv Hf El Hp1 Hp2. assert (mholds cmp s l) as [(t & Ht & Et) Ha]. { refine (reached _ _ (mholds cmp) _ _ _ _ _ _ (map_agrees cmp CO) _ E1 E2). split; [by apply holds_new|constructor]. }
    assert (Ho : ok cmp s t) by (split; [apply Ht|apply asc_io; by rewrite Et]). rewrite <-Et, fmap_length in Hf. rewrite El in Et. apply fmap_app_inv in Et as (R1 & R2 & -> & -> & Et).
    destruct (loop_front cmp CO fst pair ltac:(done) (λ a, let! k := key (Some a) in let! v := value (Some a) in mret_ (k, v)) (map_act cmp) (λ d, VRemove d.1) vis pick) with (R1 := R1) (R2 := R2) (f := f) (s := s) (t := t) (u := u) as (tr & s' & E & Htr & t' & [Hi' Ha'] & Et').
    - intros a s0 k v Ek Ev. unfold mbind_. by rewrite Ek, Ev.
    - intros d s0 z Ez. cbn [map_act]. unfold map_Erase, mbind_. by rewrite Ez.
    - exact Hv.
    - done.
    - done.
    - setoid_rewrite cont_pairs. done.
    - setoid_rewrite cont_pairs. done.
    - done.
    - exists tr, s'. split_and!.
      + unfold map_visits, visits_all. unfold mbind_ at 1. rewrite (hd_first _ _ (tinv_rep _ _ _ Ht)). exact E.
      + rewrite Htr, cont_pairs, Et, El. by rewrite fmap_app.
      + apply (goes_on _ _ (mholds cmp) _ _ (map_agrees cmp CO)). rewrite <-Et'. split; [|by apply asc_io]. exists t'. split; [|done]. split; [done|]. by apply asc_kle.
  Qed.
End map.
Print Assumptions map_traversal_removing_partial.
Print Assumptions map_traversal_removing_front_partial.

Lemma asc_els {T} (cmp : T → T → Z) (l : list (nat * (T * bool))) : asc cmp l ↔ s_asc cmp l.*2.*1.
Proof.
  unfold asc, s_asc. induction l as [|x l IH]; [split; constructor|]. rewrite !fmap_cons, !SS_cons, IH. split; intros [H1 H2]; (split; [done|]).
  - intros y (z & -> & (z' & -> & Hz)%elem_of_list_fmap)%elem_of_list_fmap. by apply H2.
  - intros y Hy. apply H2. apply elem_of_list_fmap. exists y.2. split; [done|]. apply elem_of_list_fmap. by exists y.
Qed.
Section set.
  Context {T W W' : Type} (cmp : T → T → Z).
  Theorem set_traversal_removing_partial (ops : list (set_op T W')) rs s l (vis : T → W → list (T + T) * (bool * W)) (pick : T → bool) f u : CmpOK cmp →
    srun (set_spec cmp) ops [] = Some (rs, l) → run (set_step cmp) ops set_new = Ok (rs, s) →
    (∀ (x : T) (u : W), vis x u = (if pick x then [inr x] else [], (true, u))) → (length l * length l + length l ≤ f)%nat →
    ∃ tr s' l', set_visits cmp vis f u s = Ok (tr, s') ∧ (∀ x, x ∈ tr.*1 → x ∈ l) ∧
      l' `sublist_of` l ∧ (∀ x, x ∈ l' ↔ x ∈ l ∧ (pick x = false ∨ x ∉ tr.*1)) ∧ goes_on_as (set_step (W := W') cmp) (set_spec cmp) s' l'.
  Proof using.
    intros CO E1 E2 Hv Hf. assert (asholds cmp s l) as [(t & Ht & <-) Ha]. { refine (reached _ _ (asholds cmp) _ _ _ _ _ _ (set_agrees cmp CO) _ E1 E2). split; [by apply sholds_new|constructor]. }
    assert (Ho : ok cmp s t) by (split; [apply Ht|by apply asc_els]). rewrite !fmap_length in Hf.
    destruct (loop_safe cmp CO (λ x, x) (λ (y : T) (_ : bool), y) ltac:(done) (λ a, key (Some a)) (λ o : T + T, match o with inl x => set_Insert cmp x | inr x => set_Erase cmp x end) (inr : T → T + T) vis pick) with (f := f) (s := s) (t := t) (x := fst <$> head (io t)) (u := u) as (tr & s' & t' & E & [Hi' Ha'] & Htr & Hsub & Hmem).
    - intros a s0 k v Ek _. exact Ek.
    - intros d s0 z Ez. unfold set_Erase, mbind_. by rewrite Ez.
    - exact Hv.
    - done.
    - destruct (io t) as [|[z kv] R]; [done|]. cbn. exists [], kv, R. split; [done|]. cbn in *. lia.
    - rewrite !cont_els in Hsub. setoid_rewrite cont_els in Htr. setoid_rewrite cont_els in Hmem. exists tr, s', ((io t').*2.*1). split_and!; [|done|done|done|].
      + unfold set_visits, visits_all. unfold mbind_ at 1. rewrite (hd_first _ _ (tinv_rep _ _ _ Ht)). exact E.
      + apply (goes_on _ _ (asholds cmp) _ _ (set_agrees cmp CO)). split; [|by apply asc_els]. exists t'. split; [|done]. split; [done|]. by apply asc_kle.
  Qed.
  Theorem set_traversal_removing_front_partial (ops : list (set_op T W')) rs s l l1 l2 (vis : T → W → list (T + T) * (bool * W)) (pick : T → bool) f u : CmpOK cmp →
    srun (set_spec cmp) ops [] = Some (rs, l) → run (set_step cmp) ops set_new = Ok (rs, s) →
    (∀ (x : T) (u : W), vis x u = (if pick x then [inr x] else [], (true, u))) → (length l ≤ f)%nat →
    l = l1 ++ l2 → (∀ x, x ∈ l1 → pick x = true) → (∀ x, x ∈ l2 → pick x = false) →
    ∃ tr s', set_visits cmp vis f u s = Ok (tr, s') ∧ tr.*1 = l ∧ goes_on_as (set_step (W := W') cmp) (set_spec cmp) s' l2.
  Proof using.
    intros CO E1 E2 Hv Hf El Hp1 Hp2. assert (asholds cmp s l) as [(t & Ht & Et) Ha]. { refine (reached _ _ (asholds cmp) _ _ _ _ _ _ (set_agrees cmp CO) _ E1 E2). split; [by apply sholds_new|constructor]. }
    assert (Ho : ok cmp s t) by (split; [apply Ht|apply asc_els; by rewrite Et]). rewrite <-Et, !fmap_length in Hf. rewrite El in Et. apply fmap_app_inv in Et as (M1 & M2 & -> & -> & Et). apply fmap_app_inv in Et as (R1 & R2 & -> & -> & Et).
    destruct (loop_front cmp CO (λ x, x) (λ (y : T) (_ : bool), y) ltac:(done) (λ a, key (Some a)) (λ o : T + T, match o with inl x => set_Insert cmp x | inr x => set_Erase cmp x end) (inr : T → T + T) vis pick) with (R1 := R1) (R2 := R2) (f := f) (s := s) (t := t) (u := u) as (tr & s' & E & Htr & t' & [Hi' Ha'] & Et').
    - intros a s0 k v Ek _. exact Ek.
    - intros d s0 z Ez. unfold set_Erase, mbind_. by rewrite Ez.
    - exact Hv.
    - done.
    - done.
    - setoid_rewrite cont_els. done.
    - setoid_rewrite cont_els. done.
    - done.
    - exists tr, s'. split_and!.
      + unfold set_visits, visits_all. unfold mbind_ at 1. rewrite (hd_first _ _ (tinv_rep _ _ _ Ht)). exact E.
      + rewrite Htr, cont_els, Et, El. by rewrite !fmap_app.
      + apply (goes_on _ _ (asholds cmp) _ _ (set_agrees cmp CO)). rewrite <-Et'. split; [|by apply asc_els]. exists t'. split; [|done]. split; [done|]. by apply asc_kle.
  Qed.
End set.
Print Assumptions set_traversal_removing_partial.
Print Assumptions set_traversal_removing_front_partial.

(** * Non-vacuity: a map of five, the two smallest keys erased; and every odd key erased (4 is handed over after 5) *)
Definition five_ops : list (map_op Z Z unit) := [MInsert 3 30; MInsert 1 10; MInsert 4 40; MInsert 2 20; MInsert 5 50].
Definition erasing (pick : Z * Z → bool) (d : Z * Z) (u : unit) : list (kv_call Z Z) * (bool * unit) := (if pick d then [VRemove d.1] else [], (true, u)).
Example erasing_removing pick : removing (erasing pick) pick.
Proof. by intros d u. Qed.
Definition five_visit (pick : Z * Z → bool) : option (list Z * res (list (map_res Z Z unit))) :=
  match run (map_step Z.sub) five_ops map_new with
  | Ok (_, s) => match map_visits Z.sub (erasing pick) 30 tt s with
    | Ok (tr, s') => Some (tr.*1.*1, match run (map_step Z.sub) [MSize; MGet 2; MGet 3; MGet 4] s' with Ok (rs, _) => Ok rs | Panic => Panic | Fuel => Fuel end)
    | _ => None end
  | _ => None end.
Example five_hypotheses : ∃ rs, srun (map_spec Z.sub) five_ops [] = Some (rs, [(1, 10); (2, 20)] ++ [(3, 30); (4, 40); (5, 50)]) ∧ match run (map_step Z.sub) five_ops map_new with Ok (rs', _) => rs' = rs | _ => False end.
Proof. eexists. split; vm_compute; reflexivity. Qed.
Example five_front : five_visit (λ d, d.1 <? 3) = Some ([1; 2; 3; 4; 5], Ok [RInt 3; ROpt None; ROpt (Some 30); ROpt (Some 40)]).
Proof. by vm_compute. Qed.
Example five_all : five_visit (λ d, true) = Some ([1; 2; 3; 4; 5], Ok [RInt 0; ROpt None; ROpt None; ROpt None]).
Proof. by vm_compute. Qed.
Example five_odd : five_visit (λ d, Z.odd d.1) = Some ([1; 2; 3; 5; 4], Ok [RInt 2; ROpt (Some 20); ROpt None; ROpt (Some 40)]).
Proof. vm_compute. reflexivity. Qed.
