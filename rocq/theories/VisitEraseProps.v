(** C113: a visitor that removes what it is handed.
    Skip list: the theorem holds for every visitor that changes the list, as long as the removal of the element it is
    handed is its last call.  Map, Set (and MultiMap, MultiSet, RbTree, which loop over the same tree): refuted. *)
From Coq Require Import Sorting.Sorted.
From Verif Require Import Base History RbSpec RbModel MapModel SetModel SetSpec MapSpec MapProofs MapProps SkipModel SkipSpec SkipProofs SkipOps SkipProps VisitEraseModel VisitEraseSpec VisitEraseProofs.
Open Scope Z_scope.

Section spec_facts.
  Context {K V W : Type} (cmp : K → K → Z) (CO : CmpOK cmp) (vis : K * V → W → list (kv_call K V) * (bool * W)) (pick : K * V → bool).
  Implicit Types (l kept rest : list (K * V)).
  Lemma removing_last : removing vis pick → removes_last cmp vis.
  Proof using.
    intros H d u. rewrite H. exists [], (if pick d then [VRemove d.1] else []). split_and!; [done|intros o Ho; by apply elem_of_nil in Ho|]. destruct (pick d); [by right|by left].
  Qed.
  Lemma beyond_mid kept d rest : ascending cmp (kept ++ d :: rest) → beyond cmp (Some d.1) (kept ++ d :: rest) = rest ∧ beyond cmp (Some d.1) (kept ++ rest) = rest.
  Proof using CO.
    clear vis pick. intros (H1 & H2 & _)%asc_mid. cbn [beyond]. rewrite !filter_app, filter_cons_False by (pose proof (cmp_refl cmp CO d.1); lia).
    assert (filter (λ kv : K * V, cmp d.1 kv.1 < 0) rest = rest) as ->.
    { clear H1. induction rest as [|x rest IH]; [done|]. rewrite filter_cons_True by (apply H2; left). f_equal. apply IH. intros y Hy. apply H2. by right. }
    assert (filter (λ kv : K * V, cmp d.1 kv.1 < 0) kept = []) as ->; [|done].
    clear H2. induction kept as [|x kept IH]; [done|]. rewrite filter_cons_False; [apply IH; intros y Hy; apply H1; by right|]. specialize (H1 x ltac:(left)). pose proof (sgn_flip cmp CO d.1 x.1). lia.
  Qed.
  Lemma visited_removing : removing vis pick → ∀ rest kept from f u, beyond cmp from (kept ++ rest) = rest → ascending cmp (kept ++ rest) → (length rest ≤ f)%nat →
    ∃ tr, visited_in_order cmp vis f (kept ++ rest) from u = Some (tr, kept ++ not_picked pick rest) ∧ tr.*1 = rest.
  Proof using CO.
    intros Hr. induction rest as [|d rest IH]; intros kept from f u Hb Ha Hf.
    - exists []. destruct f; cbn [visited_in_order]; rewrite Hb; done.
    - destruct f as [|f]; [cbn in Hf; lia|]. cbn [visited_in_order]. rewrite Hb, Hr. cbn [fst snd]. destruct (beyond_mid kept d rest Ha) as [B1 B2]. unfold not_picked. rewrite filter_cons. destruct (pick d) eqn:Ep.
      + rewrite decide_False by done. cbn [foldl called]. destruct d as [k v]. cbn [fst] in *. rewrite (erase_mid cmp CO k kept k v rest Ha (cmp_refl cmp CO k)).
        destruct (IH kept (Some k) f u B2) as (tr & -> & Htr); [by apply asc_mid in Ha as (_ & _ & ?)|cbn in Hf; lia|]. eexists. split; [reflexivity|]. cbn. by rewrite Htr.
      + rewrite decide_True by done. cbn [foldl]. destruct (IH (kept ++ [d]) (Some d.1) f u) as (tr & E & Htr); [by rewrite <-app_assoc|by rewrite <-app_assoc|cbn in Hf; lia|].
        rewrite <-!app_assoc in E. cbn [app] in E. rewrite E. eexists. split; [reflexivity|]. cbn. by rewrite Htr.
  Qed.
End spec_facts.

Section skiplist.
  Context {K V W W' : Type} (cmp : K → K → Z).
  Implicit Types (ops : list (sk_op K V W')).
  Lemma skip_reached max ops s0 s rs l : CmpOK cmp → 1 <= max <= 64 → Forall sk_op_ok ops → sk_New max = Ok s0 → run (sk_step cmp) ops s0 = Ok (rs, s) →
    srun (sk_spec cmp) ops [] = Some (rs, l) → sholds cmp (Z.to_nat max) s l.
  Proof using.
    intros CO Hm Hok E0 E1 E2. destruct (new_inv (V := V) cmp (Z.to_nat max)) as (s0' & E0' & Hinv); [lia|]. rewrite Z2Nat.id in E0' by lia. assert (s0' = s0) as -> by congruence.
    pose proof (run_agrees (sk_step cmp) (sk_spec cmp) (sholds cmp (Z.to_nat max)) sk_op_ok (λ o s l, step_agrees cmp CO _ o s l) ops s0 [] Hok (ex_intro _ [] Hinv)) as H.
    unfold agrees in H. rewrite E2 in H. destruct H as (s' & E & H). congruence.
  Qed.
  (** A visitor that changes the skip list it is visiting: every visit is handed the first entry beyond the last one
      visited, as things are at that moment, and afterwards the list is what the visitor's calls made of it. *)
  Theorem skiplist_traversal_changing_partial max ops s0 s rs l (vis : K * V → W → list (kv_call K V) * (bool * W)) f u : CmpOK cmp → 1 <= max <= 64 → Forall sk_op_ok ops →
    sk_New max = Ok s0 → run (sk_step cmp) ops s0 = Ok (rs, s) → srun (sk_spec cmp) ops [] = Some (rs, l) → removes_last cmp vis →
    match visited_in_order cmp vis f l None u with
    | Some (tr, l') => ∃ s', sk_visit cmp vis f u s = Ok (tr, s') ∧ goes_on_with sk_op_ok (sk_step (W := W') cmp) (sk_spec cmp) s' l'
    | None => sk_visit cmp vis f u s = Fuel
    end.
  Proof using.
    intros CO Hm Hok E0 E1 E2 Hr. destruct (skip_reached max ops s0 s rs l CO Hm Hok E0 E1 E2) as [xs H].
    pose proof (sk_visit_ok cmp CO vis (Z.to_nat max) f s xs l u Hr H) as Hv. destruct (visited_in_order cmp vis f l None u) as [[tr l']|]; [|done].
    destruct Hv as (s' & xs' & E & H'). exists s'. split; [done|]. intros later Hl.
    pose proof (run_agrees (sk_step (W := W') cmp) (sk_spec cmp) (sholds cmp (Z.to_nat max)) sk_op_ok (λ o s l, step_agrees cmp CO _ o s l) later s' l' Hl (ex_intro _ xs' H')) as Ha.
    unfold agrees in Ha. destruct (srun _ later l') as [[rs' l'']|]; [|done]. destruct Ha as (s2 & ? & _). by exists s2.
  Qed.
  (** In particular, removing some of the entries while visiting: all are visited, once, in order, and the others remain. *)
  Theorem skiplist_traversal_removing_partial max ops s0 s rs l (vis : K * V → W → list (kv_call K V) * (bool * W)) pick f u : CmpOK cmp → 1 <= max <= 64 → Forall sk_op_ok ops →
    sk_New max = Ok s0 → run (sk_step cmp) ops s0 = Ok (rs, s) → srun (sk_spec cmp) ops [] = Some (rs, l) → removing vis pick → (length l ≤ f)%nat →
    ∃ tr s', sk_visit cmp vis f u s = Ok (tr, s') ∧ tr.*1 = l ∧ goes_on_with sk_op_ok (sk_step (W := W') cmp) (sk_spec cmp) s' (not_picked pick l).
  Proof using.
    intros CO Hm Hok E0 E1 E2 Hr Hf. pose proof (skiplist_traversal_changing_partial max ops s0 s rs l vis f u CO Hm Hok E0 E1 E2 (removing_last cmp vis pick Hr)) as H.
    destruct (skip_reached max ops s0 s rs l CO Hm Hok E0 E1 E2) as [xs Hi].
    destruct (visited_removing cmp CO vis pick Hr l [] None f u eq_refl) as (tr & E & Htr); [cbn; apply Hi|done|]. cbn [app] in E. rewrite E in H. destruct H as (s' & E' & H). by exists tr, s'.
  Qed.
End skiplist.
Print Assumptions skiplist_traversal_changing_partial.
Print Assumptions skiplist_traversal_removing_partial.

(** * The containers built on the red-black tree *)
(** erases the entry if it has key k *)
Definition erase_one (k : Z) (d : Z * Z) (u : unit) : list (kv_call Z Z) * (bool * unit) := (if d.1 =? k then [VRemove d.1] else [], (true, u)).
Definition erase_el (k : Z) (x : Z) (u : unit) : list (Z + Z) * (bool * unit) := (if x =? k then [inr x] else [], (true, u)).
(** what was handed to the visitor *)
Definition handed {D C S} (r : res (list (D * C) * S)) : option (list D) := match r with Ok (tr, _) => Some tr.*1 | _ => None end.
(** Erasing the entry with two subtrees skips the one after it; erasing a right child visits its parent again. *)
Theorem map_traversal_removing_refuted :
  ∃ rs s, run (map_step (W := unit) Z.sub) [MInsert 0 0; MInsert 1 10; MInsert 2 20] map_new = Ok (rs, s) ∧
    handed (map_visits Z.sub (erase_one 1) 9 tt s) = Some [(0, 0); (1, 10)] ∧
    handed (map_visits Z.sub (erase_one 2) 9 tt s) = Some [(0, 0); (1, 10); (2, 20); (1, 10)].
Proof. do 2 eexists. split; [vm_compute; reflexivity|]. by vm_compute. Qed.
Theorem set_traversal_removing_refuted :
  ∃ rs s, run (set_step (W := unit) Z.sub) [SetSpec.SInsert 0; SetSpec.SInsert 1; SetSpec.SInsert 2] set_new = Ok (rs, s) ∧
    handed (set_visits Z.sub (erase_el 1) 9 tt s) = Some [0; 1] ∧
    handed (set_visits Z.sub (erase_el 2) 9 tt s) = Some [0; 1; 2; 1].
Proof. do 2 eexists. split; [vm_compute; reflexivity|]. by vm_compute. Qed.
Print Assumptions map_traversal_removing_refuted.
Print Assumptions set_traversal_removing_refuted.

(** * Non-vacuity *)
Definition five : list (sk_op Z Z unit) := [SkipSpec.SInsert 0 5 50; SkipSpec.SInsert 7 3 30; SkipSpec.SInsert 15 9 90; SkipSpec.SInsert 30 7 70; SkipSpec.SInsert 1 4 40].
Definition with_five {A} (f : skip Z Z → A) : option A :=
  match sk_New 5 with Ok s0 => match run (sk_step Z.sub) five s0 with Ok (_, s) => Some (f s) | _ => None end | _ => None end.
Definition remove_odd (d : Z * Z) (u : unit) : list (kv_call Z Z) * (bool * unit) := (if Z.odd d.1 then [VRemove d.1] else [], (true, u)).
Example remove_odd_removing : removing remove_odd (λ d, Z.odd d.1).
Proof. by intros d u. Qed.
Example five_ok : Forall sk_op_ok five ∧ match sk_New 5 with
  | Ok s0 => match run (sk_step Z.sub) five s0 with Ok (rs, s) => srun (sk_spec Z.sub) five [] = Some (rs, [(3, 30); (4, 40); (5, 50); (7, 70); (9, 90)]) | _ => False end
  | _ => False end.
Proof. split; [repeat constructor; cbn; lia|]. vm_compute. reflexivity. Qed.
Example five_removed : with_five (λ s, match sk_visit Z.sub remove_odd 9 tt s with
    | Ok (tr, s') => Some (tr.*1, match run (sk_step (W := unit) Z.sub) [SKeys; SLen; SGet 7] s' with Ok (rs, _) => Some rs | _ => None end) | _ => None end)
  = Some (Some ([(3, 30); (4, 40); (5, 50); (7, 70); (9, 90)], Some [SKeyList [4]; SkipSpec.SInt 1; SkipSpec.SVal None])).
Proof. by vm_compute. Qed.
(** replaces an odd key by the next greater even one, removes the key before and the one it is handed *)
Definition shuffle (d : Z * Z) (u : unit) : list (kv_call Z Z) * (bool * unit) := if Z.odd d.1 then ([VInsert 9 (d.1 + 1) 1; VRemove (d.1 - 1); VRemove d.1], (true, u)) else ([], (true, u)).
Example shuffle_removes_last : removes_last Z.sub shuffle.
Proof.
  intros d u. unfold shuffle. destruct (Z.odd d.1); [|exists [], []; split_and!; [done|intros o Ho; by apply elem_of_nil in Ho|by left]].
  exists [VInsert 9 (d.1 + 1) 1; VRemove (d.1 - 1)], [VRemove d.1]. split_and!; [done| |by right]. intros o [->|[->|Ho%elem_of_nil]%elem_of_cons]%elem_of_cons; [lia|lia|done].
Qed.
Example five_shuffled : with_five (λ s, match sk_visit Z.sub shuffle 9 tt s with
    | Ok (tr, s') => Some (tr.*1, match run (sk_step (W := unit) Z.sub) [SKeys] s' with Ok (rs, _) => Some rs | _ => None end) | _ => None end)
  = Some (Some ([(3, 30); (4, 1); (5, 50); (6, 1); (7, 70); (8, 1); (9, 90); (10, 1)], Some [SKeyList [10]])).
Proof. by vm_compute. Qed.
