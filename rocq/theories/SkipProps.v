(** Properties C47 and C48: the skip list. *)
From Verif Require Import Base History RbSpec MapSpec MapProofs MapProps SkipModel SkipSpec SkipProofs SkipOps.
Open Scope Z_scope.
Open Scope go_scope.

Section props.
  Context {K V W : Type} (cmp : K → K → Z) (CO : CmpOK cmp).
  Implicit Types (l : list (K * V)) (ops : list (sk_op K V W)).
  Definition sholds (max : nat) (s : skip K V) l : Prop := ∃ xs, inv cmp max s xs l.
  Lemma step_agrees (max : nat) (o : sk_op K V W) s l : sk_op_ok o → sholds max s l → agrees (sholds max) (sk_step cmp o s) (sk_spec cmp o l).
  Proof using CO.
    intros Ho [xs H]. destruct o as [w k v|k|k| | |vis w]; cbn [sk_step sk_spec agrees]; unfold mbind_.
    - destruct (sk_Insert_ok cmp CO max s xs l w k v H Ho) as (s' & xs' & -> & H'). eexists. split; [reflexivity|]. by exists xs'.
    - rewrite (sk_Get_ok cmp CO max s xs l k H). eexists. split; [reflexivity|]. by exists xs.
    - destruct (sk_Remove_ok cmp CO max s xs l k H) as (s' & xs' & -> & H'). eexists. split; [reflexivity|]. by exists xs'.
    - unfold sk_Len. rewrite (inv_len _ _ _ _ _ H). eexists. split; [reflexivity|]. by exists xs.
    - unfold sk_Keys. rewrite (sk_Traversal_ok cmp _ _ max s xs l H), visit_keys. eexists. split; [reflexivity|]. by exists xs.
    - rewrite (sk_Traversal_ok cmp vis w max s xs l H). eexists. split; [reflexivity|]. by exists xs.
  Qed.
  Lemma srun_total ops : ∀ l, ∃ rs l', srun (sk_spec cmp) ops l = Some (rs, l').
  Proof using.
    induction ops as [|o ops IH]; intros l; cbn [srun]; [by exists [], l|]. destruct (sk_spec cmp o l) as [[r l1]|] eqn:E; [|by destruct o].
    destruct (IH l1) as (rs & l' & ->). by eexists _, _.
  Qed.
  (** C47: for every maximum level from 1 to 64, every history and every random word drawn, the list
      is created, every call returns, and the results are those of the ascending list of pairs *)
  Theorem skiplist_is_finite_map max ops : 1 <= max <= 64 → Forall sk_op_ok ops →
    ∃ s0 s rs l, sk_New max = Ok s0 ∧ run (sk_step cmp) ops s0 = Ok (rs, s) ∧ srun (sk_spec cmp) ops [] = Some (rs, l) ∧ ascending cmp l.
  Proof using CO.
    intros Hm Hok. destruct (new_inv (V := V) cmp (Z.to_nat max)) as (s0 & E0 & Hinv); [lia|]. rewrite Z2Nat.id in E0 by lia.
    destruct (srun_total ops []) as (rs & l & Es).
    pose proof (run_agrees (sk_step cmp) (sk_spec cmp) (sholds (Z.to_nat max)) sk_op_ok (λ o s l, step_agrees _ o s l) ops s0 [] Hok (ex_intro _ [] Hinv)) as H.
    unfold agrees in H. rewrite Es in H. destruct H as (s & E & xs & Hinv'). exists s0, s, rs, l. split_and!; [done | done | done | apply Hinv'].
  Qed.
  (** the value last inserted under an equal key and not removed since *)
  Definition sk_last_write (k : K) (acc : option V) (o : sk_op K V W) : option V :=
    match o with
    | SInsert _ k' v => if cmp k k' =? 0 then Some v else acc
    | SRemove k' => if cmp k k' =? 0 then None else acc
    | _ => acc
    end.
  Theorem skiplist_get_last_write max ops k : 1 <= max <= 64 → Forall sk_op_ok ops →
    ∃ s0 s rs, sk_New max = Ok s0 ∧ run (sk_step cmp) (ops ++ [SGet k]) s0 = Ok (rs, s) ∧ last rs = Some (SVal (foldl (sk_last_write k) None ops)).
  Proof using CO.
    intros Hm Hok. destruct (skiplist_is_finite_map max (ops ++ [SGet k]) Hm) as (s0 & s & rs & l & E0 & E1 & E2 & _).
    { apply Forall_app; split; [done|]. by apply Forall_singleton. }
    exists s0, s, rs. split_and!; [done | done |].
    assert (Hg : ∀ ops l rs l', ascending cmp l → srun (sk_spec cmp) (ops ++ [SGet k]) l = Some (rs, l') → last rs = Some (SVal (foldl (sk_last_write k) (lookup_k cmp k l) ops))).
    { clear -CO. induction ops as [|o ops IH]; intros l rs l' Ha E; cbn [app srun foldl] in *; [by injection E as <- <-|].
      destruct (sk_spec cmp o l) as [[r l1]|] eqn:Eo; [|done]. destruct (srun (sk_spec cmp) (ops ++ [SGet k]) l1) as [[rs1 l2]|] eqn:E1; [|done]. injection E as <- <-.
      assert (ascending cmp l1 ∧ lookup_k cmp k l1 = sk_last_write k (lookup_k cmp k l) o) as [Ha' Hl'].
      { destruct o; cbn in Eo; injection Eo as <- <-; cbn [sk_last_write]; try done.
        - split; [by apply upsert_asc | by apply lookup_upsert].
        - split; [by apply filter_asc | by apply lookup_erase]. }
      rewrite <- Hl', <- (IH l1 rs1 l2 Ha' E1). destruct rs1; [|done]. exfalso. clear - E1. destruct ops as [|o1 ops]; cbn in E1; [done|].
      destruct (sk_spec cmp o1 l1) as [[? ?]|]; [|done]. by destruct (srun _ _ _) as [[? ?]|]. }
    apply (Hg ops [] rs l); [constructor | done].
  Qed.
End props.

(** C48: from 1 to 64 levels, drawing a level ends within 64 rounds with a level from 1 to the
    maximum; level l is drawn for exactly 2^(max-l) of the 2^max - 1 residues *)
Theorem skiplist_random_level_partial max word : 1 <= max <= 64 → 0 <= word < 2 ^ 64 →
  ∃ l, randomLevel 64 max word = Ok l ∧ 1 <= l <= max ∧ 2 ^ (max - l) - 1 <= word mod (2 ^ max - 1) < 2 ^ (max - l + 1) - 1.
Proof. intros Hm Hw. apply randomLevel_ok; lia. Qed.
(** ... but WithMaxLevel accepts every int: with 65 levels or more the draw never ends *)
Lemma loop_stuck f k level : k < 2 ^ 64 - 1 → level_loop f (2 ^ 64 - 1) k 0 level = Fuel.
Proof.
  intros Hk. revert level. induction f as [|f IH]; intros level; [done|]. cbn [level_loop]. rewrite Z.gtb_ltb.
  destruct (Z.ltb_spec k (2 ^ 64 - 1)); [|lia]. change (Z.shiftr 0 1) with 0. rewrite u64_small by lia. rewrite Z.sub_0_r. apply IH.
Qed.
Theorem skiplist_random_level_refuted max word fuel : 65 <= max < 2 ^ 63 → randomLevel fuel max word = Fuel.
Proof.
  intros Hm. unfold randomLevel. rewrite (u64_small max) by lia. rewrite (u64_small (max - 1)) by lia.
  assert (E : ∀ a, 64 <= a → shl64 1 a = 0) by (intros a Ha; unfold shl64; destruct (Z.ltb_spec a 64); [lia | done]). rewrite !E by lia.
  change (u64 (0 - 1)) with (2 ^ 64 - 1). change (u64 (2 ^ 64 - 1 - 0)) with (2 ^ 64 - 1). destruct (Z.eqb_spec (2 ^ 64 - 1) 0); [done|]. apply loop_stuck. apply Z.mod_pos_bound. lia.
Qed.
(** ... and with 0 levels, which New accepts too, the first Insert panics *)
Theorem skiplist_zero_levels_refuted {K V} (cmp : K → K → Z) word (k : K) (v : V) : ∃ s, sk_New 0 = Ok s ∧ sk_Insert cmp word k v s = Panic.
Proof. eexists. split; reflexivity. Qed.

(** a skip list of 5 levels at work *)
Definition zcmp (a b : Z) : Z := a - b.
Lemma zcmp_ok : CmpOK zcmp.
Proof. constructor; unfold zcmp; intros; lia. Qed.
Definition demo : list (sk_op Z Z (list Z)) :=
  [SInsert 0 5 50; SInsert 7 3 30; SInsert 15 9 90; SInsert 30 7 70; SInsert 1 3 31; SGet 3; SGet 4; SRemove 5; SRemove 5; SLen; SKeys; STraverse (λ k v w, (v <? 50, w ++ [v])) []].
Example demo_ok : Forall sk_op_ok demo.
Proof. repeat constructor; done. Qed.
Example demo_runs : match sk_New 5 with Ok s => match run (sk_step zcmp) demo s with Ok (rs, _) => rs = [SUnit; SUnit; SUnit; SUnit; SUnit; SVal (Some 31); SVal None; SBool true; SBool false; SInt 3; SKeyList [3; 7; 9]; SVis [31; 70]] | _ => False end | _ => False end.
Proof. vm_compute. reflexivity. Qed.
Example levels_drawn : map (λ w, randomLevel 64 3 w) [0; 1; 2; 3; 4; 5; 6; 7] = [Ok 3; Ok 2; Ok 2; Ok 1; Ok 1; Ok 1; Ok 1; Ok 3].
Proof. vm_compute. reflexivity. Qed.

Print Assumptions skiplist_is_finite_map.
Print Assumptions skiplist_get_last_write.
Print Assumptions skiplist_random_level_partial.
Print Assumptions skiplist_random_level_refuted.
Print Assumptions skiplist_zero_levels_refuted.
