(** Properties C49-C52: the hash array mapped trie. *)
From Verif Require Import Base History HamtModel HamtSpec HamtProofs.
Open Scope N_scope.

Lemma sub_elem {A} (l k : list A) x : l `sublist_of` k → x ∈ l → x ∈ k.
Proof. induction 1 as [|y l k _ IH|y l k _ IH]; [done | |]; rewrite ?elem_of_cons; naive_solver. Qed.
Lemma sub_NoDup {A B} (l k : list (A * B)) : l `sublist_of` k → NoDup k.*1 → NoDup l.*1.
Proof.
  induction 1 as [|y l k Hs IH|y l k _ IH]; [done | |]; cbn [fmap list_fmap]; rewrite ?NoDup_cons; [|naive_solver].
  intros [Hy Hn]. split; [|by apply IH]. intros Hin. apply Hy. apply elem_of_list_fmap in Hin as (x & -> & Hx). apply elem_of_list_fmap_1. by eapply sub_elem.
Qed.

Lemma run_snoc {S O R} (step : O → M S R) ops o s rs s' : run step ops s = Ok (rs, s') →
  run step (ops ++ [o]) s = match step o s' with Ok (r, s'') => Ok (rs ++ [r], s'') | Panic => Panic | Fuel => Fuel end.
Proof.
  revert s rs. induction ops as [|o' ops IH]; intros s rs; cbn [run app].
  - intros [= <- <-]. by destruct (step o s) as [[]| |].
  - destruct (step o' s) as [[r s1]| |]; [|done|done]. destruct (run step ops s1) as [[rs1 s2]| |] eqn:E; [|done|done]. intros [= <- <-].
    rewrite (IH _ _ E). by destruct (step o s2) as [[]| |].
Qed.

Section props.
  (** any function from byte strings to 64-bit words *)
  Context {T W : Type} (hf : key → N) (Hhf : ∀ k, is_bytes k → hf k < 2 ^ 64).
  Implicit Types (m : gmap key T) (ops : list (hm_op T W)).
  Notation after ops := (foldl hm_after (∅ : gmap key T) ops).

  Definition holds (h : hamt T) m : Prop := wf hf 11 0 0 h.1 h.2 ∧ ∀ k v, (k, v) ∈ flat h.2 ↔ m !! k = Some v.
  Lemma holds_new : holds hm_new ∅.
  Proof using. split; [apply wf_empty|]. intros k v. rewrite lookup_empty. split; [intros H; by apply elem_of_nil in H | done]. Qed.
  Lemma pw0 : 0 < pw 0.
  Proof using. done. Qed.
  Lemma low0 h : low h 0 = 0.
  Proof using. apply N.mod_1_r. Qed.
  Lemma keys_ok h m : holds h m → ∃ l, bn_traversal (λ k _ ks, (true, ks ++ [k])) levels h.2 [] = Ok l ∧ NoDup l ∧ ∀ k, k ∈ l ↔ is_Some (m !! k).
  Proof using.
    intros [Hw Hc]. exists (flat h.2).*1. split_and!.
    - unfold levels. erewrite bn_traversal_ok; [|done|exact Hw]. f_equal.
      assert (∀ (l : list (key * T)) acc, visit_until (λ (k : key) (_ : T) (ks : list key), (true, ks ++ [k])) l acc = acc ++ l.*1) as Hg.
      { induction l as [|[k v] l IH]; intros acc; cbn [visit_until fst snd fmap list_fmap]; [by rewrite app_nil_r|]. rewrite IH, <- app_assoc. done. }
      apply Hg.
    - by eapply wf_nodup.
    - intros k. rewrite elem_of_list_fmap. split.
      + intros ([k' v] & -> & Hx). exists v. by apply Hc.
      + intros [v Hv]. exists (k, v). split; [done|]. by apply Hc.
  Qed.
  Lemma step_ok o h m : hm_op_ok (o : hm_op T W) → holds h m → ∃ a h', hm_step hf o h = Ok (a, h') ∧ hm_answer m o a ∧ holds h' (hm_after m o).
  Proof using Hhf.
    intros Ho Hh. assert (Hh0 := Hh). destruct Hh as [Hw Hc]. destruct o as [k v|k|k| | |vis w]; cbn [hm_step hm_answer hm_after].
    - destruct (bn_insert_ok hf 11 0 0 h.1 h.2 (hf k) [(k, v)]) as (bm & ch & E & Hw' & Hi); try done; [| apply low0 | by left|].
      { split_and!; [by apply Hhf | done | apply NoDup_singleton |]. intros x ->%elem_of_list_singleton. done. }
      unfold hm_Insert, levels. rewrite E. eexists _, _. split_and!; [reflexivity | done|]. split; [done|]. intros k' v'. cbn [snd]. rewrite (Hi (k', v')), Hc.
      cbn [fmap list_fmap fst]. rewrite !elem_of_list_singleton. destruct (decide (k' = k)) as [->|Hne].
      + rewrite lookup_insert. split; [intros [[= ->]|[_ ?]]; done | intros [= ->]; by left].
      + rewrite lookup_insert_ne by done. split; [intros [[= -> ->]|[? _]]; done | intros ?; by right].
    - destruct (bn_find_ok hf 11 0 0 h.1 h.2 k) as (o & E & Hf); [done | done | apply low0|].
      unfold hm_Get, levels. rewrite E. eexists _, _. split_and!; [reflexivity | | done]. f_equal. apply option_eq. intros v. by rewrite Hf, Hc.
    - destruct (bn_erase_ok hf 11 0 0 h.1 h.2 k) as (ok & bm & ch & E & Hw' & Hok & Hi); [done | done | apply low0|].
      unfold hm_Erase, levels. rewrite E. eexists _, _. split_and!; [reflexivity | |].
      + cbn [fst]. f_equal. apply eq_bool_prop_intro. rewrite bool_decide_spec, Is_true_true, Hok, elem_of_list_fmap. split.
        * intros ([k' v] & -> & Hx). exists v. by apply Hc.
        * intros [v Hv]. exists (k, v). split; [done|]. by apply Hc.
      + split; [done|]. intros k' v'. cbn [snd]. rewrite (Hi (k', v')), Hc. cbn [fst]. destruct (decide (k' = k)) as [->|Hne].
        * rewrite lookup_delete. split; [by intros [_ ?] | done].
        * rewrite lookup_delete_ne by done. split; [by intros [? _] | done].
    - destruct (keys_ok h m Hh0) as (l & E & ? & ?). unfold hm_Keys. rewrite E. eexists _, _. split_and!; [reflexivity | by exists l | done].
    - destruct (keys_ok h m Hh0) as (l & E & ? & ?). unfold hm_StringKeys. rewrite E. eexists _, _. split_and!; [reflexivity | by exists l | done].
    - destruct (bn_traversal_sub hf vis 11 0 0 h.1 h.2 w Hw) as (l & Hs & E & Hall). unfold hm_Traversal, levels. rewrite E. eexists _, _. split; [reflexivity|]. split; [|done].
      exists l. split_and!; [done | | |].
      + eapply sub_NoDup; [exact Hs|]. by eapply wf_nodup.
      + intros k v Hx. apply Hc. by eapply sub_elem.
      + intros Hv k v Hx. rewrite (Hall Hv). by apply Hc.
  Qed.
  Lemma run_ok ops : ∀ h m, Forall hm_op_ok ops → holds h m → ∃ rs h', run (hm_step hf) ops h = Ok (rs, h') ∧ holds h' (foldl hm_after m ops) ∧
    length rs = length ops ∧ ∀ i o, ops !! i = Some o → ∃ a, rs !! i = Some a ∧ hm_answer (foldl hm_after m (take i ops)) o a.
  Proof using Hhf.
    induction ops as [|o ops IH]; intros h m Hok Hh; cbn [run foldl]; [exists [], h; split_and!; try done; intros i o Ho; by rewrite lookup_nil in Ho|].
    apply Forall_cons in Hok as [Ho Hok]. destruct (step_ok o h m Ho Hh) as (a & h1 & -> & Ha & Hh1). destruct (IH h1 _ Hok Hh1) as (rs & h' & -> & Hh' & Hl & Hi).
    exists (a :: rs), h'. split_and!; [done | done | cbn; by rewrite Hl|]. intros [|i] o' Ho'; [injection Ho' as <-; by exists a|]. apply (Hi i o' Ho').
  Qed.

  (** C49, C50, C52: every history of operations on a new Hamt returns (no panic, no recursion deeper
      than 11 levels), and every operation answers as the finite map left by the operations before it
      demands: Get the mapped value, Erase whether the key was there, Keys and StringKeys the present
      keys, each once, Traversal present pairs only, each once, and all of them unless told to stop *)
  Theorem hamt_is_finite_map ops : Forall hm_op_ok ops → ∃ rs h, run (hm_step hf) ops hm_new = Ok (rs, h) ∧ length rs = length ops ∧
    ∀ i o, ops !! i = Some o → ∃ a, rs !! i = Some a ∧ hm_answer (after (take i ops)) o a.
  Proof using Hhf. intros Hok. destruct (run_ok ops hm_new ∅ Hok holds_new) as (rs & h & E & _ & Hl & Hi). by exists rs, h. Qed.

  (** what a history leaves behind for a key: the value of its last insertion, unless erased since *)
  Fixpoint last_write (rops : list (hm_op T W)) (k : key) : option T :=
    match rops with
    | [] => None
    | HInsert k' v :: rops => if bool_decide (k' = k) then Some v else last_write rops k
    | HErase k' :: rops => if bool_decide (k' = k) then None else last_write rops k
    | _ :: rops => last_write rops k
    end.
  Lemma last_write_after ops k : after ops !! k = last_write (rev ops) k.
  Proof using.
    induction ops as [|o ops IH] using rev_ind; [cbn [foldl rev last_write]; by rewrite lookup_empty|]. rewrite foldl_app, rev_app_distr. cbn [foldl rev app last_write].
    destruct o as [k' v|k'|k'| | |vis w]; cbn [hm_after]; try done; case_bool_decide as E.
    - subst. by rewrite lookup_insert.
    - by rewrite lookup_insert_ne.
    - subst. by rewrite lookup_delete.
    - by rewrite lookup_delete_ne.
  Qed.
  (** C49: Get after any history *)
  Theorem hamt_get_last_write ops k : Forall hm_op_ok ops → is_bytes k →
    ∃ rs h, run (hm_step hf) (ops ++ [HGet k]) hm_new = Ok (rs, h) ∧ last rs = Some (HVal (last_write (rev ops) k)).
  Proof using Hhf.
    intros Hok Hk. destruct (hamt_is_finite_map (ops ++ [HGet k])) as (rs & h & E & Hl & Hi).
    { apply Forall_app; split; [done|]. by apply Forall_singleton. }
    exists rs, h. split; [done|]. destruct (Hi (length ops) (HGet k)) as (a & Ha & Hans); [by rewrite lookup_app_r, Nat.sub_diag by lia|].
    rewrite take_app in Hans. cbn [hm_answer] in Hans. rewrite last_write_after in Hans. rewrite last_lookup, Hl, app_length. cbn [length].
    replace (Init.Nat.pred (length ops + 1)) with (length ops) by lia. by rewrite Ha, Hans.
  Qed.

  (** C51 where it holds: if no two present keys have different hashes with equal low six bits,
      Traversal calls the visitor on the present pairs in some order and stops where it says so *)
  Definition no_prefix_clash m : Prop := ∀ k k', is_Some (m !! k) → is_Some (m !! k') → hf k = hf k' ∨ hf k mod 64 ≠ hf k' mod 64.
  Theorem hamt_traversal_stops_partial ops vis w : Forall hm_op_ok ops → no_prefix_clash (after ops) →
    ∃ rs h l, run (hm_step hf) (ops ++ [HTraverse vis w]) hm_new = Ok (rs, h) ∧ last rs = Some (HVis (visit_until vis l w)) ∧
      NoDup l.*1 ∧ ∀ k v, (k, v) ∈ l ↔ after ops !! k = Some v.
  Proof using Hhf.
    intros Hok Hno. destruct (run_ok ops hm_new ∅ Hok holds_new) as (rs & h & E & [Hw Hc] & Hl & Hi).
    eexists _, _, (flat h.2). rewrite (run_snoc _ _ _ _ _ _ E). cbn [hm_step]. unfold hm_Traversal, levels. rewrite bn_traversal_chains.
    2:{ eapply wf_chains; [exact Hw | done|]. intros x y Hx Hy. unfold posf. cbn [N.of_nat N.mul]. rewrite !N.shiftr_0_r.
        change Mask with (N.ones 6). rewrite !N.land_ones. apply Hno; [exists x.2 | exists y.2]; apply Hc; by rewrite <- surjective_pairing. }
    cbn [bindr]. split_and!; [reflexivity | by rewrite last_snoc | by eapply wf_nodup | exact Hc].
  Qed.
End props.

(** the hash the code uses: FNV-1 of a byte string is a 64-bit word *)
Lemma fnv1_64 k : is_bytes k → fnv1 k < 2 ^ 64.
Proof.
  unfold fnv1. intros Hk. assert (Hg : ∀ h, h < 2 ^ 64 → fold_left (fun h b => N.lxor ((h * 1099511628211) mod 2 ^ 64) b) k h < 2 ^ 64).
  { induction Hk as [|b k Hb _ IH]; intros h Hh; [done|]. cbn [fold_left]. apply IH.
    set (x := (h * 1099511628211) mod 2 ^ 64). assert (Hx : x < 2 ^ 64) by (apply N.mod_lt; done). clearbody x.
    destruct (decide (N.lxor x b = 0)) as [->|Hne]; [done|]. apply N.log2_lt_pow2; [lia|]. eapply N.le_lt_trans; [apply N.log2_lxor|].
    destruct (decide (x = 0)) as [->|Hx0]; destruct (decide (b = 0)) as [->|Hb0]; rewrite ?N.max_lt_iff; cbn [N.log2];
      apply N.max_lub_lt; try done; apply N.log2_lt_pow2; lia. }
  by apply Hg.
Qed.
(** C49, C50, C52 for the code as it is *)
Theorem hamt_fnv_is_finite_map {T W} (ops : list (hm_op T W)) : Forall hm_op_ok ops → ∃ rs h, run (hm_step fnv1) ops hm_new = Ok (rs, h) ∧ length rs = length ops ∧
    ∀ i o, ops !! i = Some o → ∃ a, rs !! i = Some a ∧ hm_answer (foldl hm_after (∅ : gmap key T) (take i ops)) o a.
Proof. apply hamt_is_finite_map, fnv1_64. Qed.

(** C51 is false: a visitor that answers false at once is called again when it was called from a
    nested node.  With the code's own hash: two keys whose FNV-1 hashes share their low six bits. *)
Definition stop_now (k : key) (_ : nat) (w : list key) : bool * list key := (false, w ++ [k]).
Definition clash_ops : list (hm_op nat (list key)) := [HInsert [97] 1%nat; HInsert [33] 2%nat; HInsert [96] 3%nat; HTraverse stop_now []].
Theorem hamt_traversal_stops_refuted : Forall hm_op_ok clash_ops ∧ ∃ rs h, run (hm_step fnv1) clash_ops hm_new = Ok (rs, h) ∧
  ∃ calls, last rs = Some (HVis calls) ∧ length calls = 2%nat ∧ ∀ l, visit_until stop_now l [] ≠ calls.
Proof.
  split; [repeat constructor|]. eexists _, _. split; [vm_compute; reflexivity|]. eexists. split; [reflexivity|]. split; [done|].
  intros [|[k v] l]; done.
Qed.

(** C52: the bound of 11 levels is reached: with one level less, an insertion of two keys whose
    hashes agree on the low 60 bits would not fit *)
Definition deep_hash (k : key) : N := match k with [b] => N.shiftl b 60 | _ => 0 end.
Theorem eleven_levels_needed :
  (∃ r, bn_insert 11 0 (deep_hash [1]) [([1], tt)] 0 [] = Ok r ∧ bn_insert 10 0 (deep_hash [2]) [([2], tt)] r.1 r.2 = Fuel ∧
        ∃ r', bn_insert 11 0 (deep_hash [2]) [([2], tt)] r.1 r.2 = Ok r').
Proof. eexists. split; [vm_compute; reflexivity|]. split; [vm_compute; reflexivity|]. eexists. vm_compute. reflexivity. Qed.

(** the hypotheses are met: all keys collide completely *)
Example hash_zero : ∀ k, is_bytes k → (λ _ : key, 0) k < 2 ^ 64.
Proof. done. Qed.
Example full_collision : run (hm_step (T := nat) (W := unit) (λ _, 7))
  [HInsert [1] 1%nat; HInsert [2] 2%nat; HInsert [3] 3%nat; HInsert [2] 4%nat; HErase [3]; HErase [9]; HGet [1]; HGet [2]; HGet [3]; HKeys] hm_new =
  Ok ([HUnit; HUnit; HUnit; HUnit; HBool true; HBool false; HVal (Some 1%nat); HVal (Some 4%nat); HVal None; HKeyList [[2]; [1]]], (128, [Some (Kv 7 [([2], 4%nat); ([1], 1%nat)])])).
Proof. vm_compute. reflexivity. Qed.
Example split_and_collapse : run (hm_step (T := nat) (W := unit) deep_hash)
  [HInsert [1] 1%nat; HInsert [2] 2%nat; HGet [1]; HErase [1]; HGet [1]; HGet [2]; HErase [2]; HKeys] hm_new =
  Ok ([HUnit; HUnit; HVal (Some 1%nat); HBool true; HVal None; HVal (Some 2%nat); HBool true; HKeyList []], (0, [])).
Proof. vm_compute. reflexivity. Qed.
Example no_clash : no_prefix_clash fnv1 (<[[97] := 1%nat]> (<[[98] := 2%nat]> ∅) : gmap key nat).
Proof.
  intros k k' [v Hv] [v' Hv']. rewrite !lookup_insert_Some, lookup_empty in Hv, Hv'.
  destruct Hv as [[<- _]|[_ [[<- _]|[_ ?]]]]; [| |done]; (destruct Hv' as [[<- _]|[_ [[<- _]|[_ ?]]]]; [| |done]); first [by left | right; vm_compute; done].
Qed.

Print Assumptions hamt_is_finite_map.
Print Assumptions hamt_get_last_write.
Print Assumptions hamt_fnv_is_finite_map.
Print Assumptions hamt_traversal_stops_partial.
Print Assumptions hamt_traversal_stops_refuted.
