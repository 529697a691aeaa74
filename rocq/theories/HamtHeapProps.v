(** The Hamt with its objects in a heap (C49, C52 again), and visitors that erase while a Traversal runs (C114, C115). *)
From Verif Require Import Base History HamtModel HamtSpec HamtProofs HamtProps VisitEraseModel VisitEraseSpec HamtHeapModel HamtHeapRep HamtHeapErase HamtHeapErase2 HamtHeapSim HamtHeapVisit HamtVisitSpec HamtHeapVisit2 HamtHeapOver.
Open Scope nat_scope.

(** ** Specification *)
Section spec.
  Context {T W : Type} (hf : key → N).
  (** from the heap h on every history returns, and every operation answers as the map left by those before it,
      starting with m, demands *)
  Definition serves (h : heap T) (m : gmap key T) : Prop := ∀ later : list (hm_op T W), Forall hm_op_ok later →
    ∃ rs h', run (hh_step hf) later h = Ok (rs, h') ∧ length rs = length later ∧ ∀ i o, later !! i = Some o → ∃ a, rs !! i = Some a ∧ hm_answer (foldl hm_after m (take i later)) o a.
End spec.

Section props.
  Context {T W : Type} (hf : key → N) (Hhf : ∀ k, is_bytes k → (hf k < 2 ^ 64)%N).
  Lemma stands_serves (h : heap T) t m : holds hf t m → stands h t → serves (W := W) hf h m.
  Proof using Hhf.
    intros Hh Hst later Hok. destruct (run_sim hf Hhf later h t m Hok Hh Hst) as (rs & t' & h' & E & _ & E' & _). destruct (run_ok hf Hhf later t m Hok Hh) as (rs1 & t1 & E1 & _ & Hl & Hi).
    rewrite E in E1. injection E1 as <- _. by exists rs, h'.
  Qed.
  (** C49, C52: also with nodes, arrays and pairs as objects that are written to in place, every history on a new
      Hamt returns and answers as a finite map *)
  Theorem hamt_heap_is_finite_map : serves (W := W) hf (hh_new (T := T)) ∅.
  Proof using Hhf. eapply stands_serves; [apply holds_new|apply stands_new]. Qed.
  (** ... and gives the same answers, in the same order, as the model with the trie as a value, so every theorem
      about the answers of that one is one about this *)
  Theorem hamt_heap_same (ops : list (hm_op T W)) : Forall hm_op_ok ops → ∃ rs t h, run (hm_step hf) ops hm_new = Ok (rs, t) ∧ run (hh_step hf) ops hh_new = Ok (rs, h).
  Proof using Hhf. intros Hok. destruct (run_sim hf Hhf ops hh_new hm_new ∅ Hok (holds_new hf) stands_new) as (rs & t' & h' & E & _ & E' & _). by exists rs, t', h'. Qed.
End props.

Section visitors.
  Context {T W V : Type} (hf : key → N) (Hhf : ∀ k, is_bytes k → (hf k < 2 ^ 64)%N).
  Lemma after_bytes (ops : list (hm_op T W)) : ∀ m, Forall hm_op_ok ops → (∀ k, is_Some (m !! k) → is_bytes k) → ∀ k, is_Some (foldl hm_after m ops !! k) → is_bytes k.
  Proof using.
    induction ops as [|o ops IH]; intros m Hok Hm; [done|]. apply Forall_cons in Hok as [Ho Hok]. cbn [foldl]. apply IH; [done|]. intros k. destruct o as [k0 v0| |k0| | |]; cbn [hm_after]; try apply Hm.
    - destruct (decide (k0 = k)) as [->|Hne]; [done|]. rewrite lookup_insert_ne by done. apply Hm.
    - intros [v [_ Hv]%lookup_delete_Some]. apply Hm. eauto.
  Qed.

  (** C114: after any history, a Traversal whose visitor erases entries it is handed, of its own choice: it returns;
      what it is handed is what the Hamt held when it began, every entry once; and from then on the Hamt is, to every
      further history, the map with the chosen entries gone.  (g: fuel for the pairs of one chain.) *)
  Theorem hamt_visitor_erases (ops : list (hm_op T W)) (vis : key * T → V → list (kv_call key T) * (bool * V)) pick (w : V) g :
    Forall hm_op_ok ops → removing vis pick → let m := foldl hm_after (∅ : gmap key T) ops in size m ≤ g →
    ∃ rs h tr h', run (hh_step hf) ops hh_new = Ok (rs, h) ∧ hamt_visits hf vis g w h = Ok (tr, w, h') ∧
      tr.*1 ≡ₚ map_to_list m ∧ (∀ d os, (d, os) ∈ tr → os = if pick d then [VRemove d.1] else []) ∧
      serves (W := W) hf h' (filter (λ d, pick d = false) m).
  Proof using Hhf.
    intros Hok Hv m Hg. destruct (run_sim hf Hhf ops hh_new hm_new ∅ Hok (holds_new hf) stands_new) as (rs & t & h & _ & Hh & E & es & Hr & Hn). fold m in Hh.
    assert (Hh0 := Hh). destruct Hh as [Hw Hc]. assert (Hnk := wf_nodup hf 11 0 0 t.1 t.2 Hw ltac:(done)).
    assert (Hperm : flat t.2 ≡ₚ map_to_list m). { apply NoDup_Permutation; [by eapply NoDup_fmap_1|apply NoDup_map_to_list|]. intros [k v]. rewrite elem_of_map_to_list. apply Hc. }
    assert (Hgood : good hf h t es m). { split_and!; [done|done|done|]. apply after_bytes; [done|]. intros k [v Hk]. by rewrite lookup_empty in Hk. }
    destruct (v_node_ok hf Hhf vis pick Hv g levels h t es m 0 0 t.1 t.2 es w Hgood Hr) as (h' & t' & es' & E' & (Hr' & Hn' & Hh' & _) & _); [done|by eapply wf_fits|done| |].
    { rewrite (Permutation_length Hperm). exact Hg. }
    exists rs, h, (seen pick (flat t.2)), h'. split_and!; [done|done| | |].
    - assert (Hse : ∀ l : list (key * T), (seen pick l).*1 = l) by (induction l as [|d l IH]; [done|]; cbn; f_equal; exact IH). rewrite Hse. exact Hperm.
    - intros d os Hx. unfold seen in Hx. apply elem_of_list_In, in_map_iff in Hx as (d' & Hd & _). by injection Hd as -> <-.
    - eapply (stands_serves hf Hhf h' t'); [|by exists es']. assert (Hfe : without pick (flat t.2) m = filter (λ d, pick d = false) m); [|by rewrite <-Hfe].
      apply map_eq. intros k. apply option_eq. intros v. rewrite without_lookup, map_filter_lookup_Some; [|done|intros; by apply Hc]. rewrite <-Hc. split; intros [H1 H2]; (split; [done|]); [by apply H2|done].
  Qed.

  (** C114, and what holds of C115: the visitor may, at any visit, erase any keys of which it holds, rightly, that they
      will not come any more: the one it is handed, those it was handed before, those that were not there at first.
      The Traversal returns; what is handed over is what the Hamt held when it began, every entry once, whatever was
      erased meanwhile; the visitor does what it does when fed these; and from then on the Hamt is, to every further
      history, the map after all its calls. *)
  Theorem hamt_visitor_erases_handed (ops : list (hm_op T W)) (vis : key * T → V → list (kv_call key T) * (bool * V)) done_ (w : V) g :
    Forall hm_op_ok ops → erases_handed vis done_ → let m := foldl hm_after (∅ : gmap key T) ops in (∀ k, done_ w k → is_bytes k ∧ m !! k = None) → size m ≤ g →
    ∃ rs h h' l, run (hh_step hf) ops hh_new = Ok (rs, h) ∧ l ≡ₚ map_to_list m ∧
      hamt_visits hf vis g w h = Ok (fed vis l w, h') ∧ serves (W := W) hf h' (upds m (fed vis l w).1).
  Proof using Hhf.
    intros Hok Hv m Hd Hg. destruct (run_sim hf Hhf ops hh_new hm_new ∅ Hok (holds_new hf) stands_new) as (rs & t & h & _ & Hh & E & es & Hr & Hn). fold m in Hh.
    assert (Hh0 := Hh). destruct Hh as [Hw Hc]. assert (Hnk := wf_nodup hf 11 0 0 t.1 t.2 Hw ltac:(done)).
    assert (Hperm : flat t.2 ≡ₚ map_to_list m). { apply NoDup_Permutation; [by eapply NoDup_fmap_1|apply NoDup_map_to_list|]. intros [k v]. rewrite elem_of_map_to_list. apply Hc. }
    assert (Hgood : good hf h t es m). { split_and!; [done|done|done|]. apply after_bytes; [done|]. intros k [v Hk]. by rewrite lookup_empty in Hk. }
    destruct (v_node_ok2 hf Hhf vis done_ Hv g levels h t es m 0 0 t.1 t.2 es w Hgood Hr) as (h' & t' & es' & _ & E' & (Hr' & Hn' & Hh' & _) & _); [done|by eapply wf_fits|done| | | |].
    { intros k ([k' v] & -> & Hin)%elem_of_list_fmap [_ Hx]%Hd. apply Hc in Hin. cbn in Hx. congruence. }
    { intros k [([k' v] & -> & Hin)%elem_of_list_fmap|Hx]; [|by apply Hd]. apply Hc in Hin. destruct Hgood as (_ & _ & _ & Hby). apply Hby. by exists v. }
    { rewrite (Permutation_length Hperm). exact Hg. }
    exists rs, h, h', (flat t.2). split_and!; [done|done|unfold hamt_visits; rewrite E'; by destruct (fed vis (flat t.2) w)|].
    eapply (stands_serves hf Hhf h' t'); [done|by exists es'].
  Qed.

  Lemma fed_now_facts (vis : key * T → V → list (kv_call key T) * (bool * V)) (D : key → Prop) ks : ∀ (m : gmap key T) w tr m' w', overwrites vis D → (∀ k, D k → is_Some (m !! k)) → (∀ k, k ∈ ks → D k) → fed_now vis ks m w = (tr, (m', w')) → tr.*1.*1 = ks ∧ m' = upds m tr.
  Proof using.
    induction ks as [|k ks IH]; intros m w tr m' w' Hv Hm Hth Ef; cbn [fed_now] in Ef; [by injection Ef as <- <- _|].
    destruct (Hm k) as [v Hk]; [apply Hth; left|]. rewrite Hk in Ef. destruct (fed_now vis ks _ _) as [tr1 [m1 w1]] eqn:E1. cbn [fst snd] in Ef. injection Ef as <- <- <-. apply IH in E1 as [F1 F2]; [|done| |intros k' Hk'; apply Hth; by right].
    - split; [cbn; by f_equal|]. by rewrite upds_cons.
    - intros k' Hk'%Hm. destruct (Hv (k, v) w) as [_ Hos]. revert Hos. generalize (vis (k, v) w).1 as os. intros os. clear -Hk'. revert m Hk'. induction os as [|o os IH]; intros m Hk' Hos; [done|]. cbn [foldl]. apply IH; [|intros o' Ho'; apply Hos; by right].
      destruct (Hos o) as (z & k1 & v1 & -> & _); [left|]. cbn [upd]. destruct (decide (k1 = k')) as [->|Hne]; [rewrite lookup_insert; eauto|by rewrite lookup_insert_ne].
  Qed.

  (** C116: the visitor may, at any visit, give any keys of the Hamt new values.  The Traversal returns; every key is
      handed over once, with the value it has by then; from then on the Hamt is the map after all the calls. *)
  Theorem hamt_visitor_overwrites (ops : list (hm_op T W)) (vis : key * T → V → list (kv_call key T) * (bool * V)) (w : V) g :
    Forall hm_op_ok ops → let m := foldl hm_after (∅ : gmap key T) ops in overwrites vis (λ k, is_Some (m !! k)) → size m ≤ g →
    ∃ rs h h' ks tr m' w', run (hh_step hf) ops hh_new = Ok (rs, h) ∧ ks ≡ₚ (map_to_list m).*1 ∧ fed_now vis ks m w = (tr, (m', w')) ∧
      hamt_visits hf vis g w h = Ok (tr, w', h') ∧ tr.*1.*1 = ks ∧ m' = upds m tr ∧ serves (W := W) hf h' m'.
  Proof using Hhf.
    intros Hok m Hv Hg. destruct (run_sim hf Hhf ops hh_new hm_new ∅ Hok (holds_new hf) stands_new) as (rs & t & h & _ & Hh & E & es & Hr & Hn). fold m in Hh.
    assert (Hh0 := Hh). destruct Hh as [Hw Hc]. assert (Hnk := wf_nodup hf 11 0 0 t.1 t.2 Hw ltac:(done)).
    assert (Hperm : flat t.2 ≡ₚ map_to_list m). { apply NoDup_Permutation; [by eapply NoDup_fmap_1|apply NoDup_map_to_list|]. intros [k v]. rewrite elem_of_map_to_list. apply Hc. }
    assert (Hgood : good hf h t es m). { split_and!; [done|done|done|]. apply after_bytes; [done|]. intros k [v Hk]. by rewrite lookup_empty in Hk. }
    assert (Hth : ∀ k, k ∈ (flat t.2).*1 → is_Some (m !! k)). { intros k ([k' v] & -> & Hin)%elem_of_list_fmap. apply Hc in Hin. by exists v. }
    destruct (v_node_over hf Hhf vis _ Hv h es g levels h m 0 0 t.1 t.2 es w Hr) as (h' & E' & t' & es' & (Hr' & Hn' & Hh' & _) & _ & _ & Hm'); [done| |by eapply wf_fits|done| |].
    { exists t, es. split_and!; [done|done|apply shape_refl|done]. }
    { rewrite (Permutation_length Hperm). exact Hg. }
    destruct (fed_now vis (flat t.2).*1 m w) as [tr [m' w']] eqn:Ef. cbn [fst snd] in *. exists rs, h, h', (flat t.2).*1, tr, m', w'.
    assert (HF : tr.*1.*1 = (flat t.2).*1 ∧ m' = upds m tr).
    { eapply (fed_now_facts vis); [exact Hv|done|exact Hth|exact Ef]. }
    destruct HF as [F1 F2]. split_and!; [done|by rewrite Hperm|done|done|done|done|]. eapply (stands_serves hf Hhf h' t'); [done|by exists es'].
  Qed.
End visitors.

(** ** C115: erasing another key *)
(** three keys, one each in the slots 1, 2, 3 of the root *)
Definition three_ops : list (hm_op nat unit) := [HInsert [1%N] 10; HInsert [2%N] 20; HInsert [3%N] 30].
(** a hash function: the first byte *)
Definition first_byte (k : key) : N := match k with b :: _ => b | [] => 0%N end.
(** handed the key of slot 1, the visitor erases the key k *)
Definition erasing (k : key) (d : key * nat) (w : unit) : list (kv_call key nat) * (bool * unit) := (if bool_decide (d.1 = [1%N]) then [VRemove k] else [], (true, w)).
(** C115 is refuted: the key in slot 3 is erased while the loop is at slot 1: slot 3 of the array the loop goes over is
    set to nil and the Traversal panics there (entry.Type() of a nil interface)
 *)
Theorem hamt_visitor_erases_other_refuted : Forall hm_op_ok three_ops ∧ ∃ rs h, run (hh_step first_byte) three_ops hh_new = Ok (rs, h) ∧ ∀ g, 3 ≤ g → hamt_visits first_byte (erasing [3%N]) g tt h = Panic.
Proof.
  split; [repeat constructor; vm_compute; done|]. destruct (run (hh_step first_byte) three_ops hh_new) as [[rs h]| |] eqn:E; vm_compute in E; try done. injection E as <- <-. do 2 eexists. split; [done|].
  intros g Hg. destruct g as [|[|[|g]]]; try lia. vm_compute. done.
Qed.
(** the same visitor, erasing a key that is not there or one handed over before or the one it is handed, returns *)
Example erasing_absent : match run (hh_step first_byte) three_ops hh_new with Ok (_, h) => match hamt_visits first_byte (erasing [7%N]) 3 tt h with Ok (tr, _, _) => tr.*1.*1 = [[1%N]; [2%N]; [3%N]] | _ => False end | _ => False end.
Proof. vm_compute. done. Qed.
(** C114 is about something: entries with a full collision, a nested node that collapses while it is visited *)
Definition nested_ops : list (hm_op nat unit) := [HInsert [1%N] 10; HInsert [1%N; 5%N] 11; HInsert [65%N] 20; HInsert [129%N] 25; HInsert [3%N] 30; HErase [129%N]].
Example nested_ok : Forall hm_op_ok nested_ops ∧ (∀ k, is_bytes k → (first_byte k < 2 ^ 64)%N).
Proof. split; [repeat constructor; vm_compute; done|]. intros [|b k]; [done|]. intros [Hb _]%Forall_cons. cbn. lia. Qed.
Definition eraser (d : key * nat) (w : unit) : list (kv_call key nat) * (bool * unit) := (if (d.2 <=? 20)%nat then [VRemove d.1] else [], (true, w)).
Example eraser_removes : removing eraser (λ d, (d.2 <=? 20)%nat).
Proof. intros d w. done. Qed.
Example nested_visit : match run (hh_step first_byte) nested_ops hh_new with Ok (_, h) => match hamt_visits first_byte eraser 4 tt h with
  Ok (tr, _, h') => tr.*1 = [([1%N; 5%N], 11); ([1%N], 10); ([65%N], 20); ([3%N], 30)] ∧ match hh_step (W := unit) first_byte HKeys h' with Ok (r, _) => r = HKeyList [[3%N]] | _ => False end | _ => False end | _ => False end.
Proof. vm_compute. done. Qed.

Print Assumptions hamt_heap_is_finite_map.
Print Assumptions hamt_heap_same.
Print Assumptions hamt_visitor_erases.
(** a visitor that keeps the keys it was handed and, when the last one comes, erases them all, twice, and a key that
    was never there *)
Definition at_the_end (d : key * nat) (w : list key) : list (kv_call key nat) * (bool * list key) :=
  (if bool_decide (d.1 = [3%N]) then map VRemove (d.1 :: w) ++ map VRemove w ++ [VRemove [77%N]] else [], (true, d.1 :: w)).
Example at_the_end_ok : erases_handed at_the_end (λ w k, k ∈ w ∨ k = [77%N]) ∧ ∀ k, k ∈ ([] : list key) ∨ k = [77%N] → is_bytes k ∧ foldl hm_after (∅ : gmap key nat) nested_ops !! k = None.
Proof.
  split; [|intros k [?%elem_of_nil| ->]; [done|split; [repeat constructor; vm_compute; done|vm_compute; done]]]. intros d w. unfold at_the_end. cbn [fst snd]. split_and!; [done| |].
  - intros o. case_bool_decide; [|by intros ?%elem_of_nil]. rewrite !elem_of_app, !elem_of_list_In, !in_map_iff. intros [(k & <- & Hk)|[(k & <- & Hk)|[<-|[]]]]; exists k || exists [77%N]; (split; [done|]).
    + destruct Hk as [<-|Hk]; [by left|]. right. left. by apply elem_of_list_In.
    + right. left. by apply elem_of_list_In.
    + right. by right.
  - intros k [[Hk|Hk]%elem_of_cons|Hk]; rewrite ?Hk; [by left|right; by left|right; by right].
Qed.
Example at_the_end_visit : match run (hh_step first_byte) nested_ops hh_new with Ok (_, h) => match hamt_visits first_byte at_the_end 4 [] h with
  Ok (tr, _, h') => tr.*1.*1 = [[1%N; 5%N]; [1%N]; [65%N]; [3%N]] ∧ match hh_step (W := unit) first_byte HKeys h' with Ok (r, _) => r = HKeyList [] | _ => False end | _ => False end | _ => False end.
Proof. vm_compute. done. Qed.
(** C116: handed any key, the visitor counts up the values of two keys of the Hamt, one of them still to come *)
Definition counting (d : key * nat) (w : unit) : list (kv_call key nat) * (bool * unit) := ([VInsert 0 [65%N] (S d.2); VInsert 0 [3%N] (S d.2)], (true, w)).
Example counting_overwrites : overwrites counting (λ k, is_Some (foldl hm_after (∅ : gmap key nat) nested_ops !! k)).
Proof. intros d w. split; [done|]. intros o [->|[->|?%elem_of_nil]%elem_of_cons]%elem_of_cons; [| |done]; do 3 eexists; (split; [done|]); vm_compute; eauto. Qed.
Example counting_visit : match run (hh_step first_byte) nested_ops hh_new with Ok (_, h) => match hamt_visits first_byte counting 4 tt h with
  Ok (tr, _, h') => tr.*1 = [([1%N; 5%N], 11); ([1%N], 10); ([65%N], 11); ([3%N], 12)] ∧ match hh_step (W := unit) first_byte (HGet [3%N]) h' with Ok (r, _) => r = HVal (Some 13) | _ => False end | _ => False end | _ => False end.
Proof. vm_compute. done. Qed.
Print Assumptions hamt_visitor_overwrites.
Print Assumptions hamt_visitor_erases_handed.
Print Assumptions hamt_visitor_erases_other_refuted.
