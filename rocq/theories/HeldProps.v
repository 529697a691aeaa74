(** C107: a container keeps no removed element alive. *)
From Verif Require Import Base Wp History RbModel RbSpec RbTree RbProps BidlistModel BidlistSpec BidlistCyc BidlistProofs BidlistProps SlistModel SlistSpec HeldSpec.
From Verif Require SlistProofs.
Open Scope nat_scope.

(* ---------- the red-black tree, hence Map, MultiMap, Set and MultiSet ---------- *)
Section rb.
  Context {K V : Type}.
  Implicit Types (s : rb K V) (t : @RbTree.tree K V).
  Lemma rootp_in t a : rootp t = Some a → a ∈ ads t.
  Proof. destruct t as [|l b c k v r]; [done|]. cbn. intros [= ->]. unfold ads. cbn [io]. rewrite fmap_app. apply elem_of_app. right. apply elem_of_list_here. Qed.
  Lemma rep_closed h par t a : rep h par t → a ∈ ads t → ∃ n kv, h !! a = Some n ∧ (a, kv) ∈ io t ∧ kv = (n_key n, n_val n) ∧
    (n_parent n = par ∨ ∃ b, n_parent n = Some b ∧ b ∈ ads t) ∧ (∀ b, n_left n = Some b → b ∈ ads t) ∧ (∀ b, n_right n = Some b → b ∈ ads t).
  Proof.
    revert par. induction t as [|l IHl b c k v r IHr]; intros par Hr Ha; [by apply elem_of_nil in Ha|]. destruct Hr as (Hb & Hl & Hr).
    assert (∀ x, x ∈ ads (N l b c k v r) ↔ x ∈ ads l ∨ x = b ∨ x ∈ ads r) as Hads.
    { intros x. unfold ads. cbn [io]. rewrite fmap_app, fmap_cons, elem_of_app, elem_of_cons. done. }
    apply Hads in Ha as [Ha|[->|Ha]].
    - destruct (IHl _ Hl Ha) as (n & kv & H1 & H2 & H3 & H4 & H5 & H6). exists n, kv. split_and!; [done| |done| | |].
      + cbn [io]. apply elem_of_app. by left.
      + right. destruct H4 as [H4|(x & H4 & H7)]; eexists; (split; [done|]); apply Hads; auto.
      + intros x Hx. apply Hads. auto. + intros x Hx. apply Hads. auto.
    - eexists _, _. split_and!; [done| |reflexivity| | |]; cbn [n_key n_val n_parent n_left n_right].
      + cbn [io]. apply elem_of_app. right. apply elem_of_list_here. + by left.
      + intros x Hx. apply Hads. left. by apply rootp_in. + intros x Hx. apply Hads. right. right. by apply rootp_in.
    - destruct (IHr _ Hr Ha) as (n & kv & H1 & H2 & H3 & H4 & H5 & H6). exists n, kv. split_and!; [done| |done| | |].
      + cbn [io]. apply elem_of_app. right. by right.
      + right. destruct H4 as [H4|(x & H4 & H7)]; eexists; (split; [done|]); apply Hads; auto.
      + intros x Hx. apply Hads. auto. + intros x Hx. apply Hads. auto.
  Qed.
  Lemma rep_held s par t : rep (rb_heap s) par t → (∀ a, rootp t = Some a → rb_held s a) → ∀ a, a ∈ ads t → rb_held s a.
  Proof.
    revert par. induction t as [|l IHl b c k v r IHr]; intros par Hr H0 a Ha; [by apply elem_of_nil in Ha|]. destruct Hr as (Hb & Hl & Hr).
    assert (rb_held s b) as Hh by by apply H0. unfold ads in Ha. cbn [io] in Ha. rewrite fmap_app, fmap_cons, elem_of_app, elem_of_cons in Ha. destruct Ha as [Ha|[->|Ha]]; [|done|].
    - apply (IHl _ Hl); [|done]. intros x Hx. eapply rh_ptr; [done..|]. by right; left.
    - apply (IHr _ Hr); [|done]. intros x Hx. eapply rh_ptr; [done..|]. by right; right.
  Qed.
End rb.
(** whatever can be reached from a tree is one of the nodes its iteration visits, with the key and
    value seen there; and all of those are reached *)
Theorem tree_holds_contents {K V} (cmp : K → K → Z) (CO : CmpOK cmp) (s : rb K V) l : reach cmp s → contents s l →
  ∀ a, (rb_held s a ↔ a ∈ l.*1) ∧ ∀ n, rb_held s a → rb_heap s !! a = Some n → (a, (n_key n, n_val n)) ∈ l.
Proof.
  intros Hr Hc. destruct (open cmp CO s l Hr Hc) as (t & _ & -> & [H1 H2 H3 H4]).
  assert (∀ a, rb_held s a → a ∈ ads t) as Hin.
  { intros a. induction 1 as [a Ha|a b n Ha IH Hn Hb]; [by apply rootp_in; rewrite <-H2|].
    destruct (rep_closed _ _ _ _ H1 IH) as (n' & kv & Hn' & _ & _ & Hp & Hl & Hrr). rewrite Hn in Hn'. simplify_eq.
    destruct Hb as [Hb|[Hb|Hb]]; [|by apply Hl|by apply Hrr]. destruct Hp as [Hp|(x & Hp & Hx)]; congruence. }
  intros a. split; [split; [by apply Hin|]|].
  - intros Ha. apply (rep_held s None t); [done| |done]. intros b Hb. apply rh_root. congruence.
  - intros n Ha Hn. destruct (rep_closed _ _ _ _ H1 (Hin a Ha)) as (n' & kv & Hn' & Hk & -> & _). rewrite Hn in Hn'. by simplify_eq.
Qed.
Print Assumptions tree_holds_contents.

(* ---------- the linked lists ---------- *)
Theorem bidlist_holds_contents {T} ops (w : bworld T) s l ps : b_reach ops w s → s_lists s !! l = Some ps → ∀ a, b_held w l a ↔ a ∈ ps.
Proof.
  intros Hr Hl. pose proof (reach_rel _ _ _ Hr) as H. destruct (br_lists _ _ H _ _ Hl) as (Hc & Hn & Ho). pose proof (br_list _ _ _ _ H Hl) as Hb.
  assert (∀ a, a ∈ ps → ∃ n, b_nodes w !! a = Some n ∧ (∀ b, b_prev n = Some b ∨ b_next n = Some b → b ∈ ps) ∧ b_owner n = Some l) as Hnode.
  { intros a Ha. pose proof (Ho a Ha) as Hoa. unfold own in Hoa. apply fmap_Some in Hoa as (n & Hna & Hoa). exists n. split_and!; [done| |done].
    apply elem_of_list_split in Ha as (p & q & ->). pose proof (cyc_nxt _ _ _ _ Hc) as H1. pose proof (cyc_prv _ _ _ _ Hc) as H2. unfold nxt, prv in H1, H2. rewrite Hna in H1, H2. cbn in H1, H2.
    intros b [Hb'|Hb'].
    - rewrite Hb' in H2. injection H2 as H2. symmetry in H2. apply last_Some in H2 as (l' & E). assert (b ∈ a :: q ++ p) as Hin by (rewrite E; apply elem_of_app; right; apply elem_of_list_here).
      clear -Hin. rewrite elem_of_cons, elem_of_app in Hin. rewrite elem_of_app, elem_of_cons. tauto.
    - rewrite Hb' in H1. injection H1 as H1. symmetry in H1. apply head_Some_elem_of in H1. clear -H1. rewrite !elem_of_app, elem_of_list_singleton in H1. rewrite elem_of_app, elem_of_cons. tauto. }
  intros a. split.
  - induction 1 as [a x Hx Hh|a b n Ha IH Hna Hb'|a b n k x Ha IH Hna Hk Hx Hh].
    + rewrite Hb in Hx. simplify_eq. cbn in Hh. by apply head_Some_elem_of.
    + destruct (Hnode a IH) as (n' & E & Hp & _). rewrite Hna in E. simplify_eq. by apply Hp.
    + destruct (Hnode a IH) as (n' & E & _ & Hk'). rewrite Hna in E. simplify_eq. cbn in Hh. by apply head_Some_elem_of.
  - intros Ha. apply elem_of_list_split in Ha as (p & q & E). revert a q E. induction p as [|c p IH] using rev_ind; intros a q E.
    + eapply bh_head; [done|]. by rewrite E.
    + rewrite <-app_assoc in E. cbn [app] in E. pose proof (IH c (a :: q) E) as Hc'. rewrite E in Hc. pose proof (cyc_nxt _ _ _ _ Hc) as H1. unfold nxt in H1. apply fmap_Some in H1 as (n & Hna & H1).
      eapply bh_ptr; [done..|]. right. by rewrite <-H1.
Qed.
Print Assumptions bidlist_holds_contents.
Theorem slist_holds_contents {T} (zero : T) ops rs s : s_safe_run zero ops ss0 → srun (s_spec zero) ops ss0 = Some (rs, s) →
  ∃ w, run (s_step zero) ops sworld0 = Ok (rs, w) ∧ ∀ l ps, ss_lists s !! l = Some ps → ∀ a, s_held w l a ↔ a ∈ ps.
Proof.
  intros Hs E. pose proof (SlistProofs.s_history_from zero ops sworld0 ss0 SlistProofs.srel_0 Hs) as H. rewrite E in H. destruct H as (w & Ew & H). exists w. split; [done|].
  intros l ps Hl. pose proof (SlistProofs.sr_list _ _ _ _ H Hl) as Hb. destruct (SlistProofs.sr_lists _ _ H _ _ Hl) as (Hseg & Hn). intros a. split.
  - induction 1 as [a x Hx Hh|a b n Ha IH Hna Hb'].
    + rewrite Hb in Hx. simplify_eq. cbn in Hh. destruct Hh as [Hh|Hh]; [by apply head_Some_elem_of|]. apply last_Some in Hh as (l' & ->). apply elem_of_app. right. apply elem_of_list_here.
    + apply elem_of_list_split in IH as (p & q & ->). apply SlistProofs.seg_mid in Hseg as (_ & Hx & _). unfold SlistProofs.nx in Hx. rewrite Hna in Hx. cbn in Hx. rewrite Hb' in Hx.
      apply (inj Some) in Hx. symmetry in Hx. apply head_Some_elem_of in Hx. apply elem_of_app. right. by right.
  - intros Ha. apply elem_of_list_split in Ha as (p & q & Ep). revert a q Ep. induction p as [|c p IH] using rev_ind; intros a q Ep.
    + eapply sh_head; [done|]. left. by rewrite Ep.
    + rewrite <-app_assoc in Ep. cbn [app] in Ep. pose proof (IH c (a :: q) Ep) as Hc'. rewrite Ep in Hseg. apply SlistProofs.seg_mid in Hseg as (_ & Hx & _). unfold SlistProofs.nx in Hx. apply fmap_Some in Hx as (n & Hna & Hx).
      eapply sh_ptr; [done..|]. by rewrite <-Hx.
Qed.
Print Assumptions slist_holds_contents.
(** deleting the root of 2, 1, 3 frees node 2, which held key 3 before the pair moved into node 0 *)
Example tree_holds_example : ∃ (s s' : rb Z Z), reach zc s ∧ contents s [(1, (1, 10)%Z); (0, (2, 20)%Z); (2, (3, 30)%Z)] ∧ rb_Delete (Some 0) s = Ok (tt, s') ∧
  reach zc s' ∧ contents s' [(1, (1, 10)%Z); (0, (3, 30)%Z)] ∧ rb_held s 2 ∧ ¬ rb_held s' 2 ∧ rb_held s' 0.
Proof.
  set (s := st_of rb_new (inserts zc [(2, 20); (1, 10); (3, 30)]%Z (rb_new : rb Z Z))).
  assert (reach zc s) as Hr. { unfold s. destruct (nodes_survive_insertions zc zc_ok rb_new [] [(2, 20); (1, 10); (3, 30)]%Z) as (s' & l' & E1 & H & _); [constructor|find_contents|]. by rewrite E1. }
  assert (contents s [(1, (1, 10)%Z); (0, (2, 20)%Z); (2, (3, 30)%Z)]) as Hc by find_contents.
  set (s' := st_of rb_new (rb_Delete (Some 0) s)). assert (rb_Delete (Some 0) s = Ok (tt, s')) as Hd by (by vm_compute).
  assert (reach zc s') as Hr'. { eapply (reach_delete zc s s' _ 0 (2, 20)%Z Hr Hc); [|done]. right. left. }
  assert (contents s' [(1, (1, 10)%Z); (0, (3, 30)%Z)]) as Hc' by find_contents.
  exists s, s'. split_and!; [done..| | |].
  - apply (tree_holds_contents zc zc_ok _ _ Hr Hc). right. right. left.
  - intros H%(tree_holds_contents zc zc_ok _ _ Hr' Hc'). cbn in H. rewrite !elem_of_cons, elem_of_nil in H. lia.
  - apply (tree_holds_contents zc zc_ok _ _ Hr' Hc'). right. left.
Qed.
Lemma bidlist_holds_list0 {T} (ops : list (b_op T)) : b_safe_run ops bs0 →
  match srun b_spec ops bs0 with Some (_, s) => match s_lists s !! 0 with Some _ => true | None => false end | None => false end = true →
  ∃ w s ps, b_reach ops w s ∧ s_lists s !! 0 = Some ps ∧ ∀ a, b_held w 0 a ↔ a ∈ ps.
Proof.
  intros Hs H0. pose proof (bidlist_is_sequence ops Hs) as H. destruct (srun b_spec ops bs0) as [[rs s]|] eqn:E; [|discriminate].
  destruct H as (w & Ew & _). destruct (s_lists s !! 0) as [ps|] eqn:Hps; [|discriminate].
  assert (b_reach ops w s) as Hr. { split; [exact Hs|]. exists rs. split; [exact Ew|exact E]. } exists w, s, ps.
  split_and!; [exact Hr|done|]. exact (bidlist_holds_contents ops w s 0 ps Hr Hps).
Qed.
(** the history of BidlistProps.v meets the hypotheses: it removes nodes of lists 0 and 1 *)
Example bidlist_holds_example : ∃ w s ps, b_reach demo_b w s ∧ s_lists s !! 0 = Some ps ∧ ∀ a, b_held w 0 a ↔ a ∈ ps.
Proof. apply bidlist_holds_list0; [apply bidlist_example|vm_compute; reflexivity]. Qed.
