(** C117: a Hamt takes space proportional to the number of its entries, whatever was erased before. *)
From Verif Require Import Base History HamtModel HamtSpec HamtProofs HamtProps HamtHeapModel HamtHeapRep HamtHeapSim HamtHeapVisit HamtHeapProps HamtHeldProps.
Open Scope nat_scope.

(** ** Specification: the slots of an array; every other object has none *)
Definition cells {T} (h : list (obj T)) (x : nat) : nat := match h !! x with Some (OArr sl) => length sl | _ => 0 end.

Section space.
  Context {T : Type} (hf : key → N).
  Implicit Types (h : heap T) (ch : list (option (entry T))) (es : list (item T)).
  Notation total h l := (sum_list (cells h <$> l)).
  Lemma total_app h l1 l2 : total h (l1 ++ l2) = total h l1 + total h l2.
  Proof. rewrite fmap_app. induction (cells h <$> l1); cbn; [done|]. lia. Qed.
  Lemma chain_space h kvs : ∀ hd ps, chain h hd kvs ps → length ps = length kvs ∧ total h ps = 0.
  Proof.
    unfold chain. induction kvs as [|[k v] kvs IH]; intros hd [|p ps]; cbn [seg_to]; try done. intros (-> & nx & E & Hc). destruct (IH _ _ Hc) as [H1 H2]. cbn [length fmap list_fmap sum_list sum_list_with]. split; [lia|]. 
    change (cells h p + total h ps = 0). rewrite H2. unfold cells. by rewrite E.
  Qed.
  Lemma two_len (l : list (key * T)) : two_hashes hf l → 2 ≤ length l.
  Proof. intros (x & y & Hx & Hy & Hne). destruct l as [|a [|b l]]; [by apply elem_of_nil in Hx| |cbn; lia]. apply elem_of_list_singleton in Hx, Hy. by subst. Qed.
  Lemma sub_space h f : ∀ d pre bm ch, wf hf f d pre bm ch → ∀ sl ess, rep_s h sl ch ess →
    length (own_all ess) ≤ (f + 1) * length (flat ch) ∧ 2 * (length sl + total h (own_all ess)) ≤ (f + 1) * length (flat ch).
  Proof.
    induction f as [|f IH]; intros d pre bm ch Hw; [done|]. destruct Hw as (sl0 & _ & -> & Hs). induction Hs as [|[p e] sl0 Hx Hs IHs]; intros sl ess Hr.
    - inversion Hr; subst. cbn. lia.
    - change (HamtProofs.es ((p, e) :: sl0)) with (Some e :: HamtProofs.es sl0) in *. inversion Hr as [| |e1 t es1 sl1 ch1 ess1 He Hr1]; subst. destruct (IHs _ _ Hr1) as [H1 H2]. clear IHs Hs Hr Hr1. rewrite own_all_cons, total_app, flat_cons, !app_length. cbn [length].
      assert (Hchild : length (owns es1) ≤ (S f + 1) * length (eflat e) ∧ 2 * (1 + total h (owns es1)) ≤ (S f + 1) * length (eflat e)).
      { destruct Hx as [_ Hx]. inversion He as [a hash hd kvs ps Hne Ea Hch|b bm' pos c sl' chb essb Eb Ec Hsb]; subst.
        - destruct (chain_space _ _ _ _ Hch) as [L1 L2]. assert (1 <= length kvs) by (destruct kvs; [done|cbn; lia]). unfold owns. cbn [fmap list_fmap concat snd eflat]. rewrite app_nil_r. cbn [length].
          assert (E0 : total h (a :: ps) = 0). { change (cells h a + total h ps = 0). rewrite L2. unfold cells. by rewrite Ea. } rewrite E0, L1. nia.
        - destruct Hx as (_ & Hc & H2h). apply two_len in H2h. destruct (IH _ _ _ _ Hc _ _ Hsb) as [H3 H4]. rewrite owns_cons, total_app, app_length, eflat_Bm. cbn [snd length].
          assert (E0 : total h [b; c] = length sl'). { change (cells h b + (cells h c + 0) = length sl'). unfold cells. rewrite Eb, Ec. lia. } rewrite E0. change (owns (concat essb)) with (own_all essb). nia. }
      nia.
  Qed.
  Lemma items_held h : (∀ e u es, rep_e h e u es → hamt_held h (addr e) → ∀ x, x ∈ owns es → hamt_held h x) ∧
    (∀ sl ch ess, rep_s h sl ch ess → (∀ i e, sl !! i = Some (Some e) → hamt_held h (addr e)) → ∀ x, x ∈ own_all ess → hamt_held h x).
  Proof.
    apply rep_ind.
    - intros a hash hd kvs ps _ Ea Hc Ha x. unfold owns. cbn [fmap list_fmap concat snd]. rewrite app_nil_r. intros [->|Hx]%elem_of_cons; [done|]. assert (Hh : ∀ p, hd = Some p → hamt_held h p) by (intros p ->; by eapply held_pairs). clear Ha Ea. unfold chain in Hc. revert hd ps Hc Hx Hh. induction kvs as [|[k v] kvs IH]; intros hd [|p ps]; cbn [seg_to]; try done; [by intros _ ?%elem_of_nil|].
      intros (-> & nx & E & Hc) [->|Hx]%elem_of_cons Hh; [by apply Hh|]. apply (IH nx ps Hc Hx). intros q ->. eapply held_next; [by apply Hh|done].
    - intros a bm pos c sl ch ess Ea Ec _ IH Ha x. rewrite owns_cons. cbn [snd app]. assert (Hc : hamt_held h c) by (by eapply held_children). intros [->|[->|Hx]%elem_of_cons]%elem_of_cons; [done|done|]. apply IH; [|done]. intros i [y|y] Ei; [by eapply held_kv_entry|by eapply held_bitmap_entry].
    - by intros _ x ?%elem_of_nil.
    - intros sl ch ess _ IH Hh x Hx. apply IH; [intros i e Ei; by apply (Hh (S i))|]. done.
    - intros e u es sl ch ess _ IHe _ IHs Hh x. rewrite own_all_cons. intros [Hx|Hx]%elem_of_app; [apply IHe; [by apply (Hh 0)|done]|apply IHs; [|done]]. intros i e' Ei. by apply (Hh (S i)).
  Qed.
  (** the pairs among the objects of the trie, in the order of its contents *)
  Definition pair_at h (x : nat) : option (key * T) := match h !! x with Some (OPair k v _) => Some (k, v) | _ => None end.
  Lemma owned_pairs h : (∀ e u es, rep_e h e u es → omap (pair_at h) (owns es) = eflat u) ∧ (∀ sl ch ess, rep_s h sl ch ess → omap (pair_at h) (own_all ess) = flat ch).
  Proof.
    apply rep_ind.
    - intros a hash hd kvs ps _ Ea Hc. unfold owns. cbn [fmap list_fmap concat snd eflat]. rewrite app_nil_r. cbn [omap list_omap]. unfold pair_at at 1. rewrite Ea. clear Ea. unfold chain in Hc. revert hd ps Hc. induction kvs as [|[k v] kvs IH]; intros hd [|p ps]; cbn [seg_to]; try done. intros (_ & nx & E & Hc). cbn [omap list_omap]. unfold pair_at at 1. rewrite E. f_equal. by apply (IH nx).
    - intros a bm pos c sl ch ess Ea Ec _ IH. rewrite owns_cons, eflat_Bm. cbn [snd app omap list_omap]. unfold pair_at at 1. rewrite Ea. unfold pair_at at 1. rewrite Ec. exact IH.
    - done.
    - intros sl ch ess _ IH. exact IH.
    - intros e u es sl ch ess _ IHe _ IHs. rewrite own_all_cons, omap_app, flat_cons. by rewrite IHe, IHs.
  Qed.
  Lemma omap_once {A B C} (g : A → option (B * C)) (l : list A) x y b c c' : NoDup (omap g l).*1 → x ∈ l → y ∈ l → x ≠ y → g x = Some (b, c) → g y = Some (b, c') → False.
  Proof.
    induction l as [|a l IH]; [by intros _ ?%elem_of_nil|]. cbn [omap list_omap]. assert (Hin : ∀ z c, z ∈ l → g z = Some (b, c) → b ∈ (omap g l).*1). { intros z c0 Hz Ez. apply elem_of_list_fmap. exists (b, c0). split; [done|]. apply elem_of_list_omap. by exists z. }
    intros Hn [->|Hx]%elem_of_cons [->|Hy]%elem_of_cons Hne Ex Ey; [done| | |].
    - rewrite Ex in Hn. apply NoDup_cons in Hn as [Hn _]. by eapply Hn, Hin.
    - rewrite Ey in Hn. apply NoDup_cons in Hn as [Hn _]. by eapply Hn, Hin.
    - apply IH; try done. destruct (g a); [by apply NoDup_cons in Hn as [_ Hn]|done].
  Qed.
End space.

Section props.
  Context {T W : Type} (hf : key → N) (Hhf : ∀ k, is_bytes k → (hf k < 2 ^ 64)%N).
  (** C117: after any history a Hamt with n entries reaches at most 12 n + 2 objects (nodes, arrays, pairs), and its
      arrays have at most 6 n slots together *)
  Theorem hamt_linear_space (ops : list (hm_op T W)) : Forall hm_op_ok ops → let m := foldl hm_after (∅ : gmap key T) ops in
    ∃ rs h l, run (hh_step hf) ops hh_new = Ok (rs, h) ∧ NoDup l ∧ (∀ x, x ∈ l ↔ hamt_held h x) ∧
      length l ≤ 12 * size m + 2 ∧ sum_list (cells h <$> l) ≤ 6 * size m.
  Proof using Hhf.
    intros Hok m. destruct (run_sim hf Hhf ops hh_new hm_new ∅ Hok (holds_new hf) stands_new) as (rs & t & h & _ & Hh & E & es & Hr & Hn). fold m in Hh. exists rs, h, (owns es). split; [done|]. split; [done|]. split.
    { intros x. split; [intros Hx; eapply (proj1 (items_held h)); [exact Hr|apply held_root|exact Hx]|intros Hx; by eapply held_owned]. }
    destruct Hh as [Hw Hh]. assert (Hsz : length (flat t.2) = size m).
    { assert (Hp : flat t.2 ≡ₚ map_to_list m). { apply NoDup_Permutation; [eapply NoDup_fmap_1; eapply (wf_nodup hf); [exact Hw|done]|apply NoDup_map_to_list|]. intros [k v]. rewrite elem_of_map_to_list. apply Hh. } rewrite Hp. done. }
    inversion Hr as [|b bm pos c sl ch ess Eb Ec Hs]; subst. destruct (sub_space hf h _ _ _ _ _ Hw _ _ Hs) as [H1 H2]. rewrite Hsz in H1, H2. rewrite owns_cons, total_app, app_length. change (owns (concat ess)) with (own_all ess). cbn [snd length].
    assert (E0 : sum_list (cells h <$> [0; c]) = length sl). { change (cells h 0 + (cells h c + 0) = length sl). unfold cells. rewrite Eb, Ec. lia. } rewrite E0. lia.
  Qed.
  (** C107 for the Hamt, on: no key is held twice, so that also an overwritten value equal to the present one is let go *)
  Theorem hamt_holds_each_once (ops : list (hm_op T W)) : Forall hm_op_ok ops →
    ∃ rs h, run (hh_step hf) ops hh_new = Ok (rs, h) ∧ ∀ x y k v v' n n', hamt_held h x → hamt_held h y → h !! x = Some (OPair k v n) → h !! y = Some (OPair k v' n') → x = y.
  Proof using Hhf.
    intros Hok. destruct (run_sim hf Hhf ops hh_new hm_new ∅ Hok (holds_new hf) stands_new) as (rs & t & h & _ & Hh & E & es & Hr & Hn). exists rs, h. split; [done|]. intros x y k v v' n n' Hx Hy Ex Ey. destruct (decide (x = y)) as [Hxy|Hne]; [done|]. exfalso. destruct Hh as [Hw _].
    apply (omap_once (pair_at h) (owns es) x y k v v'); [|by eapply held_owned|by eapply held_owned|done|unfold pair_at; by rewrite Ex|unfold pair_at; by rewrite Ey]. rewrite (proj1 (owned_pairs h) _ _ _ Hr), eflat_Bm. eapply (wf_nodup hf); [exact Hw|done].
  Qed.
End props.
Print Assumptions hamt_holds_each_once.
Print Assumptions hamt_linear_space.
(** it is about something, and the bound is attained: two keys whose hashes differ in the last digit only *)
Definition last_digit (k : key) : N := match k with [1%N] => 0 | _ => 2 ^ 60 end.
Definition deep_ops : list (hm_op nat unit) := [HInsert [1%N] 10; HInsert [2%N] 20; HInsert [3%N] 30; HErase [3%N]; HInsert [2%N] 21].
Example deep_ok : Forall hm_op_ok deep_ops ∧ (∀ k, is_bytes k → (last_digit k < 2 ^ 64)%N) ∧ size (foldl hm_after (∅ : gmap key nat) deep_ops) = 2.
Proof. split_and!; [repeat constructor; vm_compute; done| |vm_compute; done]. intros k _. unfold last_digit. repeat case_match; done. Qed.
(** following pointers, one step at a time *)
Definition targets {T} (h : list (obj T)) (x : nat) : list nat :=
  match h !! x with
  | Some (OBit _ _ c) => [c]
  | Some (OArr sl) => omap (fmap addr) sl
  | Some (OKv _ p) | Some (OPair _ _ p) => option_list p
  | None => []
  end.
Fixpoint follow {T} (n : nat) (h : list (obj T)) (l : list nat) : list nat := match n with O => l | S n => l ++ follow n h (l ≫= targets h) end.
Lemma follow_held {T} (h : list (obj T)) n : ∀ l, (∀ x, x ∈ l → hamt_held h x) → ∀ x, x ∈ follow n h l → hamt_held h x.
Proof.
  induction n as [|n IH]; intros l Hl x; cbn [follow]; [apply Hl|]. intros [Hx|Hx]%elem_of_app; [by apply Hl|]. revert x Hx. apply IH. intros x (y & Hx & Hy%Hl)%elem_of_list_bind. unfold targets in Hx. destruct (h !! y) as [[bm p c|sl|k p|k v p]|] eqn:Ey; [| | | |by apply elem_of_nil in Hx].
  - apply elem_of_list_singleton in Hx as ->. by eapply held_children.
  - apply elem_of_list_omap in Hx as (o & Ho & Hx). destruct o as [e|]; [|done]. injection Hx as <-. apply elem_of_list_lookup in Ho as [i Ei]. destruct e; [by eapply held_kv_entry|by eapply held_bitmap_entry].
  - destruct p; [|by apply elem_of_nil in Hx]. apply elem_of_list_singleton in Hx as ->. by eapply held_pairs.
  - destruct p; [|by apply elem_of_nil in Hx]. apply elem_of_list_singleton in Hx as ->. by eapply held_next.
Qed.
(** C117: the bound on the objects cannot be lowered *)
Theorem hamt_linear_space_attained : ∃ rs h l, run (hh_step last_digit) deep_ops hh_new = Ok (rs, h) ∧ NoDup l ∧ (∀ x, x ∈ l ↔ hamt_held h x) ∧ length l = 12 * 2 + 2.
Proof.
  destruct (hamt_linear_space (W := unit) last_digit (proj1 (proj2 deep_ok)) deep_ops (proj1 deep_ok)) as (rs & h & l & E & Hn & Hl & Hu & _). rewrite (proj2 (proj2 deep_ok)) in Hu. exists rs, h, l. split_and!; [exact E|exact Hn|exact Hl|]. apply Nat.le_antisymm; [exact Hu|].
  assert (Hx : match run (hh_step (W := unit) last_digit) deep_ops hh_new with Ok (_, h) => 26 = length (remove_dups (follow 40 h [0])) | _ => False end) by (vm_compute; reflexivity). rewrite E in Hx.
  change (12 * 2 + 2) with 26. rewrite Hx. apply submseteq_length, NoDup_submseteq; [apply NoDup_remove_dups|]. intros x Hi. rewrite elem_of_remove_dups in Hi. apply Hl. revert Hi. apply follow_held. intros y ->%elem_of_list_singleton. apply held_root.
Qed.
Print Assumptions hamt_linear_space_attained.
(** with the hash function of the code *)
Corollary hamt_fnv_linear_space {T W} (ops : list (hm_op T W)) : Forall hm_op_ok ops → let m := foldl hm_after (∅ : gmap key T) ops in
  ∃ rs h l, run (hh_step fnv1) ops hh_new = Ok (rs, h) ∧ NoDup l ∧ (∀ x, x ∈ l ↔ hamt_held h x) ∧
    length l ≤ 12 * size m + 2 ∧ sum_list (cells h <$> l) ≤ 6 * size m.
Proof. apply hamt_linear_space, fnv1_64. Qed.
Print Assumptions hamt_fnv_linear_space.
