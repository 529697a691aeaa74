(** The trie invariant behind the Hamt properties. *)
From Coq Require Import Sorting.Sorted.
From Verif Require Import Base HamtModel HamtSpec.
Open Scope N_scope.

(* ---------- digits of hashes ---------- *)
Definition pw (d : nat) : N := 64 ^ N.of_nat d.
Definition low (h : N) (d : nat) : N := h mod pw d.
Lemma pw_pos d : pw d ≠ 0.
Proof. apply N.pow_nonzero. done. Qed.
Lemma pw_S d : pw (S d) = pw d * 64.
Proof. unfold pw. rewrite Nat2N.inj_succ, N.pow_succ_r'. lia. Qed.
Lemma pw_2 d : pw d = 2 ^ (N.of_nat d * Fanout).
Proof. unfold pw, Fanout. rewrite N.mul_comm, N.pow_mul_r. done. Qed.
Lemma posf_div h d : posf h d = (h / pw d) mod 64.
Proof. unfold posf, Mask. rewrite N.shiftr_div_pow2, <- pw_2. change (N.shiftl 1 Fanout - 1) with (N.ones 6). rewrite N.land_ones. done. Qed.
Lemma posf_lt h d : posf h d < 64.
Proof. rewrite posf_div. apply N.mod_lt. done. Qed.
Lemma low_S h d : low h (S d) = low h d + posf h d * pw d.
Proof. unfold low. rewrite pw_S, N.mod_mul_r by (try apply pw_pos; done). rewrite posf_div. lia. Qed.
Lemma low_lt h d : low h d < pw d.
Proof. apply N.mod_lt, pw_pos. Qed.
Lemma low_S_inv h d pre p : pre < pw d → low h (S d) = pre + p * pw d → low h d = pre ∧ posf h d = p.
Proof.
  intros Hp H. rewrite low_S in H. pose proof (low_lt h d) as Hl.
  assert (Hd : posf h d = p).
  { assert ((posf h d * pw d + low h d) / pw d = (p * pw d + pre) / pw d) as E by (f_equal; lia).
    rewrite !N.div_add_l in E by apply pw_pos. rewrite !N.div_small in E by done. lia. }
  subst. split; [lia | done].
Qed.
Lemma low_11 h : h < 2 ^ 64 → low h 11 = h.
Proof. intros H. apply N.mod_small. unfold pw. etransitivity; [exact H|]. vm_compute. done. Qed.

(* ---------- ranks ---------- *)
Definition bits_of (bm : N) (ps : list N) : Prop := ∀ i, N.testbit bm i = true ↔ i ∈ ps.
Lemma testbit_ones q i : N.testbit (2 ^ q - 1) i = bool_decide (i < q).
Proof.
  replace (2 ^ q - 1) with (N.ones q) by (rewrite N.ones_equiv; lia).
  case_bool_decide; [by apply N.ones_spec_low | apply N.ones_spec_high; lia].
Qed.
Lemma shiftl1 q : N.shiftl 1 q = 2 ^ q.
Proof. by rewrite N.shiftl_mul_pow2, N.mul_1_l. Qed.
Lemma land_bit q bm : (N.land (2 ^ q) bm =? 0) = negb (N.testbit bm q).
Proof.
  destruct (N.eqb_spec (N.land (2 ^ q) bm) 0) as [E|E]; destruct (N.testbit bm q) eqn:Hb; try done.
  - exfalso. assert (N.testbit (N.land (2 ^ q) bm) q = false) as H by (rewrite E; apply N.bits_0).
    rewrite N.land_spec, N.pow2_bits_true, Hb in H. done.
  - exfalso. apply E. apply N.bits_inj. intros i. rewrite N.land_spec, N.bits_0, N.pow2_bits_eqb.
    destruct (N.eqb_spec q i); [subst; by rewrite Hb | done].
Qed.
Lemma filter_eq_stdpp {A} (f : A → bool) l : List.filter f l = filter (λ x, f x = true) l.
Proof. induction l as [|x l IH]; [done|]. cbn [List.filter]. rewrite filter_cons. rewrite IH. destruct (f x) eqn:E; [by rewrite decide_True | by rewrite decide_False by congruence]. Qed.
Lemma index_split bm l1 l2 q : bits_of bm (l1 ++ l2) → NoDup (l1 ++ l2) → (∀ i, i ∈ l1 ++ l2 → i < 64) →
  (∀ i, i ∈ l1 → i < q) → (∀ i, i ∈ l2 → q <= i) → index bm (2 ^ q) = length l1.
Proof.
  intros Hb Hn H64 H1 H2. unfold index, ones64. rewrite filter_eq_stdpp.
  rewrite <- (fmap_length N.of_nat). apply Permutation_length, NoDup_Permutation.
  - apply NoDup_fmap_2; [intros x y; apply Nat2N.inj|]. apply NoDup_filter, NoDup_seq.
  - by apply NoDup_app in Hn as [? _].
  - intros i. rewrite elem_of_list_fmap. setoid_rewrite elem_of_list_filter. setoid_rewrite elem_of_seq.
    setoid_rewrite N.land_spec. setoid_rewrite testbit_ones. split.
    + intros (y & -> & Hy & _). apply andb_true_iff in Hy as [Hq%bool_decide_eq_true Hy]. apply Hb in Hy.
      apply elem_of_app in Hy as [?|Hy]; [done|]. apply H2 in Hy. lia.
    + intros Hi. assert (i ∈ l1 ++ l2) as Hi' by (apply elem_of_app; by left).
      exists (N.to_nat i). rewrite N2Nat.id. split_and!; [done | | lia | specialize (H64 _ Hi'); lia].
      apply andb_true_iff; split; [apply bool_decide_eq_true; by apply H1 | by apply Hb].
Qed.

Section proofs.
  Context {T : Type} (hf : key → N).
  Notation entry := (entry T). Notation slots := (list (option entry)).

  Lemma sorted_nodup (l : list N) : StronglySorted N.lt l → NoDup l.
  Proof.
    induction 1 as [|x l _ IH Hf]; constructor; [|done]. intros Hx. rewrite Forall_forall in Hf. specialize (Hf x Hx). lia.
  Qed.
  Lemma sorted_app (l1 l2 : list N) : StronglySorted N.lt (l1 ++ l2) ↔ StronglySorted N.lt l1 ∧ StronglySorted N.lt l2 ∧ ∀ x y, x ∈ l1 → y ∈ l2 → x < y.
  Proof.
    induction l1 as [|a l1 IH]; cbn [app].
    - split; [intros H; split_and!; [constructor | done | intros ?? Hx; by apply elem_of_nil in Hx] | by intros (_ & H & _)].
    - split.
      + intros H. apply StronglySorted_inv in H as [H Hf]. apply IH in H as (H1 & H2 & H3). apply Forall_app in Hf as [Hf1 Hf2]. split_and!; [by constructor | done|].
        intros x y [->|Hx]%elem_of_cons Hy; [rewrite Forall_forall in Hf2; by apply Hf2 | by apply H3].
      + intros (H1 & H2 & H3). apply StronglySorted_inv in H1 as [H1 Hf]. constructor.
        * apply IH. split_and!; [done | done |]. intros x y Hx Hy. apply H3; [by apply elem_of_list_further | done].
        * apply Forall_app; split; [done|]. apply Forall_forall. intros y Hy. apply H3; [apply elem_of_list_here | done].
  Qed.
  Lemma sorted_split {B} (sl : list (N * B)) q : StronglySorted N.lt sl.*1 →
    ∃ l1 l2, sl = l1 ++ l2 ∧ (∀ i, i ∈ l1.*1 → i < q) ∧ (∀ i, i ∈ l2.*1 → q <= i).
  Proof.
    induction sl as [|[p e] sl IH]; intros H.
    - exists [], []. split_and!; [done | |]; intros i Hi; by apply elem_of_nil in Hi.
    - cbn [fmap list_fmap fst] in H. apply StronglySorted_inv in H as [H Hf]. destruct (decide (p < q)) as [Hlt|Hge].
      + destruct (IH H) as (l1 & l2 & -> & H1 & H2). exists ((p, e) :: l1), l2. split_and!; [done | | done].
        intros i [->|Hi]%elem_of_cons; [done | by apply H1].
      + exists [], ((p, e) :: sl). split_and!; [done | intros i Hi; by apply elem_of_nil in Hi|].
        intros i [->|Hi]%elem_of_cons; [cbn; lia|]. rewrite Forall_forall in Hf. specialize (Hf i Hi). cbn in *. lia.
  Qed.

  (* ---------- placing ---------- *)
  Definition es (sl : list (N * entry)) : slots := (λ x, Some x.2) <$> sl.
  Lemma es_app l1 l2 : es (l1 ++ l2) = es l1 ++ es l2.
  Proof. apply fmap_app. Qed.
  Lemma es_length l : length (es l) = length l.
  Proof. apply fmap_length. Qed.
  Lemma insert_mid (A M : list (option entry)) x y : <[length A := y]> (A ++ x :: M) = A ++ y :: M.
  Proof. rewrite <- (Nat.add_0_r (length A)). by rewrite insert_app_r. Qed.
  Lemma assign_at (A M : slots) x e : assign (A ++ x :: M) (length A) e = Ok (A ++ Some e :: M).
  Proof.
    unfold assign. rewrite decide_True by (rewrite app_length; cbn; lia).
    f_equal. apply insert_mid.
  Qed.
  Lemma place_all_seq bm d (sl : list (N * entry)) : ∀ (A M B : slots),
    length M = length sl → (∀ j x, sl !! j = Some x → index bm (bitposnum d x.2) = (length A + j)%nat) →
    place_all bm d (es sl) (A ++ M ++ B) = Ok (A ++ es sl ++ B).
  Proof.
    induction sl as [|[p e] sl IH]; intros A M B HM Hi; destruct M as [|m M]; try done.
    change (es ((p, e) :: sl)) with (Some e :: es sl). cbn [place_all].
    pose proof (Hi 0%nat (p, e) eq_refl) as H0. cbn [snd] in H0. rewrite H0, Nat.add_0_r. cbn [app]. rewrite assign_at.
    replace (A ++ Some e :: M ++ B) with ((A ++ [Some e]) ++ M ++ B) by (by rewrite <- app_assoc).
    rewrite IH; [by rewrite <- app_assoc | cbn in HM; lia |].
    intros j x Hj. specialize (Hi (S j) x Hj). rewrite Hi, app_length. cbn [length]. lia.
  Qed.
  Lemma place_all_app bm d (l1 l2 : slots) : ∀ to,
    place_all bm d (l1 ++ l2) to = bindr (place_all bm d l1 to) (place_all bm d l2).
  Proof.
    induction l1 as [|[e|] l1 IH]; intros to; [done | | done]. cbn [app place_all].
    destruct (assign _ _ _); [apply IH | done | done].
  Qed.
  Lemma place_some_all bm d (sl : list (N * entry)) (rest : slots) : ∀ to to',
    place_all bm d (es sl) to = Ok to' → place_some bm d (es sl ++ rest) to = place_some bm d rest to'.
  Proof.
    induction sl as [|[p e] sl IH]; intros to to' H; [cbn in H; by injection H as <-|].
    change (es ((p, e) :: sl)) with (Some e :: es sl) in *. cbn [place_all place_some app] in *.
    destruct (assign _ _ _); [by apply IH | done | done].
  Qed.

  (* ---------- contents ---------- *)
  Fixpoint eflat (e : entry) : list (key * T) :=
    match e with
    | Kv _ kvs => kvs
    | Bm _ _ ch => (fix go (l : slots) := match l with [] => [] | None :: l => go l | Some e :: l => eflat e ++ go l end) ch
    end.
  Fixpoint flat (l : slots) : list (key * T) := match l with [] => [] | None :: l => flat l | Some e :: l => eflat e ++ flat l end.
  Lemma eflat_Bm p bm ch : eflat (Bm p bm ch) = flat ch.
  Proof. cbn [eflat]. induction ch as [|[e|] ch IH]; [done| |]; cbn [flat]; [f_equal|]; exact IH. Qed.
  Lemma flat_app l1 l2 : flat (l1 ++ l2) = flat l1 ++ flat l2.
  Proof. induction l1 as [|[e|] l1 IH]; [done| |]; cbn [app flat]; rewrite IH; [by rewrite app_assoc | done]. Qed.
  Lemma flat_cons e l : flat (Some e :: l) = eflat e ++ flat l.
  Proof. done. Qed.

  (* ---------- the invariant ---------- *)
  Definition chain_ok (h : N) (kvs : list (key * T)) : Prop := h < 2 ^ 64 ∧ kvs ≠ [] ∧ NoDup kvs.*1 ∧ ∀ x, x ∈ kvs → hf x.1 = h.
  (* a nested node is there because two hashes share the digits so far *)
  Definition two_hashes (l : list (key * T)) : Prop := ∃ x y, x ∈ l ∧ y ∈ l ∧ hf x.1 ≠ hf y.1.
  Definition okslot (child : N → N → slots → Prop) (d : nat) (pre : N) (x : N * entry) : Prop :=
    x.1 < 64 ∧ match x.2 with
               | Kv h kvs => chain_ok h kvs ∧ posf h d = x.1 ∧ low h d = pre
               | Bm q bm ch => q = x.1 ∧ child q bm ch ∧ two_hashes (flat ch)
               end.
  Definition node_ok (bm : N) (sl : list (N * entry)) : Prop := bits_of bm sl.*1 ∧ StronglySorted N.lt sl.*1 ∧ ∀ i, i ∈ sl.*1 → i < 64.
  Fixpoint wf (f d : nat) (pre bm : N) (ch : slots) : Prop :=
    match f with
    | O => False
    | S f => ∃ sl, node_ok bm sl ∧ ch = es sl ∧ Forall (okslot (λ p, wf f (S d) (pre + p * pw d)) d pre) sl
    end.
  Lemma wf_empty f d pre : wf (S f) d pre 0 [].
  Proof.
    exists []. split_and!; [|done|constructor]. split_and!; [|constructor|intros i Hi; by apply elem_of_nil in Hi].
    intros i. rewrite N.bits_0. split; [done | intros Hi; by apply elem_of_nil in Hi].
  Qed.

  Lemma node_split bm sl q : node_ok bm sl →
    (N.testbit bm q = false ∧ ∃ l1 l2, sl = l1 ++ l2 ∧ (∀ i, i ∈ l1.*1 → i < q) ∧ (∀ i, i ∈ l2.*1 → q < i)) ∨
    (N.testbit bm q = true ∧ ∃ l1 e l2, sl = l1 ++ (q, e) :: l2 ∧ index bm (2 ^ q) = length l1).
  Proof.
    intros (Hb & Hs & H64). destruct (sorted_split sl q Hs) as (l1 & l2 & -> & H1 & H2).
    destruct (N.testbit bm q) eqn:Hq.
    - right. split; [done|]. assert (Hin : q ∈ (l1 ++ l2).*1) by (by apply Hb). rewrite fmap_app, elem_of_app in Hin.
      destruct Hin as [Hin|Hin]; [apply H1 in Hin; lia|].
      destruct l2 as [|[p e] l2]; [by apply elem_of_nil in Hin|].
      assert (p = q) as ->.
      { cbn [fmap list_fmap fst] in Hin. apply elem_of_cons in Hin as [->|Hin]; [done|].
        rewrite fmap_app in Hs. apply sorted_app in Hs as (_ & Hs & _). cbn [fmap list_fmap fst] in Hs. apply StronglySorted_inv in Hs as [_ Hf].
        rewrite Forall_forall in Hf. specialize (Hf q Hin). specialize (H2 p). cbn [fmap list_fmap fst] in H2. specialize (H2 (elem_of_list_here _ _)). lia. }
      exists l1, e, l2. split; [done|]. rewrite fmap_app in *.
      erewrite (index_split bm l1.*1 _ q); [by rewrite fmap_length | exact Hb | by apply sorted_nodup | exact H64 | exact H1 | exact H2].
    - left. split; [done|]. exists l1, l2. split_and!; [done | done|]. intros i Hi. specialize (H2 i Hi).
      assert (i ≠ q); [|lia]. intros ->. assert (N.testbit bm q = true) as E; [|congruence]. apply Hb. rewrite fmap_app, elem_of_app. by right.
  Qed.
  Lemma node_index bm l1 p (e : entry) l2 : node_ok bm (l1 ++ (p, e) :: l2) → index bm (2 ^ p) = length l1.
  Proof.
    intros (Hb & Hs & H64). rewrite fmap_app in *. rewrite <- (fmap_length fst). apply (index_split bm _ ((p, e) :: l2).*1); [done | by apply sorted_nodup | done | |].
    - intros i Hi. apply sorted_app in Hs as (_ & _ & Hs). apply Hs; [done | apply elem_of_list_here].
    - intros i Hi. apply sorted_app in Hs as (_ & Hs & _). cbn [fmap list_fmap fst] in *. apply StronglySorted_inv in Hs as [_ Hf]. rewrite Forall_forall in Hf.
      apply elem_of_cons in Hi as [->|Hi]; [lia|]. specialize (Hf i Hi). lia.
  Qed.
  Lemma node_update bm l1 p (e e' : entry) l2 : node_ok bm (l1 ++ (p, e) :: l2) → node_ok bm (l1 ++ (p, e') :: l2).
  Proof. unfold node_ok. rewrite !fmap_app. done. Qed.
  Lemma node_insert bm l1 p (e : entry) l2 : node_ok bm (l1 ++ l2) → p < 64 → (∀ i, i ∈ l1.*1 → i < p) → (∀ i, i ∈ l2.*1 → p < i) →
    node_ok (N.lor bm (2 ^ p)) (l1 ++ (p, e) :: l2).
  Proof.
    intros (Hb & Hs & H64) Hp H1 H2. unfold node_ok, bits_of in *. rewrite !fmap_app in *. cbn [fmap list_fmap fst].
    split_and!.
    - intros i. rewrite N.lor_spec, N.pow2_bits_eqb, orb_true_iff, Hb, N.eqb_eq, !elem_of_app, elem_of_cons. naive_solver.
    - apply sorted_app in Hs as (Hs1 & Hs2 & Hs). apply sorted_app. split_and!; [done | constructor; [done | by apply Forall_forall] |].
      intros x y Hx [->|Hy]%elem_of_cons; [by apply H1 | by apply Hs].
    - intros i. rewrite elem_of_app, elem_of_cons. intros [Hi|[->|Hi]]; [|done|]; apply H64, elem_of_app; tauto.
  Qed.
  Lemma node_remove bm l1 p (e : entry) l2 : node_ok bm (l1 ++ (p, e) :: l2) → node_ok (N.land bm (N.lxor (2 ^ 64 - 1) (2 ^ p))) (l1 ++ l2).
  Proof.
    intros (Hb & Hs & H64). unfold node_ok, bits_of in *. rewrite !fmap_app in *. cbn [fmap list_fmap fst] in *.
    assert (Hnd := sorted_nodup _ Hs).
    split_and!.
    - intros i. rewrite N.land_spec, N.lxor_spec, testbit_ones, N.pow2_bits_eqb, andb_true_iff, Hb.
      apply NoDup_app in Hnd as (_ & Hd1 & Hd2). apply NoDup_cons in Hd2 as [Hd2 _].
      rewrite !elem_of_app, elem_of_cons. split.
      + intros [[Hi|[->|Hi]] Hx]; [by left | | by right]. rewrite N.eqb_refl in Hx. rewrite bool_decide_eq_true_2 in Hx; [done|].
        apply H64. rewrite elem_of_app, elem_of_cons. tauto.
      + intros Hi. split; [tauto|]. rewrite bool_decide_eq_true_2 by (apply H64; rewrite elem_of_app, elem_of_cons; tauto).
        destruct (N.eqb_spec p i) as [->|]; [|done]. exfalso. destruct Hi as [Hi|Hi]; [|done]. apply (Hd1 i Hi). apply elem_of_list_here.
    - apply sorted_app in Hs as (Hs1 & Hs2 & Hs). apply StronglySorted_inv in Hs2 as [Hs2 _]. apply sorted_app. split_and!; [done | done|].
      intros x y Hx Hy. apply Hs; [done | by apply elem_of_list_further].
    - intros i. rewrite elem_of_app. intros Hi. apply H64. rewrite elem_of_app, elem_of_cons. tauto.
  Qed.

  Lemma okslot_pos child d pre p e : okslot child d pre (p, e) → bitposnum d e = 2 ^ p.
  Proof. intros [_ H]. destruct e as [h kvs|q bm ch]; cbn [bitposnum snd fst] in *; rewrite shiftl1; f_equal; [by destruct H as (_ & H & _) | by destruct H as (H & _)]. Qed.
  Lemma node_positions bm child d pre sl l1 m l2 : node_ok bm sl → sl = l1 ++ m ++ l2 → Forall (okslot child d pre) m →
    ∀ j x, m !! j = Some x → index bm (bitposnum d x.2) = (length l1 + j)%nat.
  Proof.
    intros Hn -> Hf j [p e] Hj. rewrite Forall_lookup in Hf. specialize (Hf j _ Hj).
    cbn [snd]. rewrite (okslot_pos _ _ _ _ _ Hf). apply elem_of_list_split_length in Hj as (m1 & m2 & -> & ->).
    rewrite <- app_assoc in Hn. cbn [app] in Hn. rewrite app_assoc in Hn. rewrite (node_index _ _ _ _ _ Hn). by rewrite app_length.
  Qed.

  Lemma es_lookup (l1 l2 : list (N * entry)) p e : es (l1 ++ (p, e) :: l2) !! length l1 = Some (Some e).
  Proof. unfold es. rewrite list_lookup_fmap. rewrite list_lookup_middle by done. done. Qed.
  Lemma es_update (l1 l2 : list (N * entry)) p e e' : <[length l1 := Some e']> (es (l1 ++ (p, e) :: l2)) = es (l1 ++ (p, e') :: l2).
  Proof.
    rewrite !es_app. change (es ((p, e) :: l2)) with (Some e :: es l2). change (es ((p, e') :: l2)) with (Some e' :: es l2).
    rewrite <- (es_length l1). apply insert_mid.
  Qed.
  Lemma flat_mid (l1 l2 : list (N * entry)) p e x : x ∈ flat (es (l1 ++ (p, e) :: l2)) ↔ x ∈ eflat e ∨ x ∈ flat (es l1) ∨ x ∈ flat (es l2).
  Proof. rewrite es_app, flat_app. change (es ((p, e) :: l2)) with (Some e :: es l2). rewrite flat_cons, !elem_of_app. tauto. Qed.

  (* every key in the trie sits under the digits of its hash *)
  Lemma wf_keys f : ∀ d pre bm ch, wf f d pre bm ch → pre < pw d → ∀ x, x ∈ flat ch → hf x.1 < 2 ^ 64 ∧ low (hf x.1) d = pre.
  Proof.
    induction f as [|f IH]; intros d pre bm ch; [done|]. intros (sl & _ & -> & Hf) Hpre x Hx.
    induction sl as [|[p e] sl IHsl]; [by apply elem_of_nil in Hx|].
    apply Forall_cons in Hf as [[Hp He] Hf]. change (es ((p, e) :: sl)) with (Some e :: es sl) in Hx. rewrite flat_cons, elem_of_app in Hx.
    destruct Hx as [Hx|Hx]; [|by apply IHsl]. destruct e as [h kvs|q bm' ch']; cbn [fst snd] in *.
    - destruct He as ((? & _ & _ & Hh) & _ & Hl). rewrite (Hh x Hx). done.
    - destruct He as (-> & Hw & Htwo). rewrite eflat_Bm in Hx. destruct (IH _ _ _ _ Hw) with (x := x) as [Ha Hb]; [rewrite pw_S; nia | done |].
      split; [done|]. by apply (low_S_inv _ _ _ p) in Hb as [? _].
  Qed.
  Lemma slot_keys f d pre p e : okslot (λ p, wf f (S d) (pre + p * pw d)) d pre (p, e) → pre < pw d →
    ∀ x, x ∈ eflat e → posf (hf x.1) d = p ∧ low (hf x.1) d = pre ∧ hf x.1 < 2 ^ 64.
  Proof.
    intros [Hp He] Hpre x Hx. destruct e as [h kvs|q bm' ch']; cbn [fst snd] in *.
    - destruct He as ((? & _ & _ & Hh) & Hq & Hl). change (x ∈ kvs) in Hx. rewrite (Hh x Hx). done.
    - destruct He as (-> & Hw & Htwo). rewrite eflat_Bm in Hx. destruct (wf_keys _ _ _ _ _ Hw) with (x := x) as [Ha Hb]; [rewrite pw_S; nia | done |].
      apply (low_S_inv _ _ _ p) in Hb as [? ?]; done.
  Qed.
  Lemma slots_keys f d pre sl : Forall (okslot (λ p, wf f (S d) (pre + p * pw d)) d pre) sl → pre < pw d →
    ∀ x, x ∈ flat (es sl) → posf (hf x.1) d ∈ sl.*1.
  Proof.
    intros Hf Hpre x. induction sl as [|[p e] sl IHsl]; [by intros Hx; apply elem_of_nil in Hx|].
    apply Forall_cons in Hf as [He Hf]. change (es ((p, e) :: sl)) with (Some e :: es sl). rewrite flat_cons, elem_of_app.
    intros [Hx|Hx]; cbn [fmap list_fmap fst].
    - destruct (slot_keys _ _ _ _ _ He Hpre x Hx) as (-> & _). apply elem_of_list_here.
    - apply elem_of_list_further. by apply IHsl.
  Qed.
  Lemma wf_nodup f : ∀ d pre bm ch, wf f d pre bm ch → pre < pw d → NoDup (flat ch).*1.
  Proof.
    induction f as [|f IH]; intros d pre bm ch; [done|]. intros (sl & (_ & Hs & _) & -> & Hf) Hpre.
    apply sorted_nodup in Hs. induction sl as [|[p e] sl IHsl]; [constructor|].
    change (es ((p, e) :: sl)) with (Some e :: es sl). rewrite flat_cons, fmap_app. cbn [fmap list_fmap fst] in Hs. apply NoDup_cons in Hs as [Hp Hs].
    apply Forall_cons in Hf as [He Hf]. apply NoDup_app. split_and!; [| |by apply IHsl].
    - destruct He as [Hp64 He]. destruct e as [h kvs|q bm' ch']; cbn [fst snd] in He; [by destruct He as ((_ & _ & ? & _) & _)|].
      destruct He as (-> & Hw & Htwo). rewrite eflat_Bm. eapply IH; [exact Hw|]. rewrite pw_S. cbn in Hp64. nia.
    - intros k Hk1 Hk2. apply elem_of_list_fmap in Hk1 as (x & -> & Hx). apply elem_of_list_fmap in Hk2 as (y & Hxy & Hy).
      apply Hp. destruct (slot_keys _ _ _ _ _ He Hpre x Hx) as (<- & _). rewrite Hxy. eapply slots_keys; done.
  Qed.

  (* ---------- chains ---------- *)
  Lemma update_kv_spec k v (l : list (key * T)) : NoDup l.*1 → match update_kv k v l with
    | Some l' => l'.*1 = l.*1 ∧ k ∈ l.*1 ∧ ∀ x, x ∈ l' ↔ x = (k, v) ∨ (x ∈ l ∧ x.1 ≠ k)
    | None => k ∉ l.*1 end.
  Proof.
    induction l as [|[k' v'] l IH]; intros Hn; cbn [update_kv].
    - cbn. apply not_elem_of_nil.
    - cbn [fmap list_fmap fst] in *. apply NoDup_cons in Hn as [Hk Hn]. case_bool_decide as E.
      + subst k'. split_and!; [done | apply elem_of_list_here|]. intros x. rewrite !elem_of_cons. split.
        * intros [->|Hx]; [by left|]. right. split; [by right|]. intros <-. apply Hk. by apply elem_of_list_fmap_1.
        * intros [->|[[->|Hx] Hne]]; [by left | done | by right].
      + specialize (IH Hn). destruct (update_kv k v l) as [l'|].
        * destruct IH as (E1 & Hin & IH). cbn [fmap list_fmap fst]. split_and!; [by rewrite <- E1 | by apply elem_of_list_further|].
          intros x. rewrite !elem_of_cons, IH. split; [|tauto]. intros [->|[->|[? ?]]]; [right; by split; [left|] | by left | right; tauto].
        * rewrite not_elem_of_cons. done.
  Qed.
  Lemma find_kv_spec k (l : list (key * T)) : NoDup l.*1 → ∀ v, find_kv k l = Some v ↔ (k, v) ∈ l.
  Proof.
    induction l as [|[k' v'] l IH]; intros Hn v; cbn [find_kv]; [split; [done | intros H; by apply elem_of_nil in H]|].
    cbn [fmap list_fmap fst] in *. apply NoDup_cons in Hn as [Hk Hn]. rewrite elem_of_cons. case_bool_decide as E.
    - subst k'. split; [intros [= ->]; by left|]. intros [[= ->]|Hx]; [done|]. exfalso. apply Hk. by apply (elem_of_list_fmap_1 fst) in Hx.
    - rewrite IH by done. split; [by right|]. intros [[= -> ->]|?]; done.
  Qed.
  Lemma unlink_spec k (l : list (key * T)) : NoDup l.*1 → match unlink k l with
    | Some l' => NoDup l'.*1 ∧ k ∈ l.*1 ∧ ∀ x, x ∈ l' ↔ x ∈ l ∧ x.1 ≠ k
    | None => k ∉ l.*1 end.
  Proof.
    induction l as [|[k' v'] l IH]; intros Hn; cbn [unlink].
    - cbn. apply not_elem_of_nil.
    - cbn [fmap list_fmap fst] in *. apply NoDup_cons in Hn as [Hk Hn]. case_bool_decide as E.
      + subst k'. split_and!; [done | apply elem_of_list_here|]. intros x. rewrite elem_of_cons. split.
        * intros Hx. split; [by right|]. intros <-. apply Hk. by apply elem_of_list_fmap_1.
        * intros [[->|Hx] Hne]; [done | done].
      + specialize (IH Hn). destruct (unlink k l) as [l'|].
        * destruct IH as (E1 & Hin & IH). cbn [fmap list_fmap fst]. split_and!.
          -- constructor; [|done]. intros Hx. apply Hk. apply elem_of_list_fmap in Hx as (x & -> & Hx). apply IH in Hx as [Hx _]. by apply elem_of_list_fmap_1.
          -- by apply elem_of_list_further.
          -- intros x. rewrite !elem_of_cons, IH. split; [|tauto]. intros [->|[? ?]]; [split; [by left | done] | tauto].
        * rewrite not_elem_of_cons. done.
  Qed.

  (* ---------- insert ---------- *)
  Definition inserted (kv old new : list (key * T)) : Prop := ∀ x, x ∈ new ↔ x ∈ kv ∨ (x ∈ old ∧ x.1 ∉ kv.*1).
  (* a key of a chain is not in the slots of other positions *)
  Lemma other_slots f d pre sl (kv : list (key * T)) hash : Forall (okslot (λ p, wf f (S d) (pre + p * pw d)) d pre) sl → pre < pw d → (∀ x, x ∈ kv → hf x.1 = hash) →
    posf hash d ∉ sl.*1 → ∀ x, x ∈ flat (es sl) → x.1 ∉ kv.*1.
  Proof.
    intros Hf Hpre Hk Hp x Hx Hin. apply elem_of_list_fmap in Hin as (y & Hxy & Hy). apply Hp. rewrite <- (Hk y Hy), <- Hxy. eapply slots_keys; done.
  Qed.
  Lemma bn_insert_ok f : ∀ d pre bm ch hash kv, wf f d pre bm ch → (f + d = 11)%nat → pre < pw d → chain_ok hash kv → low hash d = pre →
    (length kv = 1%nat ∨ ∀ x, x ∈ flat ch → hf x.1 ≠ hash) →
    ∃ bm' ch', bn_insert f d hash kv bm ch = Ok (bm', ch') ∧ wf f d pre bm' ch' ∧ inserted kv (flat ch) (flat ch').
  Proof.
    induction f as [|f IH]; intros d pre bm ch hash kv; [done|].
    intros (sl & Hn & -> & Hf) Hfd Hpre Hc Hlow Hone. cbn [bn_insert]. unfold bitposf. rewrite !shiftl1, land_bit.
    set (p := posf hash d) in *. assert (Hp64 : p < 64) by apply posf_lt.
    assert (Hch := Hc). destruct Hch as (Hh64 & Hne & Hnd & Hkh).
    destruct (node_split bm sl p Hn) as [[-> (l1 & l2 & -> & H1 & H2)]|[-> (l1 & e & l2 & -> & Hidx)]]; cbn [negb].
    - assert (Hn' := node_insert bm l1 p (Kv hash kv) l2 Hn Hp64 H1 H2).
      rewrite (node_index _ _ _ _ _ Hn'), es_length, app_length.
      replace (replicate (S (length l1 + length l2)) (None (A:=entry))) with (replicate (length l1) (None (A:=entry)) ++ None :: replicate (length l2) None)
        by (rewrite <- Nat.add_succ_r, replicate_add; done).
      pose proof (assign_at (replicate (length l1) None) (replicate (length l2) None) None (Kv hash kv)) as P0. rewrite replicate_length in P0. rewrite P0. clear P0.
      rewrite es_app, place_all_app. apply Forall_app in Hf as [Hf1 Hf2].
      pose proof (place_all_seq (N.lor bm (2 ^ p)) d l1 [] (replicate (length l1) None) (Some (Kv hash kv) :: replicate (length l2) None)) as P1.
      cbn [app length] in P1. rewrite P1; [|by rewrite replicate_length|eapply (node_positions _ _ _ _ _ []); [exact Hn' | done | exact Hf1]]. cbn [bindr].
      pose proof (place_all_seq (N.lor bm (2 ^ p)) d l2 (es l1 ++ [Some (Kv hash kv)]) (replicate (length l2) None) []) as P2.
      rewrite !app_nil_r, <- !app_assoc in P2. cbn [app] in P2.
      rewrite P2; [|by rewrite replicate_length|].
      2:{ intros j x Hj. rewrite app_length, es_length. cbn [length]. pose proof (node_positions _ (λ p, wf f (S d) (pre + p * pw d)) d pre _ (l1 ++ [(p, Kv hash kv)]) l2 [] Hn') as Q.
          rewrite app_nil_r, <- app_assoc in Q. specialize (Q eq_refl Hf2 j x Hj). rewrite app_length in Q. exact Q. }
      eexists _, _. split; [reflexivity|]. change (Some (Kv hash kv) :: es l2) with (es ((p, Kv hash kv) :: l2)). rewrite <- es_app. split.
      + eexists. split_and!; [exact Hn' | done|]. apply Forall_app; split; [done|]. apply Forall_cons; split; [|done]. split; [done|]. done.
      + intros x. rewrite flat_mid, flat_app, elem_of_app. change (eflat (Kv hash kv)) with kv. split; [|tauto].
        intros [Hx|Hx]; [by left|]. right. split; [done|]. rewrite <- elem_of_app, <- flat_app, <- es_app in Hx.
        eapply (other_slots f d pre (l1 ++ l2)); [by apply Forall_app | done | exact Hkh | | exact Hx].
        fold p. rewrite fmap_app, elem_of_app. intros [Hi|Hi]; [apply H1 in Hi | apply H2 in Hi]; lia.
    - rewrite Hidx, es_lookup. apply Forall_app in Hf as [Hf1 Hf2]. apply Forall_cons in Hf2 as [He Hf2].
      assert (Hother : ∀ x, x ∈ flat (es (l1 ++ l2)) → x.1 ∉ kv.*1).
      { eapply (other_slots f d pre (l1 ++ l2)); [by apply Forall_app | done | exact Hkh |]. fold p.
        destruct Hn as (_ & Hs & _). apply sorted_nodup in Hs. rewrite !fmap_app in *. cbn [fmap list_fmap fst] in Hs. apply NoDup_app in Hs as (_ & Hd & Hs). apply NoDup_cons in Hs as [Hs _].
        rewrite elem_of_app. intros [Hi|Hi]; [apply (Hd _ Hi), elem_of_list_here | done]. }
      assert (Hmid : ∀ e', inserted kv (eflat e) (eflat e') → inserted kv (flat (es (l1 ++ (p, e) :: l2))) (flat (es (l1 ++ (p, e') :: l2)))).
      { intros e' Hi x. rewrite !flat_mid, (Hi x). specialize (Hother x). rewrite es_app, flat_app, elem_of_app in Hother. tauto. }
      assert (Hwf : ∀ e', okslot (λ p, wf f (S d) (pre + p * pw d)) d pre (p, e') → wf (S f) d pre bm (es (l1 ++ (p, e') :: l2))).
      { intros e' He'. eexists. split_and!; [by eapply node_update | done |]. apply Forall_app; split; [done|]. by apply Forall_cons. }
      assert (Hsub : ∀ h, posf h d = p → low h d = pre → low h (S d) = pre + p * pw d) by (intros h <- <-; apply low_S).
      assert (Hpre' : pre + p * pw d < pw (S d)) by (rewrite pw_S; nia).
      destruct He as [_ He]. cbn [snd fst] in He. destruct e as [h' kvs|q bm' ch'].
      + destruct He as (Hc' & Hp' & Hl'). assert (Hch' := Hc'). destruct Hch' as (Hh64' & Hne' & Hnd' & Hkh').
        destruct (N.eqb_spec h' hash) as [->|Hneq].
        * destruct kv as [|[k v] kv]; [done|].
          destruct Hone as [Hone|Hone].
          2:{ exfalso. destruct kvs as [|y kvs]; [done|]. apply (Hone y); [rewrite flat_mid; left; apply elem_of_list_here | apply Hkh', elem_of_list_here]. }
          destruct kv; [|done]. specialize (Hkh (k, v) (elem_of_list_here _ _)). cbn in Hkh.
          pose proof (update_kv_spec k v kvs Hnd') as Hu. destruct (update_kv k v kvs) as [kvs'|].
          -- destruct Hu as (E1 & Hin & Hu). eexists _, _. split; [reflexivity|]. rewrite es_update. split.
             ++ apply Hwf. split; [done|]. cbn [snd fst]. split_and!; [|done|done]. split_and!; [done | | by rewrite E1|].
                ** intros ->. cbn in E1. rewrite <- E1 in Hin. by apply elem_of_nil in Hin.
                ** intros x Hx. apply Hu in Hx as [->|[Hx _]]; [done | by apply Hkh'].
             ++ apply Hmid. intros x. cbn [eflat fmap list_fmap fst]. rewrite Hu, !elem_of_list_singleton. done.
          -- eexists _, _. split; [reflexivity|]. rewrite es_update. split.
             ++ apply Hwf. split; [done|]. cbn [snd fst]. split_and!; [|done|done]. split_and!; [done | done | by constructor|].
                intros x [->|Hx]%elem_of_cons; [done | by apply Hkh'].
             ++ apply Hmid. intros x. cbn [eflat fmap list_fmap fst]. rewrite elem_of_cons, !elem_of_list_singleton. split; [|tauto].
                intros [->|Hx]; [by left|]. right. split; [done|]. intros <-. apply Hu. by apply elem_of_list_fmap_1.
        * (* split *)
          destruct f as [|f].
          { exfalso. apply Hneq. assert (d = 10%nat) as -> by lia.
            rewrite <- (low_11 h'), <- (low_11 hash) by done. rewrite (Hsub h'), (Hsub hash) by done. done. }
          destruct (IH (S d) (pre + p * pw d) 0 [] h' kvs) as (bm1 & ch1 & -> & Hw1 & Hi1); [apply wf_empty | lia | done | done | by apply Hsub | right; intros x Hx; by apply elem_of_nil in Hx |].
          destruct (IH (S d) (pre + p * pw d) bm1 ch1 hash kv) as (bm2 & ch2 & -> & Hw2 & Hi2); [done | lia | done | done | by apply Hsub | |].
          { right. intros x Hx. apply Hi1 in Hx as [Hx|[Hx _]]; [rewrite (Hkh' x Hx); done | by apply elem_of_nil in Hx]. }
          eexists _, _. split; [reflexivity|]. rewrite es_update. split.
          { apply Hwf. split; [done|]. split_and!; [done | done |]. destruct kvs as [|y kvs]; [done|]. destruct kv as [|z kv]; [done|].
            exists y, z. split_and!.
            - apply Hi2. right. split; [apply Hi1; left; apply elem_of_list_here|]. intros Hin. apply elem_of_list_fmap in Hin as (x & Hyx & Hx).
              apply Hneq. rewrite <- (Hkh' y), <- (Hkh x), Hyx; [done | done | apply elem_of_list_here].
            - apply Hi2. left. apply elem_of_list_here.
            - rewrite (Hkh' y), (Hkh z); [done | apply elem_of_list_here | apply elem_of_list_here]. }
          apply Hmid. intros x. rewrite eflat_Bm, (Hi2 x), (Hi1 x). cbn [eflat]. split; [|tauto].
          intros [Hx|[[Hx|[Hx _]] ?]]; [by left | by right | by apply elem_of_nil in Hx].
      + destruct He as (-> & Hw & Htwo).
        destruct (IH (S d) (pre + p * pw d) bm' ch' hash kv) as (bm2 & ch2 & -> & Hw2 & Hi2); [done | lia | done | done | by apply Hsub | |].
        { destruct Hone as [?|Hone]; [by left|]. right. intros x Hx. apply Hone. rewrite flat_mid. left. by rewrite eflat_Bm. }
        eexists _, _. split; [reflexivity|]. rewrite es_update. split.
        { apply Hwf. split; [done|]. split_and!; [done | done |]. destruct Htwo as (y & z & Hy & Hz & Hyz).
          assert (Hk : ∀ y, y ∈ flat ch' → ∃ y', y' ∈ flat ch2 ∧ y'.1 = y.1).
          { intros y' Hy'. destruct (decide (y'.1 ∈ kv.*1)) as [Hin|Hin].
            - apply elem_of_list_fmap in Hin as (x & Hyx & Hx). exists x. split; [apply Hi2; by left | done].
            - exists y'. split; [apply Hi2; by right | done]. }
          destruct (Hk y Hy) as (y' & ? & Ey). destruct (Hk z Hz) as (z' & ? & Ez). exists y', z'. by rewrite Ey, Ez. }
        apply Hmid. intros x. rewrite !eflat_Bm. apply Hi2.
  Qed.

  (* ---------- find ---------- *)
  Lemma bn_find_ok f : ∀ d pre bm ch k, wf f d pre bm ch → pre < pw d → low (hf k) d = pre →
    ∃ o, bn_find f d (hf k) k bm ch = Ok o ∧ ∀ v, o = Some v ↔ (k, v) ∈ flat ch.
  Proof.
    induction f as [|f IH]; intros d pre bm ch k; [done|].
    intros (sl & Hn & -> & Hf) Hpre Hlow. cbn [bn_find]. unfold bitposf. rewrite !shiftl1, land_bit.
    set (p := posf (hf k) d) in *. assert (Hp64 : p < 64) by apply posf_lt.
    destruct (node_split bm sl p Hn) as [[Hb (l1 & l2 & -> & H1 & H2)]|[-> (l1 & e & l2 & -> & Hidx)]]; cbn [negb].
    - rewrite Hb. eexists. split; [reflexivity|]. intros v. split; [done|]. intros Hx. exfalso.
      apply (slots_keys f d pre) in Hx; [|done|done]. cbn in Hx. fold p in Hx. rewrite fmap_app, elem_of_app in Hx. destruct Hx as [Hx|Hx]; [apply H1 in Hx | apply H2 in Hx]; lia.
    - rewrite Hidx, es_lookup. apply Forall_app in Hf as [Hf1 Hf2]. apply Forall_cons in Hf2 as [He Hf2].
      assert (Hother : ∀ v, (k, v) ∈ flat (es (l1 ++ (p, e) :: l2)) ↔ (k, v) ∈ eflat e).
      { intros v. rewrite flat_mid. split; [|by left]. intros [?|Hx]; [done|]. exfalso.
        rewrite <- elem_of_app, <- flat_app, <- es_app in Hx. apply (slots_keys f d pre) in Hx; [|by apply Forall_app|done]. cbn in Hx. fold p in Hx.
        destruct Hn as (_ & Hs & _). apply sorted_nodup in Hs. rewrite !fmap_app in *. cbn [fmap list_fmap fst] in Hs. apply NoDup_app in Hs as (_ & Hd & Hs). apply NoDup_cons in Hs as [Hs _].
        rewrite elem_of_app in Hx. destruct Hx as [Hi|Hi]; [apply (Hd _ Hi), elem_of_list_here | done]. }
      setoid_rewrite Hother. destruct He as [_ He]. cbn [snd fst] in He. destruct e as [h' kvs|q bm' ch'].
      + destruct He as ((Hh64' & Hne' & Hnd' & Hkh') & Hp' & Hl'). destruct (N.eqb_spec h' (hf k)) as [E|Hneq]; cbn [negb].
        * eexists. split; [reflexivity|]. cbn [eflat]. by apply find_kv_spec.
        * eexists. split; [reflexivity|]. intros v. split; [done|]. cbn [eflat]. intros Hx. exfalso. by specialize (Hkh' _ Hx).
      + destruct He as (-> & Hw & Htwo). destruct (IH (S d) (pre + p * pw d) bm' ch' k) as (o & -> & Ho); [done | rewrite pw_S; nia | rewrite low_S; fold p; lia|].
        eexists. split; [reflexivity|]. intros v. by rewrite eflat_Bm.
  Qed.

  (* ---------- erase ---------- *)
  Lemma bn_erase_ok f : ∀ d pre bm ch k, wf f d pre bm ch → pre < pw d → low (hf k) d = pre →
    ∃ ok bm' ch', bn_erase f d (hf k) k bm ch = Ok (ok, bm', ch') ∧ wf f d pre bm' ch' ∧ (ok = true ↔ k ∈ (flat ch).*1) ∧
      ∀ x, x ∈ flat ch' ↔ x ∈ flat ch ∧ x.1 ≠ k.
  Proof.
    induction f as [|f IH]; intros d pre bm ch k; [done|].
    intros Hwf0. assert (Hwf1 := Hwf0). destruct Hwf1 as (sl & Hn & -> & Hf). intros Hpre Hlow. cbn [bn_erase]. unfold bitposf. rewrite !shiftl1, land_bit.
    set (p := posf (hf k) d) in *. assert (Hp64 : p < 64) by apply posf_lt.
    assert (Hnone : k ∉ (flat (es sl)).*1 → ∃ (ok : bool) bm' ch', Ok (false, bm, es sl) = Ok (ok, bm', ch') ∧ wf (S f) d pre bm' ch' ∧ (ok = true ↔ k ∈ (flat (es sl)).*1) ∧
      ∀ x, x ∈ flat ch' ↔ x ∈ flat (es sl) ∧ x.1 ≠ k).
    { intros Hk. eexists _, _, _. split_and!; [reflexivity | done | split; [done | intros ?; done] |].
      intros x. split; [|tauto]. intros Hx. split; [done|]. intros <-. apply Hk. by apply elem_of_list_fmap_1. }
    destruct (node_split bm sl p Hn) as [[Hb (l1 & l2 & -> & H1 & H2)]|[-> (l1 & e & l2 & -> & Hidx)]]; cbn [negb].
    - rewrite Hb. cbn [negb]. apply Hnone. intros Hx. apply elem_of_list_fmap in Hx as (x & -> & Hx).
      apply (slots_keys f d pre) in Hx; [|done|done]. fold p in Hx. rewrite fmap_app, elem_of_app in Hx. destruct Hx as [Hx|Hx]; [apply H1 in Hx | apply H2 in Hx]; lia.
    - rewrite Hidx, es_lookup. apply Forall_app in Hf as [Hf1 Hf2]. apply Forall_cons in Hf2 as [He Hf2].
      assert (Hother : ∀ x, x ∈ flat (es (l1 ++ l2)) → x.1 ≠ k).
      { intros x Hx Hxk. apply (slots_keys f d pre) in Hx; [|by apply Forall_app|done]. rewrite Hxk in Hx. fold p in Hx.
        destruct Hn as (_ & Hs & _). apply sorted_nodup in Hs. rewrite !fmap_app in *. cbn [fmap list_fmap fst] in Hs. apply NoDup_app in Hs as (_ & Hd & Hs). apply NoDup_cons in Hs as [Hs _].
        rewrite elem_of_app in Hx. destruct Hx as [Hi|Hi]; [apply (Hd _ Hi), elem_of_list_here | done]. }
      assert (Hin : k ∈ (flat (es (l1 ++ (p, e) :: l2))).*1 ↔ k ∈ (eflat e).*1).
      { rewrite !elem_of_list_fmap. split; intros (x & -> & Hx); exists x; split; try done; [|apply flat_mid; by left].
        apply flat_mid in Hx as [?|Hx]; [done|]. exfalso. rewrite <- elem_of_app, <- flat_app, <- es_app in Hx. by apply (Hother x). }
      assert (Hmid : ∀ e', (∀ x, x ∈ eflat e' ↔ x ∈ eflat e ∧ x.1 ≠ k) → ∀ x, x ∈ flat (es (l1 ++ (p, e') :: l2)) ↔ x ∈ flat (es (l1 ++ (p, e) :: l2)) ∧ x.1 ≠ k).
      { intros e' Hi x. rewrite !flat_mid, (Hi x). specialize (Hother x). rewrite es_app, flat_app, elem_of_app in Hother. tauto. }
      assert (Hwf : ∀ e', okslot (λ p, wf f (S d) (pre + p * pw d)) d pre (p, e') → wf (S f) d pre bm (es (l1 ++ (p, e') :: l2))).
      { intros e' He'. eexists. split_and!; [by eapply node_update | done |]. apply Forall_app; split; [done|]. by apply Forall_cons. }
      assert (Hpre' : pre + p * pw d < pw (S d)) by (rewrite pw_S; nia).
      destruct He as [_ He]. cbn [snd fst] in He. destruct e as [h' kvs|q bm' ch'].
      + destruct He as ((Hh64' & Hne' & Hnd' & Hkh') & Hp' & Hl'). destruct (N.eqb_spec h' (hf k)) as [E|Hneq]; cbn [negb].
        2:{ apply Hnone. rewrite Hin. cbn [eflat]. intros Hx. apply elem_of_list_fmap in Hx as (x & -> & Hx). by rewrite (Hkh' x Hx) in Hneq. }
        pose proof (unlink_spec k kvs Hnd') as Hu. destruct (unlink k kvs) as [kvs'|]; [|by apply Hnone; rewrite Hin].
        destruct Hu as (Hnd1 & Hk & Hu). destruct kvs' as [|y kvs'].
        * assert (Hn' := node_remove _ _ _ _ _ Hn).
          assert (Hlen : (length (es (l1 ++ (p, Kv h' kvs) :: l2)) - 1 = length l1 + length l2)%nat) by (rewrite es_length, app_length; cbn; lia).
          rewrite Hlen. rewrite replicate_add.
          replace (<[length l1:=None]> (es (l1 ++ (p, Kv h' kvs) :: l2))) with (es l1 ++ None :: es l2).
          2:{ rewrite es_app. change (es ((p, Kv h' kvs) :: l2)) with (Some (Kv h' kvs) :: es l2). rewrite <- (es_length l1). symmetry. apply insert_mid. }
          set (bm' := N.land bm _) in *.
          pose proof (place_all_seq bm' d l1 [] (replicate (length l1) None) (replicate (length l2) None)) as P1. cbn [app length] in P1.
          rewrite (place_some_all _ _ _ _ _ _ (P1 (replicate_length _ _) (node_positions bm' (λ p, wf f (S d) (pre + p * pw d)) d pre _ [] l1 l2 Hn' eq_refl Hf1))). cbn [place_some].
          pose proof (place_all_seq bm' d l2 (es l1) (replicate (length l2) None) []) as P2. rewrite !app_nil_r in P2.
          assert (P3 : place_some bm' d (es l2) (es l1 ++ replicate (length l2) None) = place_some bm' d [] (es l1 ++ es l2)).
          { rewrite <- (app_nil_r (es l2)) at 1. apply place_some_all. apply P2; [apply replicate_length|]. intros j x Hj. rewrite es_length. apply (node_positions bm' (λ p, wf f (S d) (pre + p * pw d)) d pre (l1 ++ l2) l1 l2 [] Hn'); [by rewrite app_nil_r | done | done]. }
          rewrite P3. cbn [place_some]. eexists _, _, _. split; [reflexivity|]. rewrite <- es_app. split_and!.
          -- eexists. split_and!; [exact Hn' | done|]. by apply Forall_app.
          -- rewrite Hin. done.
          -- intros x. rewrite flat_mid. cbn [eflat]. specialize (Hu x). specialize (Hother x). rewrite es_app, flat_app, elem_of_app in *.
             split; [intros Hx; split; [tauto | by apply Hother]|]. intros [[Hx|Hx] Hne]; [|done]. exfalso. apply (not_elem_of_nil x), Hu. done.
        * eexists _, _, _. split; [reflexivity|]. rewrite es_update. split_and!.
          -- apply Hwf. split; [done|]. cbn [snd fst]. split_and!; [|done|done]. split_and!; [done | done | done|]. intros x Hx. apply Hkh'. by apply Hu in Hx as [? _].
          -- rewrite Hin. done.
          -- apply Hmid. intros x. cbn [eflat]. apply Hu.
      + destruct He as (-> & Hw & Htwo). destruct (IH (S d) (pre + p * pw d) bm' ch' k) as (ok & bm2 & ch2 & -> & Hw2 & Hok & Hc); [done | done | rewrite low_S; fold p; lia|].
        rewrite eflat_Bm in Hin.
        assert (Hkeep : two_hashes (flat ch2) → ∃ (ok0 : bool) bm'0 ch'0, Ok (ok, bm, <[length l1:=Some (Bm p bm2 ch2)]> (es (l1 ++ (p, Bm p bm' ch') :: l2))) = Ok (ok0, bm'0, ch'0) ∧ wf (S f) d pre bm'0 ch'0 ∧
          (ok0 = true ↔ k ∈ (flat (es (l1 ++ (p, Bm p bm' ch') :: l2))).*1) ∧ ∀ x, x ∈ flat ch'0 ↔ x ∈ flat (es (l1 ++ (p, Bm p bm' ch') :: l2)) ∧ x.1 ≠ k).
        { intros H2h. eexists _, _, _. split; [reflexivity|]. rewrite es_update. split_and!; [apply Hwf; split; done | by rewrite Hin |].
          apply Hmid. intros x. rewrite !eflat_Bm. apply Hc. }
        destruct f as [|f]; [done|]. assert (Hw3 := Hw2). destruct Hw3 as (sl2 & Hn2 & -> & Hf2').
        (* after a removal, either one chain is left or two hashes are *)
        assert (Hshape : ok = false ∨ (∃ p2 h2 kvs2, sl2 = [(p2, Kv h2 kvs2)]) ∨ (two_hashes (flat (es sl2)) ∧ ∀ p2 h2 kvs2, sl2 ≠ [(p2, Kv h2 kvs2)])).
        { destruct sl2 as [|[p2 e2] sl2].
          - right. exfalso. destruct Htwo as (y & z & Hy & Hz & Hyz).
            assert (∀ y, y ∈ flat ch' → y.1 = k) as Hall.
            { intros x Hx. destruct (decide (x.1 = k)); [done|]. exfalso. apply (not_elem_of_nil x). apply (Hc x). done. }
            apply Hyz. by rewrite (Hall y Hy), (Hall z Hz).
          - assert (Hne2 : ∀ q e, (q, e) ∈ (p2, e2) :: sl2 → ∃ x, x ∈ eflat e ∧ posf (hf x.1) (S d) = q).
            { intros q e Hqe. rewrite Forall_forall in Hf2'. specialize (Hf2' _ Hqe).
              assert (∃ x, x ∈ eflat e) as [x Hx].
              { destruct Hf2' as [_ H]. destruct e as [h kvs|q' bmq chq]; cbn [snd fst] in H.
                - destruct H as ((_ & Hkn & _) & _). destruct kvs as [|x kvs]; [done|]. exists x. apply elem_of_list_here.
                - destruct H as (_ & _ & x & _ & Hx & _). exists x. by rewrite eflat_Bm. }
              exists x. split; [done|]. by destruct (slot_keys _ _ _ _ _ Hf2' Hpre' x Hx) as (? & _). }
            destruct sl2 as [|[p3 e3] sl2].
            + destruct e2 as [h2 kvs2|q2 bmq chq]; [right; left; by eexists _, _, _|]. right. right. split; [|done].
              apply Forall_cons in Hf2' as [[_ (_ & _ & Htwo2)] _]. cbn [es fmap list_fmap snd]. rewrite flat_cons, eflat_Bm. cbn [flat]. by rewrite app_nil_r.
            + right. right. split; [|done]. destruct (Hne2 p2 e2) as (x & Hx & Hpx); [apply elem_of_list_here|].
              destruct (Hne2 p3 e3) as (y & Hy & Hpy); [apply elem_of_list_further, elem_of_list_here|].
              exists x, y. cbn [es fmap list_fmap snd]. rewrite !flat_cons, !elem_of_app. split_and!; [tauto | tauto|]. intros Exy.
              destruct Hn2 as (_ & Hs2 & _). cbn [fmap list_fmap fst] in Hs2. apply StronglySorted_inv in Hs2 as [_ Hlt]. apply Forall_cons in Hlt as [Hlt _].
              rewrite <- Hpx, <- Hpy, Exy in Hlt. lia. }
        destruct Hshape as [->|[(p2 & h2 & kvs2 & ->)|[H2h Hnot]]].
        -- cbn [andb]. apply Hkeep. destruct Htwo as (y & z & Hy & Hz & Hyz).
           assert (Hall : ∀ y, y ∈ flat ch' → y ∈ flat (es sl2)).
           { intros x Hx. apply Hc. split; [done|]. intros <-. assert (false = true); [|done]. apply Hok. by apply elem_of_list_fmap_1. }
           exists y, z. split_and!; [by apply Hall | by apply Hall | done].
        -- apply Forall_cons in Hf2' as [[_ (Hc2 & Hp2 & Hl2)] _]. cbn [fst] in *.
           apply (low_S_inv _ _ _ p) in Hl2 as [Hl2 Hp2']; [|done].
           destruct ok; cbn [andb es fmap list_fmap length snd lookup list_lookup].
           ++ rewrite bool_decide_eq_true_2 by done. eexists _, _, _. split; [reflexivity|]. rewrite es_update. split_and!.
              ** apply Hwf. split; done.
              ** by rewrite Hin.
              ** apply Hmid. intros x. rewrite eflat_Bm, <- (Hc x). cbn [es fmap list_fmap flat eflat snd]. by rewrite app_nil_r.
           ++ apply Hkeep. destruct Htwo as (y & z & Hy & Hz & Hyz).
              assert (Hall : ∀ y, y ∈ flat ch' → y ∈ flat (es [(p2, Kv h2 kvs2)])).
              { intros x Hx. apply Hc. split; [done|]. intros <-. assert (false = true); [|done]. apply Hok. by apply elem_of_list_fmap_1. }
              exists y, z. split_and!; [by apply Hall | by apply Hall | done].
        -- destruct (ok && bool_decide (length (es sl2) = 1%nat)) eqn:E1; [|by apply Hkeep].
           apply andb_true_iff in E1 as [-> E1%bool_decide_eq_true]. rewrite es_length in E1.
           destruct sl2 as [|[p2 [h2 kvs2|]] [|]]; try done; [by specialize (Hnot p2 h2 kvs2)|]. by apply Hkeep.
  Qed.

  (* ---------- traversal ---------- *)
  (* whatever the visitor answers, it sees a part of the contents *)
  Lemma trav_kvs_sub {W} (vis : key → T → W → bool * W) l : ∀ w, ∃ l', l' `sublist_of` l ∧ (trav_kvs vis l w).2 = visit_all vis l' w ∧
    ((∀ k v w, (vis k v w).1 = true) → l' = l).
  Proof.
    induction l as [|[k v] l IH]; intros w; [by exists []|]. cbn [trav_kvs]. destruct ((vis k v w).1) eqn:E0.
    - destruct (IH (vis k v w).2) as (l' & Hs & E & Hall). exists ((k, v) :: l'). split_and!; [by constructor | exact E | intros Hv; by rewrite (Hall Hv)].
    - exists [(k, v)]. split_and!; [constructor; apply sublist_nil_l | done | intros Hv; by rewrite Hv in E0].
  Qed.
  Lemma trav_kvs_fst {W} (vis : key → T → W → bool * W) l : (∀ k v w, (vis k v w).1 = true) → ∀ w, (trav_kvs vis l w).1 = true.
  Proof. intros H. induction l as [|[k v] l IH]; intros w; [done|]. cbn [trav_kvs]. rewrite H. apply IH. Qed.
  Lemma bn_traversal_sub {W} (vis : key → T → W → bool * W) f : ∀ d pre bm ch w, wf f d pre bm ch →
    ∃ l', l' `sublist_of` flat ch ∧ bn_traversal vis f ch w = Ok (visit_all vis l' w) ∧ ((∀ k v w, (vis k v w).1 = true) → l' = flat ch).
  Proof.
    induction f as [|f IH]; intros d pre bm ch w; [done|]. intros (sl & _ & -> & Hf). cbn [bn_traversal].
    revert w. induction sl as [|[p e] sl IHsl]; intros w; [by exists []|].
    apply Forall_cons in Hf as [[_ He] Hf]. change (es ((p, e) :: sl)) with (Some e :: es sl). rewrite flat_cons.
    destruct e as [h kvs|q bm' ch']; cbn [snd fst] in He.
    - destruct (trav_kvs_sub vis kvs w) as (l1 & Hs1 & E1 & Ha1). pose proof (λ H, trav_kvs_fst vis kvs H w) as Ht. destruct (trav_kvs vis kvs w) as [[] w1]; cbn [fst snd] in *; subst w1.
      + destruct (IHsl Hf (visit_all vis l1 w)) as (l2 & Hs2 & E2 & Ha2). exists (l1 ++ l2). split_and!; [by apply sublist_app | | intros Hv; by rewrite (Ha1 Hv), (Ha2 Hv)].
        unfold visit_all in *. by rewrite foldl_app.
      + exists l1. split_and!; [by apply sublist_inserts_r | done | intros Hv; by specialize (Ht Hv)].
    - destruct He as (-> & Hw & Htwo). destruct (IH _ _ _ _ w Hw) as (l1 & Hs1 & -> & Ha1). rewrite eflat_Bm.
      destruct (IHsl Hf (visit_all vis l1 w)) as (l2 & Hs2 & E2 & Ha2). exists (l1 ++ l2). split_and!; [by apply sublist_app | | intros Hv; by rewrite (Ha1 Hv), (Ha2 Hv)].
      unfold visit_all in *. by rewrite foldl_app.
  Qed.
  Lemma visit_until_all {W} (vis : key → T → W → bool * W) l : (∀ k v w, (vis k v w).1 = true) → ∀ w, visit_until vis l w = visit_all vis l w.
  Proof. intros H. induction l as [|[k v] l IH]; intros w; [done|]. cbn [visit_until]. rewrite H. apply IH. Qed.
  Lemma trav_kvs_true {W} (vis : key → T → W → bool * W) l : (∀ k v w, (vis k v w).1 = true) → ∀ w, trav_kvs vis l w = (true, visit_until vis l w).
  Proof. intros H. induction l as [|[k v] l IH]; intros w; [done|]. cbn [trav_kvs visit_until]. rewrite H. apply IH. Qed.
  Lemma visit_app {W} (vis : key → T → W → bool * W) l1 l2 : (∀ k v w, (vis k v w).1 = true) → ∀ w, visit_until vis (l1 ++ l2) w = visit_until vis l2 (visit_until vis l1 w).
  Proof. intros H. induction l1 as [|[k v] l IH]; intros w; [done|]. cbn [app visit_until]. rewrite H. apply IH. Qed.
  Lemma bn_traversal_ok {W} (vis : key → T → W → bool * W) : (∀ k v w, (vis k v w).1 = true) → ∀ f d pre bm ch w, wf f d pre bm ch →
    bn_traversal vis f ch w = Ok (visit_until vis (flat ch) w).
  Proof.
    intros Hv f. induction f as [|f IH]; intros d pre bm ch w; [done|]. intros (sl & _ & -> & Hf). cbn [bn_traversal].
    revert w. induction sl as [|[p e] sl IHsl]; intros w; [done|].
    apply Forall_cons in Hf as [[_ He] Hf]. change (es ((p, e) :: sl)) with (Some e :: es sl). rewrite flat_cons, visit_app by done.
    destruct e as [h kvs|q bm' ch']; cbn [snd fst] in He.
    - rewrite trav_kvs_true by done. cbn [fst snd]. by apply IHsl.
    - destruct He as (-> & Hw & Htwo). rewrite (IH _ _ _ _ w Hw). rewrite eflat_Bm. by apply IHsl.
  Qed.
  (* without two hashes sharing their low six bits there are only chains *)
  Lemma wf_chains f d pre bm ch : wf f d pre bm ch → pre < pw d → (∀ x y, x ∈ flat ch → y ∈ flat ch → hf x.1 = hf y.1 ∨ posf (hf x.1) d ≠ posf (hf y.1) d) →
    ∀ x, x ∈ ch → ∃ h kvs, x = Some (Kv h kvs).
  Proof.
    destruct f as [|f]; [done|]. intros (sl & Hn & -> & Hf) Hpre Hno x Hx. apply elem_of_list_fmap in Hx as ([p e] & -> & Hx).
    rewrite Forall_forall in Hf. assert (He := Hf _ Hx). destruct e as [h kvs|q bm' ch']; [by eexists _, _|]. exfalso.
    pose proof (slot_keys _ _ _ _ _ He Hpre) as Hpos. destruct He as [_ (_ & _ & x & y & Hxc & Hyc & Hxy)]. cbn [snd fst] in *.
    rewrite eflat_Bm in Hpos. apply elem_of_list_split in Hx as (l1 & l2 & ->).
    destruct (Hno x y) as [?|Hne]; [apply flat_mid; left; by rewrite eflat_Bm | apply flat_mid; left; by rewrite eflat_Bm | done |].
    apply Hne. destruct (Hpos x Hxc) as (-> & _). by destruct (Hpos y Hyc) as (-> & _).
  Qed.
  Lemma trav_kvs_until {W} (vis : key → T → W → bool * W) l rest : ∀ w,
    visit_until vis (l ++ rest) w = (if (trav_kvs vis l w).1 then visit_until vis rest (trav_kvs vis l w).2 else (trav_kvs vis l w).2).
  Proof. induction l as [|[k v] l IH]; intros w; [done|]. cbn [app trav_kvs visit_until]. destruct (vis k v w) as [[] w']; cbn [fst snd]; [apply IH | done]. Qed.
  (* with chains only, traversal stops where the visitor says so *)
  Lemma bn_traversal_chains {W} (vis : key → T → W → bool * W) f ch w : (∀ x, x ∈ ch → ∃ h kvs, x = Some (Kv h kvs)) →
    bn_traversal vis (S f) ch w = Ok (visit_until vis (flat ch) w).
  Proof.
    intros H. cbn [bn_traversal]. revert w. induction ch as [|x ch IHch]; intros w; [done|].
    destruct (H x (elem_of_list_here _ _)) as (h & kvs & ->). rewrite flat_cons. cbn [eflat]. rewrite trav_kvs_until.
    destruct (trav_kvs vis kvs w) as [[] w'] eqn:E; cbn [fst snd]; [|done]. apply IHch. intros y Hy. apply H. by apply elem_of_list_further.
  Qed.
End proofs.
