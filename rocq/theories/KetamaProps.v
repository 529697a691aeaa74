(** Properties C53-C55 and C63: consistent hashing. *)
From Verif Require Import Base History RbModel MapModel KetamaModel KetamaSpec KetamaProofs.
Open Scope Z_scope.
Open Scope go_scope.

Section props.
  Context (h : bytes → bytes) (Hh : ∀ d, length (h d) = 64%nat) (replicas : Z) (Hr : 0 <= replicas).
  Implicit Types (s : rb BinNums.N bytes) (r : ring) (ops : list kt_op) (n : bytes).
  Notation ring_of ops := (foldl (after h replicas) (∅ : ring) ops).
  (** every history of a new ketama runs, each operation answering as the ring left by the
      operations before it demands *)
  Lemma run_ok ops : ∀ s r, kholds s r → ∃ rs s', run (kt_step h replicas) ops s = Ok (rs, s') ∧ kholds s' (foldl (after h replicas) r ops)
    ∧ length rs = length ops ∧ ∀ i o, ops !! i = Some o → ∃ a, rs !! i = Some a ∧ answer h (foldl (after h replicas) r (take i ops)) o a.
  Proof using Hh Hr.
    induction ops as [|o ops IH]; intros s r Hk; cbn [run foldl]; [exists [], s; split_and!; try done; intros i o Ho; by rewrite lookup_nil in Ho|].
    destruct (step_ok h Hh replicas Hr o s r Hk) as (a & s1 & -> & Ha & Hk1). destruct (IH s1 _ Hk1) as (rs & s' & -> & Hk' & Hl & Hi). exists (a :: rs), s'. split_and!; [done|done|cbn; by rewrite Hl|].
    intros [|i] o' Ho; [injection Ho as <-; by exists a|]. apply (Hi i o' Ho).
  Qed.
  Lemma take_points_lookup n ps r p : foldl (take_point n) r ps !! p = match r !! p with Some m => Some m | None => if decide (p ∈ ps) then Some n else None end.
  Proof using.
    clear. revert r. induction ps as [|q ps IH]; intros r; cbn [foldl]. { destruct (r !! p); [done|]. by rewrite decide_False by apply not_elem_of_nil. }
    rewrite IH. unfold take_point. destruct (decide (p = q)) as [->|Hne].
    - destruct (r !! q) as [m|] eqn:Eq; [by rewrite Eq|]. rewrite lookup_insert. by rewrite decide_True by by left.
    - assert ((if r !! q then r else <[q := n]> r) !! p = r !! p) as ->. { destruct (r !! q); [done|]. by rewrite lookup_insert_ne. } destruct (r !! p); [done|]. destruct (decide (p ∈ ps)); [by rewrite decide_True by by right|]. rewrite decide_False; [done|]. by rewrite not_elem_of_cons.
  Qed.
  Lemma drop_points_lookup n ps r p : foldl (drop_point n) r ps !! p = if decide (p ∈ ps ∧ r !! p = Some n) then None else r !! p.
  Proof using.
    clear. revert r. induction ps as [|q ps IH]; intros r; cbn [foldl]. { rewrite decide_False; [done|]. intros [Hp _]. by apply elem_of_nil in Hp. }
    rewrite IH. unfold drop_point. destruct (decide (r !! q = Some n)) as [Hq|Hq].
    - destruct (decide (p = q)) as [->|Hne].
      + rewrite lookup_delete. rewrite (decide_True (P := q ∈ q :: ps ∧ _)) by (split; [by left|done]). by rewrite decide_False by (intros [_ ?]; done).
      + rewrite lookup_delete_ne by done. destruct (decide (p ∈ ps ∧ r !! p = Some n)) as [[??]|Hn]; [rewrite decide_True; [done|]; split; [by right|done]|]. rewrite decide_False; [done|]. rewrite elem_of_cons. tauto.
    - destruct (decide (p ∈ ps ∧ r !! p = Some n)) as [[??]|Hn]; [rewrite decide_True; [done|]; split; [by right|done]|]. rewrite decide_False; [done|]. rewrite elem_of_cons. intros [[->|?] ?]; tauto.
  Qed.
  Lemma add_lookup n r p : add_node h replicas r n !! p = match r !! p with Some m => Some m | None => if decide (p ∈ points h replicas n) then Some n else None end.
  Proof using. apply take_points_lookup. Qed.
  Lemma remove_lookup n r p : remove_node h replicas r n !! p = if decide (p ∈ points h replicas n ∧ r !! p = Some n) then None else r !! p.
  Proof using. apply drop_points_lookup. Qed.
  (** points are owned by current nodes, each by one whose point it is *)
  Definition sound r (cur : list bytes) : Prop := ∀ p n, r !! p = Some n → p ∈ points h replicas n ∧ n ∈ cur.
  Lemma sound_step r cur o : sound r cur → sound (after h replicas r o) (current_after cur o).
  Proof using.
    clear. intros Hs. destruct o as [nodes|nodes|key|]; cbn; try done.
    - revert r cur Hs. induction nodes as [|n nodes IH]; intros r cur Hs; [done|]. cbn [foldl]. intros p m Hm. destruct (IH (add_node h replicas r n) (n :: cur)) with p m as [H1 H2]; [|done|split; [done|]; cbn; rewrite elem_of_app, elem_of_cons in H2; rewrite elem_of_cons, elem_of_app; tauto].
      intros q k. rewrite add_lookup. destruct (r !! q) as [k'|] eqn:Eq; [intros [= ->]; destruct (Hs q k Eq); split; [done|by right]|]. destruct (decide _) as [Hd|]; [|done]. intros [= ->]. split; [done|by left].
    - assert (∀ nodes r, sound r cur → sound (foldl (remove_node h replicas) r nodes) cur ∧ ∀ p n, foldl (remove_node h replicas) r nodes !! p = Some n → n ∉ nodes) as Hg.
      { clear. intros nodes. induction nodes as [|k nodes IH]; intros r Hs; cbn [foldl]; [split; [done|]; intros; apply not_elem_of_nil|].
        assert (sound (remove_node h replicas r k) cur) as Hs1. { intros p n. rewrite remove_lookup. destruct (decide _); [done|]. apply Hs. }
        destruct (IH _ Hs1) as [H1 H2]. split; [done|]. intros p n Hn. rewrite not_elem_of_cons. split; [|by eapply H2]. intros ->.
        assert (∀ nodes r, foldl (remove_node h replicas) r nodes !! p = Some k → r !! p = Some k) as Hback. { clear. intros nodes. induction nodes as [|m nodes IH]; intros r; cbn [foldl]; [done|]. intros H%IH. rewrite remove_lookup in H. by destruct (decide _). }
        apply Hback in Hn. rewrite remove_lookup in Hn. destruct (decide _) as [|Hd]; [done|]. apply Hd. split; [|done]. by apply (Hs p k). }
      destruct (Hg nodes r Hs) as [H1 H2]. intros p n Hn. destruct (H1 p n Hn). split; [done|]. apply elem_of_list_filter. split; [by eapply H2|done].
  Qed.
  Lemma sound_run ops : sound (ring_of ops) (current ops).
  Proof using.
    clear. unfold current. assert (∀ ops r cur, sound r cur → sound (foldl (after h replicas) r ops) (foldl current_after cur ops)) as Hg. { clear. intros ops. induction ops as [|o ops IH]; intros r cur Hs; [done|]. apply IH. by apply sound_step. }
    apply Hg. intros p n Hp. by rewrite lookup_empty in Hp.
  Qed.
  (** C53: every history runs without panicking; Get fails exactly when the ring is empty and
      otherwise names the owner of the first point at or clockwise after the key's hash; every
      owner of a point is a node added and not removed since *)
  Theorem ketama_get ops : ∃ rs s, run (kt_step h replicas) ops kt_new = Ok (rs, s) ∧ length rs = length ops ∧
    (∀ i o, ops !! i = Some o → ∃ a, rs !! i = Some a ∧ answer h (ring_of (take i ops)) o a) ∧
    (∀ i p n, ring_of (take i ops) !! p = Some n → p ∈ points h replicas n ∧ n ∈ current (take i ops)).
  Proof using Hh Hr.
    destruct (run_ok ops kt_new ∅ kholds_new) as (rs & s & E1 & _ & Hl & Hi). exists rs, s. split_and!; try done. intros i p n Hp. by apply (sound_run (take i ops)) in Hp.
  Qed.
  (** what Get answers after a history *)
  Definition get_after ops (key : bytes) (x : option bytes) : Prop := ∃ rs s, run (kt_step h replicas) (ops ++ [KGet key]) kt_new = Ok (rs, s) ∧ last rs = Some (KNode x).
  Lemma get_after_owner ops key x : get_after ops key x ↔ match x with None => ring_of ops = ∅ | Some n => owner (ring_of ops) (point h key 0) n end.
  Proof using Hh Hr.
    destruct (run_ok (ops ++ [KGet key]) kt_new ∅ kholds_new) as (rs & s & E1 & _ & Hl & Hi). destruct (Hi (length ops) (KGet key)) as (a & Ha & y & -> & Hy); [by rewrite lookup_app_r, Nat.sub_diag by lia|]. rewrite take_app in Hy.
    assert (last rs = Some (KNode y)) as El. { rewrite last_lookup, Hl, app_length. cbn. by replace (Init.Nat.pred (length ops + 1)) with (length ops) by lia. }
    split.
    - intros (rs' & s' & E2 & E3). rewrite E1 in E2. injection E2 as <- <-. rewrite El in E3. injection E3 as <-. done.
    - intros Hx. exists rs, s. split; [done|]. rewrite El. do 2 f_equal. destruct x as [n|], y as [m|]; try done.
      + f_equal. by eapply owner_unique.
      + destruct Hx as (p & Hp & _). rewrite Hy in Hp. by rewrite lookup_empty in Hp.
      + destruct Hy as (p & Hp & _). rewrite Hx in Hp. by rewrite lookup_empty in Hp.
  Qed.
  Lemma get_total ops key : ∃ x, get_after ops key x.
  Proof using Hh Hr.
    destruct (run_ok (ops ++ [KGet key]) kt_new ∅ kholds_new) as (rs & s & E1 & _ & Hl & Hi). destruct (Hi (length ops) (KGet key)) as (a & Ha & y & -> & Hy); [by rewrite lookup_app_r, Nat.sub_diag by lia|]. exists y, rs, s. split; [done|]. rewrite last_lookup, Hl, app_length. cbn. by replace (Init.Nat.pred (length ops + 1)) with (length ops) by lia.
  Qed.
  Theorem ketama_get_current ops key n : get_after ops key (Some n) → n ∈ current ops.
  Proof using Hh Hr. intros (p & Hp & _)%get_after_owner. by apply sound_run in Hp as [_ ?]. Qed.
  (** C54: adding a node redirects keys to that node only; removing one leaves alone the keys that
      were not mapped to it *)
  Theorem ketama_add_redirects_to_new ops n key x y : get_after ops key x → get_after (ops ++ [KAdd [n]]) key y → y = x ∨ y = Some n.
  Proof using Hh Hr.
    intros Hx%get_after_owner Hy%get_after_owner. rewrite foldl_app in Hy. cbn [foldl after] in Hy. set (r := ring_of ops) in *. set (q := point h key 0) in *.
    destruct y as [m|].
    - destruct (decide (m = n)) as [->|Hne]; [by right|]. left. destruct Hy as (p & Hp & Hor). rewrite add_lookup in Hp. destruct (r !! p) as [m'|] eqn:Ep; [injection Hp as ->|destruct (decide _); [by injection Hp as ->|done]].
      assert (∀ p', is_Some (r !! p') → is_Some (add_node h replicas r n !! p')) as Hsub. { intros p' [k Hk]. rewrite add_lookup, Hk. eauto. }
      destruct x as [k|].
      + f_equal. eapply owner_unique; [|exact Hx]. exists p. split; [done|]. destruct Hor as [[H1 H2]|[H1 H2]]; [left|right]; split; auto.
      + rewrite Hx in Ep. by rewrite lookup_empty in Ep.
    - left. destruct x as [k|]; [|done]. destruct Hx as (p & Hp & _). assert (add_node h replicas r n !! p = Some k) as He by by rewrite add_lookup, Hp. rewrite Hy in He. by rewrite lookup_empty in He.
  Qed.
  Theorem ketama_remove_keeps_others ops n key x y : get_after ops key x → get_after (ops ++ [KRemove [n]]) key y → x = Some n ∨ y = x.
  Proof using Hh Hr.
    intros Hx%get_after_owner Hy%get_after_owner. rewrite foldl_app in Hy. cbn [foldl after] in Hy. set (r := ring_of ops) in *. set (q := point h key 0) in *.
    assert (∀ p', is_Some (remove_node h replicas r n !! p') → is_Some (r !! p')) as Hsub. { intros p' [k Hk]. rewrite remove_lookup in Hk. destruct (decide _); [done|eauto]. }
    destruct x as [k|].
    - destruct (decide (k = n)) as [->|Hne]; [by left|]. right. destruct Hx as (p & Hp & Hor). assert (remove_node h replicas r n !! p = Some k) as Hp'. { rewrite remove_lookup, decide_False; [done|]. intros [_ H]. rewrite Hp in H. by injection H as ->. }
      destruct y as [m|].
      + f_equal. eapply owner_unique; [exact Hy|]. exists p. split; [done|]. destruct Hor as [[H1 H2]|[H1 H2]]; [left|right]; split; auto.
      + rewrite Hy in Hp'. by rewrite lookup_empty in Hp'.
    - right. destruct y as [m|]; [|done]. destruct Hy as (p & Hp & _). destruct (Hsub p) as [k Hk]; [eauto|]. rewrite Hx in Hk. by rewrite lookup_empty in Hk.
  Qed.
  (** C55, under the hypothesis that no two nodes ever mentioned share a point: the ring consists of
      the points of the current nodes, so Get depends on the set of current nodes only *)
  Lemma ring_exact ops (U : list bytes) : no_collision h replicas U → (∀ o n, o ∈ ops → n ∈ mentioned o → n ∈ U) → ∀ p n, ring_of ops !! p = Some n ↔ n ∈ current ops ∧ p ∈ points h replicas n.
  Proof using.
    clear. intros Hnc Hops. unfold current.
    assert (∀ ops r cur, (∀ o n, o ∈ ops → n ∈ mentioned o → n ∈ U) → (∀ n, n ∈ cur → n ∈ U) → (∀ p n, r !! p = Some n ↔ n ∈ cur ∧ p ∈ points h replicas n) → ∀ p n, foldl (after h replicas) r ops !! p = Some n ↔ n ∈ foldl current_after cur ops ∧ p ∈ points h replicas n) as Hg.
    2:{ apply Hg; [done|by intros ? ?%elem_of_nil|]. intros p n. rewrite lookup_empty. split; [done|]. by intros [?%elem_of_nil _]. }
    clear ops Hops. intros ops. induction ops as [|o ops IH]; intros r cur Hops Hcur Hex; [done|]. cbn [foldl]. apply IH.
    - intros o' n Ho'. apply Hops. by right.
    - intros n. destruct o as [nodes|nodes|key|]; cbn; try apply Hcur; [|by intros [_ ?]%elem_of_list_filter; apply Hcur]. rewrite elem_of_app. intros [Hn|Hn]; [|by apply Hcur]. by apply (Hops (KAdd nodes) n); [by left|].
    - assert (∀ n, n ∈ mentioned o → n ∈ U) as Ho by (intros n; apply Hops; by left). clear IH Hops. destruct o as [nodes|nodes|key|]; cbn [after current_after mentioned] in *; try done.
      + revert r cur Hcur Hex Ho. induction nodes as [|k nodes IHn]; intros r cur Hcur Hex Ho; [done|]. cbn [foldl]. intros p n. rewrite (IHn (add_node h replicas r k) (k :: cur)).
        * rewrite !elem_of_app, !elem_of_cons. tauto.
        * intros m [->|Hm]%elem_of_cons; [apply Ho; by left|by apply Hcur].
        * intros q m. rewrite add_lookup. destruct (r !! q) as [m'|] eqn:Eq.
          -- apply Hex in Eq as [H1 H2]. rewrite elem_of_cons. split; [intros [= ->]; split; [by right|done]|]. intros [[->|Hm] Hq]; f_equal; [apply (Hnc m' k q)|apply (Hnc m' m q)]; auto; apply Ho; by left.
          -- rewrite elem_of_cons. destruct (decide _) as [Hd|Hd].
             ++ split; [intros [= ->]; split; [by left|done]|]. intros [[->|Hm] Hq]; [done|]. assert (r !! q = Some m) by by apply Hex. congruence.
             ++ split; [done|]. intros [[->|Hm] Hq]; [done|]. assert (r !! q = Some m) by by apply Hex. congruence.
        * intros m Hm. apply Ho. by right.
      + clear Hcur Ho. intros p n.
        assert (∀ nodes r, (∀ p n, r !! p = Some n → p ∈ points h replicas n) → foldl (remove_node h replicas) r nodes !! p = Some n ↔ r !! p = Some n ∧ n ∉ nodes) as Hg.
        { clear. intros nodes. induction nodes as [|k nodes IH]; intros r Hs; cbn [foldl]; [split; [intros H; split; [done|apply not_elem_of_nil]|tauto]|]. rewrite IH.
          - rewrite remove_lookup, not_elem_of_cons. destruct (decide (p ∈ points h replicas k ∧ r !! p = Some k)) as [[Hd1 Hd2]|Hd]; [rewrite Hd2; split; [by intros [? _]|intros [[= ->] [? _]]; done]|]. split; [|tauto]. intros [H1 H2]. split_and!; [done| |done]. intros ->. apply Hd. split; [by apply Hs|done].
          - intros q m. rewrite remove_lookup. destruct (decide _); [done|apply Hs]. }
        rewrite Hg by (intros q m [_ ?]%Hex; done). rewrite Hex, elem_of_list_filter. tauto.
  Qed.
  Theorem ketama_order_irrelevant_partial ops1 ops2 key x : no_collision h replicas (concat (map mentioned (ops1 ++ ops2))) → (∀ n, n ∈ current ops1 ↔ n ∈ current ops2) → get_after ops1 key x → get_after ops2 key x.
  Proof using Hh Hr.
    intros Hnc Hcur. assert (∀ o n, o ∈ ops1 ++ ops2 → n ∈ mentioned o → n ∈ concat (map mentioned (ops1 ++ ops2))) as Hm. { intros o n Ho Hn. apply elem_of_list_In, in_concat. exists (mentioned o). split; [|by apply elem_of_list_In]. apply in_map. by apply elem_of_list_In. }
    assert (ring_of ops1 = ring_of ops2) as Heq; [|rewrite !get_after_owner; by rewrite Heq]. apply map_eq. intros p. apply option_eq. intros n. rewrite (ring_exact ops1 _ Hnc), (ring_exact ops2 _ Hnc); [by rewrite Hcur|..]; intros o m Ho; apply Hm; apply elem_of_app; [by right|by left].
  Qed.
  (** C63 *)
  Lemma points_8 n p : 8 <= replicas → p ∈ points h replicas n ↔ p ∈ points h 8 n.
  Proof using.
    clear. intros H8. unfold points. rewrite !elem_of_list_fmap. split; intros (i & -> & Hi).
    - exists (i mod 8)%nat. split; [|apply elem_of_seq; split; [lia|]; apply Nat.mod_upper_bound; lia]. unfold point. by rewrite Nat.mod_mod by lia.
    - exists i. split; [done|]. apply elem_of_seq in Hi. apply elem_of_seq. lia.
  Qed.
  Lemma ring_8 ops : 8 <= replicas → ring_of ops = foldl (after h 8) ∅ ops.
  Proof using.
    clear. intros H8. generalize (∅ : ring). assert (∀ r n, add_node h replicas r n = add_node h 8 r n) as Ha.
    { intros r n. apply map_eq. intros p. unfold add_node. rewrite !take_points_lookup. destruct (r !! p); [done|]. apply decide_ext. by apply points_8. }
    assert (∀ r n, remove_node h replicas r n = remove_node h 8 r n) as Hm.
    { intros r n. apply map_eq. intros p. unfold remove_node. rewrite !drop_points_lookup. apply decide_ext. by rewrite points_8. }
    induction ops as [|o ops IH]; intros r; [done|]. cbn [foldl]. rewrite IH. f_equal. destruct o as [nodes|nodes|key|]; cbn [after]; try done; revert r; induction nodes as [|n nodes IHn]; intros r; try done; cbn [foldl]; by rewrite ?Ha, ?Hm, IHn.
  Qed.
  (** the number of points in the ring, as the ring's map counts them *)
  Definition ring_size ops (c : Z) : Prop := ∃ rs s, run (kt_step h replicas) ops kt_new = Ok (rs, s) ∧ map_Size s = Ok (c, s).
  Lemma ring_size_exact ops c : ring_size ops c ↔ c = Z.of_nat (size (ring_of ops)).
  Proof using Hh Hr.
    destruct (run_ok ops kt_new ∅ kholds_new) as (rs & s & E1 & Hk & _). unfold ring_size. rewrite E1. apply k_size_exact in Hk. split.
    - intros (rs' & s' & [= <- <-] & E2). rewrite Hk in E2. by injection E2 as <-.
    - intros ->. by exists rs, s.
  Qed.
  Lemma one_node n : size (ring_of [KAdd [n]]) = size (list_to_set (points h replicas n) : gset BinNums.N).
  Proof using.
    clear. cbn [foldl after]. rewrite <-(size_dom (D := gset BinNums.N)). apply set_size_proper. intros p. rewrite elem_of_dom, elem_of_list_to_set, add_lookup, lookup_empty. destruct (decide _); split; try done; by intros [].
  Qed.
  Lemma size_list (l : list BinNums.N) : (size (list_to_set l : gset BinNums.N) <= length l)%nat.
  Proof using. clear. induction l as [|x l IH]; [done|]. rewrite list_to_set_cons, size_union_alt, size_singleton. cbn [length]. assert ((size ((list_to_set l : gset BinNums.N) ∖ {[x]}) <= size (list_to_set l : gset BinNums.N))%nat) by (apply subseteq_size; set_solver). lia. Qed.
  (** whatever the number of replicas, adding a node to an empty ring gives it at most 8 points *)
  Theorem ketama_points_at_most_8 n : ∃ c, ring_size [KAdd [n]] c ∧ c <= 8.
  Proof using Hh Hr.
    eexists. split; [by apply ring_size_exact|]. rewrite one_node.
    assert ((list_to_set (points h replicas n) : gset BinNums.N) ⊆ list_to_set (point h n <$> seq 0 8)) as Hsub.
    { intros p. rewrite !elem_of_list_to_set. unfold points. rewrite !elem_of_list_fmap. intros (i & -> & Hi). exists (i mod 8)%nat. split; [|apply elem_of_seq; split; [lia|]; apply Nat.mod_upper_bound; lia]. unfold point. by rewrite Nat.mod_mod by lia. }
    apply subseteq_size in Hsub. pose proof (size_list (point h n <$> seq 0 8)) as Hs. rewrite fmap_length, seq_length in Hs. lia.
  Qed.
  (** up to 8 replicas a node gets exactly the configured number of points unless its points collide *)
  Theorem ketama_replicas_partial n : replicas <= 8 → NoDup (points h replicas n) → ring_size [KAdd [n]] replicas.
  Proof using Hh Hr. intros H8 Hnd. apply ring_size_exact. rewrite one_node, size_list_to_set by done. unfold points. rewrite fmap_length, seq_length. lia. Qed.
End props.
Print Assumptions ketama_get. Print Assumptions ketama_get_current. Print Assumptions ketama_add_redirects_to_new. Print Assumptions ketama_remove_keeps_others.
Print Assumptions ketama_order_irrelevant_partial. Print Assumptions ketama_points_at_most_8. Print Assumptions ketama_replicas_partial.
(** more than 8 replicas make no observable difference: Get answers as with 8 *)
Theorem ketama_replicas_above_8_ignored h (Hh : ∀ d, length (h d) = 64%nat) replicas ops key x : 8 <= replicas → get_after h replicas ops key x ↔ get_after h 8 ops key x.
Proof. intros H8. rewrite (get_after_owner h Hh replicas), (get_after_owner h Hh 8) by lia. by rewrite (ring_8 h replicas ops H8). Qed.
Print Assumptions ketama_replicas_above_8_ignored.

(** a toy digest for the examples: the string without its salt, padded with its last byte counted up *)
Definition toy (d : bytes) : bytes := take 64 (drop 13 d ++ replicate 64 9%N).
Lemma toy_length d : length (toy d) = 64%nat.
Proof. unfold toy. rewrite take_length, app_length, replicate_length. lia. Qed.
Example toy_history : ∃ s, run (kt_step toy 2) [KEmpty; KGet [7]%N; KAdd [[1]; [5]]%N; KGet [0]%N; KGet [3]%N; KGet [8]%N; KRemove [[5]]%N; KGet [3]%N; KEmpty] kt_new
  = Ok ([KBool true; KNode None; KUnit; KNode (Some [1]%N); KNode (Some [5]%N); KNode (Some [1]%N); KUnit; KNode (Some [1]%N); KBool false], s).
Proof. eexists. by vm_compute. Qed.
(** no collision with one point per node *)
Example toy_no_collision : no_collision toy 1 [[1]; [5]]%N.
Proof. intros n1 n2 p H1 H2 P1 P2. vm_compute in P1, P2. repeat (apply elem_of_cons in H1 as [->|H1]); repeat (apply elem_of_cons in H2 as [->|H2]); try (by apply elem_of_nil in H1); try (by apply elem_of_nil in H2); try done; vm_compute in P1, P2; apply elem_of_list_singleton in P1, P2; subst; discriminate. Qed.
(** C55 is false when points collide: the node added second loses the point for good, even if the
    first is removed afterwards; the same current set gives a failing and a succeeding Get *)
Theorem ketama_order_irrelevant_refuted : ∃ h : bytes → bytes, (∀ d, length (h d) = 64%nat) ∧
  let a := [1]%N in let b := [2]%N in
  (∀ n, n ∈ current [KAdd [a]; KAdd [b]; KRemove [a]] ↔ n ∈ current [KAdd [b]]) ∧
  get_after h 10 [KAdd [a]; KAdd [b]; KRemove [a]] [3]%N None ∧ get_after h 10 [KAdd [b]] [3]%N (Some b).
Proof.
  exists (λ _, replicate 64 0%N). split; [done|]. cbn zeta. split_and!.
  - intros n. vm_compute. by vm_compute.
  - eexists _, _. split; [by vm_compute|done].
  - eexists _, _. split; [by vm_compute|done].
Qed.
Print Assumptions ketama_order_irrelevant_refuted.
(** C63 is false: the default 10 replicas never give 10 points *)
Theorem ketama_replicas_refuted h n c : (∀ d, length (h d) = 64%nat) → ring_size h defaultReplicas [KAdd [n]] c → c < defaultReplicas.
Proof. intros Hh. destruct (ketama_points_at_most_8 h Hh defaultReplicas ltac:(done) n) as (c' & H1 & H2). intros Hc. apply ring_size_exact in H1; [|done..]. apply ring_size_exact in Hc; [|done..]. assert (c = c') as -> by congruence. unfold defaultReplicas. lia. Qed.
Print Assumptions ketama_replicas_refuted.
(** with distinct words the toy ring of 8 replicas has 8 points, and so has that of 10 *)
Example toy_points : ∃ n, NoDup (points toy 8 n) ∧ ring_size toy 8 [KAdd [n]] 8 ∧ ring_size toy 10 [KAdd [n]] 8.
Proof.
  exists (N.of_nat <$> seq 0 64). assert (NoDup (points toy 8 (N.of_nat <$> seq 0 64))) as Hd by (apply (bool_decide_unpack _); by vm_compute).
  split_and!; [done|by apply (ketama_replicas_partial toy toy_length 8 ltac:(done) _ ltac:(done))|]. apply (ring_size_exact toy toy_length 10 ltac:(done)). by vm_compute.
Qed.
(** a negative number of replicas makes Add panic *)
Theorem ketama_negative_replicas h r n s : r < 0 → kt_Add h r [n] s = Panic.
Proof. intros H. cbn [kt_Add]. unfold mbind_, ints. assert (BloomModel.gen_hash_ints h (ksalt ++ n) r = Panic) as ->; [|done]. unfold BloomModel.gen_hash_ints. destruct r; try lia. cbn. done. Qed.
Print Assumptions ketama_negative_replicas.
