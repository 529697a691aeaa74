(** C78 and C79: RbTree, Map, MultiMap, Set and MultiSet with a comparison function that need not be
    an order (AnyCmpSpec.v says what is left of their meaning), and what that gives for float keys
    ordered by OrderedTypeCmp, where a NaN is neither less than nor equal to anything. *)
From Verif Require Import Base Wp History RbModel RbTree RbRot RbIns RbIns2 RbDel RbNav RbDel2 RbSpec RbFind RbProps RbApi MapModel MapSpec MapProofs MapProps SetModel SetSpec SetProofs SetProps.
From Verif Require Import ComparatorModel ComparatorProps AnyCmpRb AnyCmpSpec AnyCmpMap AnyCmpSet AnyCmpAlg AnyCmpExt.
Open Scope Z_scope.
Open Scope go_scope.

(** iteration from First to the end meets these pairs (elements) in this order *)
Definition shows {K V} (s : rb K V) (l : list (K * V)) : Prop := ∃ ls, contents s ls ∧ ls.*2 = l.
Definition shows_set {T} (s : rb T bool) (l : list T) : Prop := ∃ ls, contents s ls ∧ ls.*2.*1 = l.

Lemma loosely_mono {S O A R} (step : O → M S R) allows panics (rel rel' : S → A → Prop) ops s a :
  (∀ s a, rel s a → rel' s a) → loosely step allows panics rel ops s a → loosely step allows panics rel' ops s a.
Proof. intros Hm. unfold loosely. destruct (run step ops s) as [[rs s']| |]; [|done|done]. intros (a' & H1 & H2). eauto. Qed.

Section tree.
  Context {K V : Type} (cmp : K → K → Z).
  Implicit Types (s : rb K V) (l : list (nat * (K * V))).
  Lemma reach_rbinv s : reach cmp s → ∃ t, rbinv s t.
  Proof using.
    induction 1 as [|s s' k v _ [t H] E1|s s' l a [k v] _ [t H] Hc Hin E1|s s' _ [t H] E1|s s' l a [k v] w _ [t H] Hc Hin E1|s s' _ [t H] E1].
    - exists E. apply rbinv_new.
    - destruct (ahd_insert cmp s t k v H) as (s1 & t1 & _ & _ & E2 & H1 & _). exists t1. congruence.
    - rewrite (contents_io s t l (ri_rep _ _ H) Hc) in Hin. apply in_split in Hin as (L & R & E2). destruct (delete_tinv triv triv_ok _ _ _ _ _ _ _ (triv_tinv _ _ H) E2) as (s1 & t1 & E3 & [H1 _] & _). exists t1. congruence.
    - cbn in E1. injection E1 as <-. by exists t.
    - rewrite (contents_io s t l (ri_rep _ _ H) Hc) in Hin. apply in_split in Hin as (L & R & E2). destruct (setval_tinv triv triv_ok _ _ _ _ _ _ _ w (triv_tinv _ _ H) E2) as (s1 & t1 & E3 & [H1 _] & _). exists t1. congruence.
    - destruct (clear_tinv triv triv_ok s) as (s1 & E2 & [H1 _] & _). exists E. congruence.
  Qed.
  (** whatever the comparison function answers, a tree built through the API stays a red-black tree:
      iteration ends, meets every node once, as many as Size says; IsRbTree is true; every way down
      is short *)
  Theorem tree_shape_any_comparator s : reach cmp s →
    ∃ l, contents s l ∧ NoDup l.*1 ∧ rb_Size s = Ok (Z.of_nat (length l), s) ∧ rb_IsRbTree s = Ok (true, s) ∧
      ∃ b, ∀ cs, path s (rb_root s) cs → head cs ≠ Some RED ∧ no_red_red cs ∧ blacks cs = b ∧ (2 ^ length cs <= (length l + 1) * (length l + 1))%nat.
  Proof using.
    intros [t H]%reach_rbinv. pose proof (ri_rep _ _ H) as Hp. exists (io t). split_and!; [by apply contents_ok|apply (rr_nodup _ _ Hp)| | |].
    - unfold rb_Size, get_size. by rewrite (ri_size _ _ H).
    - destruct (isrb_ok s t Hp) as (b & -> & Hb). by rewrite (proj2 Hb (ri_rbt _ _ H)).
    - destruct (ri_rbt _ _ H) as [n Hn]. exists n. rewrite (rr_root _ _ Hp). intros cs Hcs. destruct (path_rb s None t n BLACK cs (rr_rep _ _ Hp) Hn Hcs) as (H1 & H2 & H3 & H4). split_and!; [|done|done|].
      + destruct cs as [|c cs]; [done|]. by subst c.
      + pose proof (rbt_size _ _ _ Hn) as Hz. transitivity (2 ^ (n + n))%nat; [apply Nat.pow_le_mono_r; [lia|]; unfold BLACK in H4; lia|]. rewrite Nat.pow_add_r. by apply Nat.mul_le_mono.
  Qed.
  (** Insert always succeeds and puts the pair after an entry it does not compare less than and before
      one it compares less than; Delete of any node of the tree removes exactly its pair *)
  Theorem tree_insert_any_comparator s l k v : reach cmp s → contents s l → ∃ s' l' L R,
    rb_Insert cmp k v s = Ok (tt, s') ∧ contents s' l' ∧ l.*2 = L ++ R ∧ l'.*2 = L ++ (k, v) :: R ∧ between cmp k L.*1 R.*1.
  Proof using.
    intros [t H]%reach_rbinv Hc. rewrite (contents_io s t l (ri_rep _ _ H) Hc). destruct (ahd_insert cmp s t k v H) as (s' & t' & L & R & E1 & H1 & E2 & E3 & Hb). exists s', (io t'), L, R. split_and!; try done. apply contents_ok, (ri_rep _ _ H1).
  Qed.
  Theorem tree_delete_any_comparator s L a kv R : reach cmp s → contents s (L ++ (a, kv) :: R) → ∃ s' l',
    rb_Delete (Some a) s = Ok (tt, s') ∧ contents s' l' ∧ l'.*2 = L.*2 ++ R.*2.
  Proof using.
    intros [t H]%reach_rbinv Hc. pose proof (contents_io s t _ (ri_rep _ _ H) Hc) as E1. destruct (delete_step s t L ((a, kv) :: R) H (eq_sym E1)) as (s' & E2 & t' & H1 & E3). exists s', (io t'). split_and!; [done|apply contents_ok, (ri_rep _ _ H1)|done].
  Qed.
  (** a search returns, changes nothing, and gives nil or a node of the tree whose key compares as asked *)
  Theorem tree_searches_any_comparator s l k : reach cmp s → contents s l →
    let finds (P : K * V → Prop) (p : ptr) := match p with Some a => ∃ kv, (a, kv) ∈ l ∧ P kv | None => True end in
    (∃ p, rb_FindNode cmp k s = Ok (p, s) ∧ finds (λ kv, cmp kv.1 k = 0) p) ∧
    (∃ p, rb_FindLowerBoundNode cmp k s = Ok (p, s) ∧ finds (λ kv, cmp k kv.1 <= 0) p) ∧
    (∃ p, rb_FindUpperBoundNode cmp k s = Ok (p, s) ∧ finds (λ kv, cmp k kv.1 < 0) p).
  Proof using.
    intros [t H]%reach_rbinv Hc. rewrite (contents_io s t l (ri_rep _ _ H) Hc). split_and!; [apply findnode_any|apply lower_any|apply upper_any]; apply (ri_rep _ _ H).
  Qed.
End tree.

Section containers.
  Context {K V W : Type} (cmp : K → K → Z).
  Lemma aholds_shows (s : rb K V) (l : list (K * V)) : aholds s l → shows s l.
  Proof using. intros (t & H & <-). exists (io t). split; [apply contents_ok, (ri_rep _ _ H)|done]. Qed.
  Lemma seholds_shows (s : rb K bool) (l : list K) : seholds s l → shows_set s l.
  Proof using. intros (t & H & <-). exists (io t). split; [apply contents_ok, (ri_rep _ _ H)|done]. Qed.
  (** every history *)
  Theorem map_any_comparator (ops : list (map_op K V W)) : loosely (map_step cmp) (map_allows cmp) map_panics shows ops map_new [].
  Proof using. eapply loosely_mono; [apply aholds_shows|]. apply (loosely_run _ _ _ aholds); [apply map_any|apply aholds_new]. Qed.
  Theorem multimap_any_comparator (ops : list (map_op K V W)) : loosely (mm_step cmp) (mm_allows cmp) map_panics shows ops map_new [].
  Proof using. eapply loosely_mono; [apply aholds_shows|]. apply (loosely_run _ _ _ aholds); [apply mm_any|apply aholds_new]. Qed.
  Theorem set_any_comparator (ops : list (set_op K W)) : loosely (set_step cmp) (set_allows cmp) set_panics shows_set ops set_new [].
  Proof using. eapply loosely_mono; [apply seholds_shows|]. apply (loosely_run _ _ _ seholds); [apply set_any|apply seholds_new]. Qed.
  Theorem multiset_any_comparator (ops : list (set_op K W)) : loosely (ms_step cmp) (ms_allows cmp) set_panics shows_set ops set_new [].
  Proof using. eapply loosely_mono; [apply seholds_shows|]. apply (loosely_run _ _ _ seholds); [apply ms_any|apply seholds_new]. Qed.

  (** sets built by inserting and erasing *)
  Lemma built_holds (ops : list (set_op K W)) rs (s : rb K bool) : run (set_step cmp) ops set_new = Ok (rs, s) → ∃ l, seholds s l.
  Proof using.
    intros E1. pose proof (loosely_run (set_step cmp) (set_allows cmp) set_panics seholds (set_any (W := W) cmp) ops set_new [] seholds_new) as H. unfold loosely in H. rewrite E1 in H. destruct H as (l & _ & H). by exists l.
  Qed.
  Lemma shows_set_fun (s : rb K bool) (l l' : list K) : seholds s l → shows_set s l' → l' = l.
  Proof using. intros (t & H & <-) (ls & Hc & <-). by rewrite (contents_io s t ls (ri_rep _ _ H) Hc). Qed.
  (** Union, Intersect and Diff of two such sets return, leave both operands as they are, and only
      drop an element that compares equal to one of the other set (Intersect: only keep) *)
  Theorem set_algebra_any_comparator (ops1 ops2 : list (set_op K W)) rs1 rs2 (s o : rb K bool) (ls lo : list K) :
    run (set_step cmp) ops1 set_new = Ok (rs1, s) → run (set_step cmp) ops2 set_new = Ok (rs2, o) → shows_set s ls → shows_set o lo →
    (∃ n l kept dropped, set_Union cmp s o = Ok (tt, (s, o, n)) ∧ shows_set n l ∧ l ≡ₚ ls ++ kept ∧ lo ≡ₚ kept ++ dropped ∧ Forall (λ y, ∃ x, x ∈ ls ∧ cmp x y = 0) dropped) ∧
    (∃ n l dropped, set_Intersect cmp s o = Ok (tt, (s, o, n)) ∧ shows_set n l ∧ ls ≡ₚ l ++ dropped ∧ Forall (λ x, ∃ y, y ∈ lo ∧ cmp x y = 0) l) ∧
    (∃ n l dropped, set_Diff cmp s o = Ok (tt, (s, o, n)) ∧ shows_set n l ∧ ls ≡ₚ l ++ dropped ∧ Forall (λ x, ∃ y, y ∈ lo ∧ cmp x y = 0) dropped).
  Proof using.
    intros E1 E2 H1 H2. apply built_holds in E1 as [l1 S1]. apply built_holds in E2 as [l2 S2]. apply (shows_set_fun _ _ _ S1) in H1 as ->. apply (shows_set_fun _ _ _ S2) in H2 as ->.
    pose proof (union_any cmp _ _ _ _ S1 S2) as (n1 & u1 & k1 & d1 & ? & ?%seholds_shows & ?). pose proof (intersect_any cmp _ _ _ _ S1 S2) as (n2 & u2 & d2 & ? & ?%seholds_shows & ?). pose proof (diff_any cmp _ _ _ _ S1 S2) as (n3 & u3 & d3 & ? & ?%seholds_shows & ?).
    split_and!; [by exists n1, u1, k1, d1|by exists n2, u2, d2|by exists n3, u3, d3].
  Qed.

  (** the containers compare nothing but keys passed to them: two comparison functions that agree on
      those keys give the same results *)
  Theorem only_given_keys_compared (cmp' : K → K → Z) (P : K → Prop) : (∀ x y, P x → P y → cmp x y = cmp' x y) →
    (∀ ops : list (map_op K V W), Forall (λ o, Forall P (map_keys o)) ops → run (map_step cmp) ops map_new = run (map_step cmp') ops map_new ∧ run (mm_step cmp) ops map_new = run (mm_step cmp') ops map_new) ∧
    (∀ ops : list (set_op K W), Forall (λ o, Forall P (set_keys o)) ops → run (set_step cmp) ops set_new = run (set_step cmp') ops set_new ∧ run (ms_step cmp) ops set_new = run (ms_step cmp') ops set_new).
  Proof using. intros Hag. split; intros ops Hops; [by apply (map_run_ext cmp cmp' P)|by apply (set_run_ext cmp cmp' P)]. Qed.
End containers.
Print Assumptions tree_shape_any_comparator. Print Assumptions tree_insert_any_comparator. Print Assumptions tree_delete_any_comparator. Print Assumptions tree_searches_any_comparator.
Print Assumptions map_any_comparator. Print Assumptions multimap_any_comparator. Print Assumptions set_any_comparator. Print Assumptions multiset_any_comparator.
Print Assumptions set_algebra_any_comparator. Print Assumptions only_given_keys_compared.

(** float keys with the default comparator for ordered types *)
Section floats.
  Context {V W : Type} (F : format).
  Definition dflt : float → float → Z := OrderedTypeCmp (f_eqb F) (f_ltb F).
  Definition is_nan (x : float) : Prop := isNaN F x = true.
  Definition is_num (x : float) : Prop := isNaN F x = false.
  Lemma nan_ne x y : is_nan x → dflt x y ≠ 0 ∧ dflt y x ≠ 0.
  Proof using. unfold is_nan, dflt, OrderedTypeCmp, f_eqb, f_ltb. intros ->. cbn [negb andb]. rewrite andb_false_r. cbn [andb]. done. Qed.
  (** a NaN is never found, nor erased, and every Insert of one adds an entry *)
  Theorem nan_keys (k : float) (v : V) (l l' : list (float * V)) (r : map_res float V W) : is_nan k →
    (map_allows (W := W) dflt (MGet k) l r l' → r = ROpt None ∧ l' = l) ∧
    (map_allows (W := W) dflt (MContains k) l r l' → r = RBool false ∧ l' = l) ∧
    (map_allows (W := W) dflt (MErase k) l r l' → l' = l) ∧
    (map_allows (W := W) dflt (MInsert k v) l r l' → l' ≡ₚ (k, v) :: l).
  Proof using.
    intros Hk. assert (∀ (L R : list (float * V)), found (eq_key dflt k) l L R → R = []) as Hf. { intros L [|x R] [_ H]; [done|]. specialize (H x eq_refl). unfold eq_key in H. by destruct (proj2 (nan_ne k x.1 Hk)). }
    split_and!; cbn [map_allows searching map_searches].
    - intros [(L & R & H & ->) ->]. by rewrite (Hf _ _ H).
    - intros [(L & R & H & ->) ->]. by rewrite (Hf _ _ H).
    - intros [_ (L & R & H & ->)]. pose proof (Hf _ _ H) as ->. destruct H as [-> _]. by rewrite !app_nil_r.
    - intros [_ [(L & kv & R & -> & H & ->)|(L & R & -> & -> & _)]]; [|by rewrite Permutation_middle]. unfold eq_key in H. by destruct (proj2 (nan_ne k kv.1 Hk)).
  Qed.
  Lemma agree_num x y : is_num x → is_num y → dflt x y = FloatComparator F x y.
  Proof using. unfold is_num, dflt, OrderedTypeCmp, FloatComparator, f_eqb, f_ltb. intros -> ->. cbn [negb andb orb]. by rewrite !orb_false_r. Qed.
  (** C79 without NaN keys: each container gives the results of the finite map (bag, set) it denotes *)
  Theorem float_containers_partial (HF : F = float32 ∨ F = float64) :
    (∀ ops : list (map_op float V W), Forall (λ o, Forall is_num (map_keys o)) ops →
      match srun (map_spec (FloatComparator F)) ops [] with Some (rs, l) => ∃ s, run (map_step dflt) ops map_new = Ok (rs, s) | None => run (map_step dflt) ops map_new = Panic end) ∧
    (∀ ops : list (map_op float V W), Forall (λ o, Forall is_num (map_keys o)) ops →
      match srun (mm_spec (FloatComparator F)) ops [] with Some (rs, l) => ∃ s, run (mm_step dflt) ops map_new = Ok (rs, s) | None => run (mm_step dflt) ops map_new = Panic end) ∧
    (∀ ops : list (set_op float W), Forall (λ o, Forall is_num (set_keys o)) ops →
      match srun (set_spec (FloatComparator F)) ops [] with Some (rs, l) => ∃ s, run (set_step dflt) ops set_new = Ok (rs, s) | None => run (set_step dflt) ops set_new = Panic end) ∧
    (∀ ops : list (set_op float W), Forall (λ o, Forall is_num (set_keys o)) ops →
      match srun (ms_spec (FloatComparator F)) ops [] with Some (rs, l) => ∃ s, run (ms_step dflt) ops set_new = Ok (rs, s) | None => run (ms_step dflt) ops set_new = Panic end).
  Proof using.
    assert (CmpOK (FloatComparator F)) as HC by (destruct HF as [-> | ->]; apply builtin_comparators_ok).
    destruct (only_given_keys_compared (V := V) (W := W) dflt (FloatComparator F) is_num agree_num) as [H1 H2].
    split_and!; intros ops Hops.
    - rewrite (proj1 (H1 ops Hops)). by apply map_is_finite_map.
    - rewrite (proj2 (H1 ops Hops)). by apply multimap_is_ordered_bag.
    - rewrite (proj1 (H2 ops Hops)). apply set_is_finite_set; done.
    - rewrite (proj2 (H2 ops Hops)). by apply multiset_is_bag.
  Qed.
  (** C79 without NaN keys, said directly: Get gives the last value inserted under an equal key *)
  Theorem float_map_get_partial (HF : F = float32 ∨ F = float64) (ops : list (map_op float V W)) k rs s : Forall by_key ops → Forall (λ o, Forall is_num (map_keys o)) ops → is_num k →
    run (map_step dflt) (ops ++ [MGet k]) map_new = Ok (rs, s) → last rs = Some (ROpt (foldl (last_write (FloatComparator F) k) None ops)).
  Proof using.
    assert (CmpOK (FloatComparator F)) as HC by (destruct HF as [-> | ->]; apply builtin_comparators_ok).
    intros Hb Hn Hk. rewrite (proj1 (proj1 (only_given_keys_compared (V := V) (W := W) dflt (FloatComparator F) is_num agree_num) (ops ++ [MGet k]) ltac:(apply Forall_app; split; [done|by repeat constructor]))). by apply map_get_last_write.
  Qed.
End floats.
Definition f_nan : float := MkFloat false 2047 1.
Definition f_pos (n : Z) : float := MkFloat false n 0.
(** C79: false with a NaN.  5 and 7 and a NaN are inserted, nothing is erased: the map reports three
    entries and iterates over 5, but Get(5) does not find it, and inserting 5 again makes it occur twice. *)
Theorem inserted_float_found_refuted : ∃ k x y : float, f_wf float64 k ∧ f_wf float64 y ∧ isNaN float64 k = false ∧ isNaN float64 y = false ∧
  let ins := [MInsert k 1; MInsert x 2; MInsert y 3] : list (map_op float Z Z) in
  let m := map_step (dflt float64) in
  (∃ s, run m (ins ++ [MSize; MFwd 0; MGet k; MContains k]) map_new = Ok ([RUnit; RUnit; RUnit; RInt 3; REnt (Some (k, 1)); ROpt None; RBool false], s)) ∧
  (∃ s, run m (ins ++ [MInsert k 4; MSize; MErase k; MErase k; MSize; MFwd 0]) map_new = Ok ([RUnit; RUnit; RUnit; RUnit; RInt 4; RUnit; RUnit; RInt 3; REnt (Some (k, 1))], s)).
Proof.
  exists (f_pos 5), f_nan, (f_pos 7). do 2 (split; [unfold f_wf; cbn; lia|]); do 2 (split; [vm_compute; reflexivity|]); cbv zeta; split; eexists; vm_compute; reflexivity.
Qed.
Theorem inserted_float_in_set_refuted : ∃ k x y : float, isNaN float64 k = false ∧ isNaN float64 y = false ∧
  (∃ s, run (set_step (dflt float64)) ([SInsert k; SInsert x; SInsert y; SFwd 0; SContains k] : list (set_op float Z)) set_new = Ok ([QUnit; QUnit; QUnit; QElem (Some k); QBool false], s)).
Proof. exists (f_pos 5), f_nan, (f_pos 7). split_and!; [vm_compute; reflexivity|vm_compute; reflexivity|eexists; vm_compute; reflexivity]. Qed.
Print Assumptions nan_keys. Print Assumptions float_containers_partial. Print Assumptions float_map_get_partial. Print Assumptions inserted_float_found_refuted. Print Assumptions inserted_float_in_set_refuted.

(** a comparison function that is no order: everything is less than everything *)
Example mad_map : ∃ s, run (map_step (W := Z) (λ _ _ : Z, -1)) [MInsert 1 10; MInsert 2 20; MInsert 1 11; MSize; MGet 1; MFwd 0; MErase 2; MEraseAt 1; MSize] map_new
  = Ok ([RUnit; RUnit; RUnit; RInt 3; ROpt None; REnt (Some (1, 11)); RUnit; RUnit; RInt 2], s).
Proof. eexists. vm_compute. reflexivity. Qed.
Example mad_reach n : ∃ (s : rb Z Z) l, reach (λ _ _, -1) s ∧ contents s l ∧ length l = n.
Proof.
  induction n as [|n (s & l & Hr & Hc & Hl)]. { exists rb_new, []. split_and!; [constructor|exists None; split; [done|constructor]|done]. }
  destruct (tree_insert_any_comparator (λ _ _, -1) s l 0 0 Hr Hc) as (s' & l' & L & R & E1 & Hc' & E2 & E3 & _). exists s', l'. split_and!; [by eapply reach_insert|done|].
  apply (f_equal length) in E2, E3. rewrite app_length in E2, E3. rewrite fmap_length in E2, E3. cbn [length] in E3. lia.
Qed.
Example floats_no_nan : Forall (λ o : map_op float Z Z, Forall (is_num float64) (map_keys o)) [MInsert (f_pos 5) 1; MGet (f_pos 7); MSize]. Proof. by repeat constructor. Qed.
Example float_nan : is_nan float64 f_nan. Proof. done. Qed.
