(** Properties C27, C28, C29, C30 and the tree level of C36, C37. *)
From Verif Require Import Base Wp RbModel RbTree RbRot RbIns RbIns2 RbDel RbNav RbDel2 RbSpec RbFind.
Open Scope Z_scope.

Section reach.
  Context {K V : Type} (cmp : K → K → Z) (CO : CmpOK cmp).
  Implicit Types (s : rb K V) (t : tree K V) (l : list (nat * (K * V))).
  Definition tinv s t : Prop := rbinv s t ∧ StronglySorted (kle cmp) (io t).
  Lemma insert_tinv s t k v : tinv s t → ∃ s' t' L R, rb_Insert cmp k v s = Ok (tt, s') ∧ tinv s' t' ∧ io t = L ++ R ∧ io t' = L ++ (rb_next s, (k, v)) :: R ∧ rb_next s' = S (rb_next s)
    ∧ (∀ x, x ∈ L → cmp x.2.1 k <= 0) ∧ (∀ x, x ∈ R → cmp k x.2.1 < 0).
  Proof using CO.
    intros [H Hs]. pose proof (insert_ok cmp CO s t k v H Hs) as Hw. apply wp_Ok in Hw as (p & s' & E1 & t' & L & R & -> & H' & Hn & E2 & E3 & HL & HR).
    exists s', t', L, R. assert (∀ x, x ∈ L → cmp x.2.1 k <= 0) as HL'. { intros x Hx. apply cmp_flip_le; [done|]. by apply HL. }
    split_and!; try done; [unfold rb_Insert, mbind_; by rewrite E1|]. split; [done|]. rewrite E3. rewrite E2 in Hs. apply SS_app in Hs as (S1 & S2 & S3). apply SS_app. split_and!; [done| |].
    - apply SS_cons. split; [done|]. intros x Hx. unfold kle. cbn. specialize (HR x Hx). lia.
    - intros x y Hx [->|Hy]%elem_of_cons; [by apply HL'|by apply S3].
  Qed.
  Lemma delete_tinv s t L R a k v : tinv s t → io t = L ++ (a, (k, v)) :: R → ∃ s' t', rb_Delete (Some a) s = Ok (tt, s') ∧ tinv s' t' ∧ rb_next s' = rb_next s ∧
     (io t' = L ++ R ∨ ∃ y kv R', R = (y, kv) :: R' ∧ io t' = L ++ (a, kv) :: R').
  Proof using CO.
    intros [H Hs] E1. pose proof (delete_ok s t L R a k v H E1) as Hw. apply wp_Ok in Hw as ([] & s' & E2 & t' & H' & Hn & Hd). exists s', t'. rewrite E1 in Hs. apply SS_app in Hs as (S1 & S2 & S3). apply SS_cons in S2 as [S2 S4].
    split_and!; try done; [|destruct Hd as [Hd|(y & ky & vy & R' & -> & Hd)]; [by left|right; by exists y, (ky, vy), R']].
    split; [done|]. destruct Hd as [Hd|(y & ky & vy & R' & -> & Hd)]; rewrite Hd.
    - apply SS_app. split_and!; [done|done|]. intros x z Hx Hz. apply S3; [done|by right].
    - apply SS_cons in S2 as [S2 S5]. apply SS_app. split_and!; [done|apply SS_cons; split; [done|]; intros z Hz; by apply (S5 z Hz)|].
      intros x z Hx [->|Hz]%elem_of_cons; [|apply S3; [done|by right; right]]. apply (S3 x (y, (ky, vy)) Hx). right. by left.
  Qed.
  Lemma setval_tinv s t L R a k v w : tinv s t → io t = L ++ (a, (k, v)) :: R → ∃ s' t', set_value (Some a) w s = Ok (tt, s') ∧ tinv s' t' ∧ rb_next s' = rb_next s ∧ io t' = L ++ (a, (k, w)) :: R.
  Proof using CO.
    intros [H Hs] E1. pose proof (setval_ok s t L R a k v w H E1) as Hw. apply wp_Ok in Hw as ([] & s' & E2 & t' & H' & Hn & Hd). exists s', t'. split_and!; try done. split; [done|]. rewrite Hd. rewrite E1 in Hs.
    apply SS_app in Hs as (S1 & S2 & S3). apply SS_cons in S2 as [S2 S4]. apply SS_app. split_and!; [done|apply SS_cons; split; [done|]; intros z Hz; by apply (S4 z Hz)|].
    intros x z Hx [->|Hz]%elem_of_cons; [|apply S3; [done|by right]]. apply (S3 x (a, (k, v)) Hx). by left.
  Qed.
  Lemma clear_tinv s : ∃ s', rb_Clear s = Ok (tt, s') ∧ tinv s' E ∧ rb_next s' = rb_next s.
  Proof using CO. pose proof (clear_ok s) as Hw. apply wp_Ok in Hw as ([] & s' & E2 & H' & Hn). exists s'. split_and!; try done. split; [done|constructor]. Qed.
  Lemma tinv_new : tinv rb_new E. Proof using CO. split; [apply rbinv_new|constructor]. Qed.
  Lemma in_split l a kv : (a, kv) ∈ l → ∃ L R, l = L ++ (a, kv) :: R. Proof using. clear cmp CO. intros H. apply elem_of_list_split in H as (L & R & ->). by exists L, R. Qed.
  Lemma reach_tinv s : reach cmp s → ∃ t, tinv s t.
  Proof using CO.
    induction 1 as [|s s' k v _ [t H] E1|s s' l a [k v] _ [t H] Hc Hin E1|s s' _ [t H] E1|s s' l a [k v] w _ [t H] Hc Hin E1|s s' _ [t H] E1].
    - exists E. apply tinv_new.
    - destruct (insert_tinv s t k v H) as (s1 & t1 & _ & _ & E2 & H1 & _). exists t1. congruence.
    - rewrite (contents_io s t l (ri_rep _ _ (proj1 H)) Hc) in Hin. apply in_split in Hin as (L & R & E2). destruct (delete_tinv _ _ _ _ _ _ _ H E2) as (s1 & t1 & E3 & H1 & _). exists t1. congruence.
    - cbn in E1. injection E1 as <-. by exists t.
    - rewrite (contents_io s t l (ri_rep _ _ (proj1 H)) Hc) in Hin. apply in_split in Hin as (L & R & E2). destruct (setval_tinv _ _ _ _ _ _ _ w H E2) as (s1 & t1 & E3 & H1 & _). exists t1. congruence.
    - destruct (clear_tinv s) as (s1 & E2 & H1 & _). exists E. congruence.
  Qed.
  Lemma open s l : reach cmp s → contents s l → ∃ t, tinv s t ∧ l = io t ∧ rbrep s t.
  Proof using CO. intros Hr Hc. destruct (reach_tinv s Hr) as [t H]. exists t. pose proof (ri_rep _ _ (proj1 H)) as Hp. split_and!; [done|by eapply contents_io|done]. Qed.
  Lemma kle_sorted l : StronglySorted (kle cmp) l ↔ sorted cmp l.*2.
  Proof using. clear CO. unfold sorted. induction l as [|x l IH]; cbn; [split; constructor|]. rewrite !SS_cons, IH. split; intros [H1 H2]; split; try done.
    - intros y (z & -> & Hz)%elem_of_list_fmap. by apply H2. - intros y Hy. apply (H2 y.2). apply elem_of_list_fmap. eauto. Qed.
  Lemma mk_contents s t : tinv s t → contents s (io t). Proof using. intros [[H _ _] _]. by apply contents_ok. Qed.

  (** C27 *)
  (** Iteration ends; it meets sorted pairs at distinct nodes; Size counts them. *)
  Theorem tree_contents s : reach cmp s → ∃ l, contents s l ∧ sorted cmp l.*2 ∧ NoDup l.*1 ∧ rb_Size s = Ok (Z.of_nat (length l), s) ∧ rb_Empty s = Ok (bool_decide (l = []), s).
  Proof using CO.
    intros [t H]%reach_tinv. exists (io t). split_and!; [by apply mk_contents|apply kle_sorted, H|apply (rr_nodup _ _ (ri_rep _ _ (proj1 H)))| |]; destruct H as [[H1 H2 H3] _].
    - unfold rb_Size, get_size. by rewrite H3.
    - unfold rb_Empty, mbind_, get_size, mret_. rewrite H3. repeat f_equal. destruct (io t); [done|]. rewrite bool_decide_eq_false_2 by done. cbn [length]. lia.
  Qed.
  Theorem tree_insert s l k v : reach cmp s → contents s l → ∃ s' L a R, rb_Insert cmp k v s = Ok (tt, s') ∧ l = L ++ R ∧ contents s' (L ++ (a, (k, v)) :: R) ∧ a ∉ l.*1
    ∧ (∀ x, x ∈ L → cmp x.2.1 k <= 0) ∧ (∀ x, x ∈ R → cmp k x.2.1 < 0).
  Proof using CO.
    intros Hr Hc. destruct (open _ _ Hr Hc) as (t & H & -> & Hp). destruct (insert_tinv s t k v H) as (s' & t' & L & R & E1 & H' & E2 & E3 & _ & HL & HR).
    exists s', L, (rb_next s), R. split_and!; try done; [rewrite <-E3; by apply mk_contents|]. intros Hi. pose proof (rr_lt _ _ Hp) as F. rewrite Forall_forall in F. specialize (F _ Hi). lia.
  Qed.
  Theorem tree_delete s L a k v R : reach cmp s → contents s (L ++ (a, (k, v)) :: R) → ∃ s' l', rb_Delete (Some a) s = Ok (tt, s') ∧ contents s' l' ∧ l'.*2 = L.*2 ++ R.*2.
  Proof using CO.
    intros Hr Hc. destruct (open _ _ Hr Hc) as (t & H & E1 & Hp). destruct (delete_tinv s t L R a k v H (eq_sym E1)) as (s' & t' & E2 & H' & _ & Hd). exists s', (io t'). split_and!; [done|by apply mk_contents|].
    destruct Hd as [->|(y & kv & R' & -> & ->)]; by rewrite !fmap_app.
  Qed.
  Theorem tree_delete_nil s : reach cmp s → rb_Delete None s = Ok (tt, s).
  Proof using. done. Qed.
  Theorem tree_set_value s L a k v R w : reach cmp s → contents s (L ++ (a, (k, v)) :: R) → ∃ s', set_value (Some a) w s = Ok (tt, s') ∧ contents s' (L ++ (a, (k, w)) :: R).
  Proof using CO.
    intros Hr Hc. destruct (open _ _ Hr Hc) as (t & H & E1 & Hp). destruct (setval_tinv s t L R a k v w H (eq_sym E1)) as (s' & t' & E2 & H' & _ & <-). exists s'. split; [done|by apply mk_contents].
  Qed.
  Theorem tree_clear s : reach cmp s → ∃ s', rb_Clear s = Ok (tt, s') ∧ contents s' [].
  Proof using CO. intros Hr. destruct (clear_tinv s) as (s' & E1 & H & _). exists s'. split; [done|]. by apply (mk_contents s' E). Qed.

  (** C28 *)
  (** the nodes linked from the root *)
  Inductive below s : ptr → Prop :=
  | below_root : below s (rb_root s)
  | below_left a n : below s (Some a) → rb_heap s !! a = Some n → below s (n_left n)
  | below_right a n : below s (Some a) → rb_heap s !! a = Some n → below s (n_right n).
  Lemma below_sub s t q : rbrep s t → below s q → ∃ ctx t', t = plug ctx t' ∧ q = rootp t'.
  Proof using.
    intros H. induction 1 as [|a n _ (ctx & t' & -> & E1) Ha|a n _ (ctx & t' & -> & E1) Ha].
    - exists [], t. split; [done|]. by apply (rr_root _ _ H).
    - destruct t' as [|l b c k v r]; [done|]. injection E1 as ->. exists (FL b c k v r :: ctx), l. split; [done|]. pose proof (foc_get _ _ _ _ _ _ _ _ H) as G. unfold get in G. rewrite Ha in G. by injection G as ->.
    - destruct t' as [|l b c k v r]; [done|]. injection E1 as ->. exists (FR l b c k v :: ctx), r. split; [done|]. pose proof (foc_get _ _ _ _ _ _ _ _ H) as G. unfold get in G. rewrite Ha in G. by injection G as ->.
  Qed.
  Lemma plug_below s ctx t' : rbrep s (plug ctx t') → below s (rootp t').
  Proof using.
    revert t'. induction ctx as [|[a c k v r|l a c k v] ctx IH]; intros t' H.
    - cbn in H. rewrite <-(rr_root _ _ H). constructor.
    - pose proof (IH _ H) as Hb. cbn in Hb. pose proof (foc_get s ctx _ _ _ _ _ _ H) as G. unfold get in G. destruct (rb_heap s !! a) as [n|] eqn:Ea; [|done]. injection G as ->. by apply (below_left s a _ Hb Ea).
    - pose proof (IH _ H) as Hb. cbn in Hb. pose proof (foc_get s ctx _ _ _ _ _ _ H) as G. unfold get in G. destruct (rb_heap s !! a) as [n|] eqn:Ea; [|done]. injection G as ->. by apply (below_right s a _ Hb Ea).
  Qed.
  (** the nodes linked from the root are those of the iteration *)
  Theorem tree_links s l : reach cmp s → contents s l → ∀ a, a ∈ l.*1 ↔ below s (Some a).
  Proof using CO.
    intros Hr Hc a. destruct (open _ _ Hr Hc) as (t & H & -> & Hp). split.
    - intros ([b [k v]] & E1 & (L & R & E2)%in_split)%elem_of_list_fmap. cbn in E1. subst b. destruct (locate _ _ _ _ _ _ E2) as (ctx & l' & c & r & -> & _ & _). by apply (plug_below s ctx _ Hp).
    - intros Hb. destruct (below_sub s t _ Hp Hb) as (ctx & t' & -> & E1). symmetry in E1. apply rootp_in in E1. change ((io (plug ctx t')).*1) with (ads (plug ctx t')). rewrite ads_plug. apply elem_of_app. by right.
  Qed.
  Lemma path_ex s par t : rep (rb_heap s) par t → ∃ cs, path s (rootp t) cs.
  Proof using. revert par. induction t as [|l IHl a c k v r IHr]; intros par; [intros _; exists []; constructor|]. intros (Ha & Hl & Hr). destruct (IHl _ Hl) as [cs Hcs]. exists (c :: cs). apply (path_node s a _ (rootp l) cs Ha); [by left|done]. Qed.
  (** every way down from the root ends at nil, starts black, has no two reds in a row, meets the same number of blacks, and is short *)
  Theorem tree_balanced s l : reach cmp s → contents s l → ∃ b, (∃ cs, path s (rb_root s) cs) ∧ ∀ cs, path s (rb_root s) cs →
    head cs ≠ Some RED ∧ no_red_red cs ∧ blacks cs = b ∧ (2 ^ length cs <= (length l + 1) * (length l + 1))%nat.
  Proof using CO.
    intros Hr Hc. destruct (open _ _ Hr Hc) as (t & H & -> & Hp). destruct (ri_rbt _ _ (proj1 H)) as [n Hn]. exists n. rewrite (rr_root _ _ Hp). split; [eapply path_ex, Hp|]. intros cs Hcs.
    destruct (path_rb s None t n BLACK cs (rr_rep _ _ Hp) Hn Hcs) as (H1 & H2 & H3 & H4). split_and!; [|done|done|].
    - destruct cs as [|c cs]; [done|]. by subst c.
    - pose proof (rbt_size _ _ _ Hn) as Hz. transitivity (2 ^ (n + n))%nat; [apply Nat.pow_le_mono_r; [lia|]; unfold BLACK in H4; lia|]. rewrite Nat.pow_add_r. by apply Nat.mul_le_mono.
  Qed.
  Theorem tree_IsRbTree s : reach cmp s → rb_IsRbTree s = Ok (true, s).
  Proof using CO. intros [t H]%reach_tinv. destruct (isrb_ok s t (ri_rep _ _ (proj1 H))) as (b & -> & Hb). by rewrite (proj2 Hb (ri_rbt _ _ (proj1 H))). Qed.

  (** C29 *)
  Theorem tree_FindNode s l k : reach cmp s → contents s l → ∃ p, rb_FindNode cmp k s = Ok (p, s) ∧ first_match (λ kv, cmp k kv.1 = 0) l p.
  Proof using CO. intros Hr Hc. destruct (open _ _ Hr Hc) as (t & H & -> & Hp). apply findnode_ok; [done|done|apply H]. Qed.
  Theorem tree_FindLowerBoundNode s l k : reach cmp s → contents s l → ∃ p, rb_FindLowerBoundNode cmp k s = Ok (p, s) ∧ first_match (λ kv, cmp k kv.1 <= 0) l p.
  Proof using CO. intros Hr Hc. destruct (open _ _ Hr Hc) as (t & H & -> & Hp). apply lower_ok; [done|done|apply H]. Qed.
  Theorem tree_FindUpperBoundNode s l k : reach cmp s → contents s l → ∃ p, rb_FindUpperBoundNode cmp k s = Ok (p, s) ∧ first_match (λ kv, cmp k kv.1 < 0) l p.
  Proof using CO. intros Hr Hc. destruct (open _ _ Hr Hc) as (t & H & -> & Hp). apply upper_ok; [done|done|apply H]. Qed.
  Theorem tree_Find s l k : reach cmp s → contents s l → ∃ o, rb_Find cmp k s = Ok (o, s) ∧
    match o with Some v => ∃ L k' R, l.*2 = L ++ (k', v) :: R ∧ cmp k k' = 0 ∧ Forall (λ kv, cmp k kv.1 ≠ 0) L | None => Forall (λ kv, cmp k kv.1 ≠ 0) l.*2 end.
  Proof using CO.
    intros Hr Hc. destruct (open _ _ Hr Hc) as (t & H & -> & Hp). destruct (findnode_ok cmp CO k t s Hp (proj2 H)) as (p & E1 & Hm). unfold rb_Find, mbind_. rewrite E1. destruct p as [a|].
    - destruct Hm as (L & [k' v] & R & E2 & HP & HL). rewrite (value_ok _ _ _ _ _ _ _ Hp E2). exists (Some v). split; [done|]. exists L.*2, k', R.*2. rewrite E2, fmap_app. split_and!; [done|done|by apply Forall_fmap].
    - exists None. split; [done|]. by apply Forall_fmap.
  Qed.
  (** the unexported findNode: some node with an equal key, if there is one *)
  Theorem tree_findNode s l k : reach cmp s → contents s l → ∃ p, rb_find_node cmp k s = Ok (p, s) ∧
    match p with Some a => ∃ kv, (a, kv) ∈ l ∧ cmp k kv.1 = 0 | None => ∀ x, x ∈ l → cmp k x.2.1 ≠ 0 end.
  Proof using CO.
    intros Hr Hc. destruct (open _ _ Hr Hc) as (t & H & -> & Hp). unfold rb_find_node, mbind_, get_root, fuel. rewrite (rr_root _ _ Hp). pose proof (count_ok _ _ Hp). apply (find_any_ok cmp CO _ _ []); [done|apply H|lia].
  Qed.

  (** C30 *)
  Theorem tree_backward s l : reach cmp s → contents s l → ∃ p, rb_Last s = Ok (p, s) ∧ rchain s p (reverse l).
  Proof using CO. intros Hr Hc. destruct (open _ _ Hr Hc) as (t & H & -> & Hp). eexists. split; [by apply last_ok|]. eapply (rchain_ok s t (io t) []); [done|by rewrite app_nil_r]. Qed.
  Theorem tree_next_prev s l L R a kv : reach cmp s → contents s l → l = L ++ (a, kv) :: R →
    it_Next (Some a) s = Ok (fst <$> head R, s) ∧ it_Prev (Some a) s = Ok (fst <$> last L, s) ∧ it_Key (Some a) s = Ok (kv.1, s) ∧ it_Value (Some a) s = Ok (kv.2, s).
  Proof using CO.
    intros Hr Hc E1. destruct (open _ _ Hr Hc) as (t & H & -> & Hp). destruct kv as [k v]. unfold it_Next, it_Prev, it_Key, it_Value, it_IsValid. cbn.
    split_and!; [by eapply next_ok|by eapply prev_ok|by eapply key_ok|by eapply value_ok].
  Qed.
  (** an iterator that ran off the end is invalid and stays so *)
  Theorem tree_iter_end s : it_IsValid None = false ∧ it_Next None s = Ok (None, s) ∧ it_Prev None s = Ok (None, s) ∧ ∀ a, it_IsValid (Some a) = true.
  Proof using. done. Qed.
  Theorem tree_Traversal {W} (vis : K → V → W → bool * W) s l w : reach cmp s → contents s l → rb_Traversal vis w s = Ok (visit vis l.*2 w, s).
  Proof using CO. intros Hr Hc. destruct (open _ _ Hr Hc) as (t & H & -> & Hp). by apply Traversal_ok. Qed.

  (** C36: insertions leave every node where it was, with its key and value, and keep the order *)
  Fixpoint inserts (kvs : list (K * V)) : M (rb K V) unit :=
    match kvs with [] => mret_ tt | kv :: kvs => mbind_ (rb_Insert cmp kv.1 kv.2) (λ _, inserts kvs) end.
  Theorem nodes_survive_insertions s l kvs : reach cmp s → contents s l →
    ∃ s' l', inserts kvs s = Ok (tt, s') ∧ reach cmp s' ∧ contents s' l' ∧ l `sublist_of` l' ∧ l'.*2 ≡ₚ l.*2 ++ kvs.
  Proof using CO.
    revert s l. induction kvs as [|[k v] kvs IH]; intros s l Hr Hc; cbn.
    - exists s, l. split_and!; [done|done|done|done|by rewrite app_nil_r].
    - destruct (tree_insert s l k v Hr Hc) as (s1 & L & a & R & E1 & -> & Hc1 & _). unfold mbind_. rewrite E1. destruct (IH s1 _ (reach_insert _ _ _ _ _ Hr E1) Hc1) as (s' & l' & E2 & H1 & H2 & H3 & H4).
      exists s', l'. split_and!; try done.
      + etrans; [|exact H3]. apply sublist_app; [done|]. by constructor.
      + rewrite H4, !fmap_app. cbn. solve_Permutation.
  Qed.
  (** C37, the part that holds: nodes other than the deleted one and its immediate successor stay, with their pairs *)
  Theorem delete_keeps_others_partial s L a kv R : reach cmp s → contents s (L ++ (a, kv) :: R) → ∃ s' l', rb_Delete (Some a) s = Ok (tt, s') ∧ reach cmp s' ∧ contents s' l' ∧
    (∀ b kvb, (b, kvb) ∈ L ++ R → Some b ≠ (fst <$> head R) → (b, kvb) ∈ l') ∧ l'.*2 = L.*2 ++ R.*2.
  Proof using CO.
    intros Hr Hc. destruct (open _ _ Hr Hc) as (t & H & E1 & Hp). destruct kv as [k v]. destruct (delete_tinv s t L R a k v H (eq_sym E1)) as (s' & t' & E2 & H' & _ & Hd). exists s', (io t'). split_and!; [done| |by apply mk_contents| |].
    - eapply reach_delete; [done|exact Hc| |exact E2]. apply elem_of_app. right. by left.
    - intros b kvb Hin Hne. destruct Hd as [->|(y & kvy & R' & -> & ->)]; [done|]. apply elem_of_app in Hin as [Hin|[[= -> ->]|Hin]%elem_of_cons]; [apply elem_of_app; by left|done|apply elem_of_app; right; by right].
    - destruct Hd as [->|(y & kvy & R' & -> & ->)]; by rewrite !fmap_app.
  Qed.
End reach.
Print Assumptions tree_contents. Print Assumptions tree_insert. Print Assumptions tree_delete. Print Assumptions tree_set_value. Print Assumptions tree_clear.
Print Assumptions tree_links. Print Assumptions tree_balanced. Print Assumptions tree_IsRbTree.
Print Assumptions tree_FindNode. Print Assumptions tree_FindLowerBoundNode. Print Assumptions tree_FindUpperBoundNode. Print Assumptions tree_Find. Print Assumptions tree_findNode.
Print Assumptions tree_backward. Print Assumptions tree_next_prev. Print Assumptions tree_iter_end. Print Assumptions tree_Traversal.
Print Assumptions nodes_survive_insertions. Print Assumptions delete_keeps_others_partial.

(** concrete trees *)
Definition zc (x y : Z) : Z := x - y.
Lemma zc_ok : CmpOK zc. Proof. split; unfold zc; intros; lia. Qed.
Definition st_of {S} (d : S) (r : res (unit * S)) : S := match r with Ok (_, s) => s | _ => d end.
(** keys 2, 1, 3, 2 with values 20, 10, 30, 21 *)
Definition ex0 : rb Z Z := st_of rb_new (inserts zc [(2, 20); (1, 10); (3, 30); (2, 21)] rb_new).
Ltac find_contents := eexists; split; [vm_compute; reflexivity|]; repeat (apply chain_nil || (eapply chain_cons; [vm_compute; reflexivity|vm_compute; reflexivity|vm_compute; reflexivity|])).
Example ex0_reach : reach zc ex0.
Proof.
  unfold ex0. destruct (nodes_survive_insertions zc zc_ok rb_new [] [(2, 20); (1, 10); (3, 30); (2, 21)]) as (s' & l' & E1 & H & _); [constructor|find_contents|]. by rewrite E1.
Qed.
(** a tree with duplicate keys: insertion order is kept among equal keys *)
Example ex0_contents : contents ex0 [(1%nat, (1, 10)); (0%nat, (2, 20)); (3%nat, (2, 21)); (2%nat, (3, 30))].
Proof. find_contents. Qed.
Example ex0_find : rb_FindNode zc 2 ex0 = Ok (Some 0%nat, ex0) ∧ rb_FindUpperBoundNode zc 2 ex0 = Ok (Some 2%nat, ex0) ∧ rb_IsRbTree ex0 = Ok (true, ex0).
Proof. by vm_compute. Qed.
(** C37 is false: deleting the root of 2, 1, 3 moves the pair of node 3 into the root's node.  An
    iterator on 3 is off the tree: its node is no longer among the contents although its pair is,
    and advancing it meets key 3 a second time. *)
Theorem erase_breaks_other_iterators_refuted : ∃ (s s' : rb Z Z) a b k v l',
  reach zc s ∧ contents s [(1%nat, (1, 10)); (a, (2, 20)); (b, (k, v))] ∧ rb_Delete (Some a) s = Ok (tt, s') ∧ contents s' l' ∧
  (k, v) ∈ l'.*2 ∧ b ∉ l'.*1 ∧ it_Next (Some b) s' = Ok (Some a, s') ∧ it_Key (Some a) s' = Ok (k, s').
Proof.
  set (s := st_of rb_new (inserts zc [(2, 20); (1, 10); (3, 30)] (rb_new : rb Z Z))).
  exists s, (st_of rb_new (rb_Delete (Some 0%nat) s)), 0%nat, 2%nat, 3, 30, [(1%nat, (1, 10)); (0%nat, (3, 30))]. split_and!.
  - unfold s. destruct (nodes_survive_insertions zc zc_ok rb_new [] [(2, 20); (1, 10); (3, 30)]) as (s' & l' & E1 & H & _); [constructor|find_contents|]. by rewrite E1.
  - find_contents.
  - by vm_compute.
  - find_contents.
  - cbn. set_solver.
  - cbn. set_solver.
  - by vm_compute.
  - by vm_compute.
Qed.
Print Assumptions erase_breaks_other_iterators_refuted.
