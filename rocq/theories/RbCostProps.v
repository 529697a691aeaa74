(** Property C70: the red-black tree's operations take logarithmic time: on a tree with n elements
    every loop of Insert, Delete, the searches, Next, Prev, First and Last ends within
    2·log2(n+1) + 1 rounds. *)
From Verif Require Import Base Wp RbModel RbTree RbRot RbIns RbIns2 RbDel RbNav RbDel2 RbSpec RbFind RbProps RbCostModel RbCostProofs.
Open Scope Z_scope.

Section cost.
  Context {K V : Type} (cmp : K → K → Z) (CO : CmpOK cmp).
  Implicit Types (s : rb K V) (l : list (nat * (K * V))).
  (** the limited run ends, and with the result of the unlimited one *)
  Definition same_end {A} (limited unlimited : M (rb K V) A) s : Prop := ∃ r, limited s = Ok r ∧ unlimited s = Ok r.
  Lemma same_end_ok {A} (m m' : M (rb K V) A) s : agree m m' → (∃ a s', m s = Ok (a, s')) → (∃ a s', m' s = Ok (a, s')) → same_end m m' s.
  Proof using. clear. intros Ha (a & s1 & E1) (b & s2 & E2). exists (a, s1). split; [done|]. rewrite E2. f_equal. symmetry. by eapply Ha. Qed.
  Lemma wp_ex {A} (m : M (rb K V) A) Q s : wp m Q s → ∃ a s', m s = Ok (a, s').
  Proof using. clear. intros (a & s' & E1 & _)%wp_Ok. eauto. Qed.
  (** C70: 2·log2(n+1) < f rounds are enough *)
  Theorem rb_log_time s l f : reach cmp s → contents s l → ((length l + 1) * (length l + 1) < 2 ^ f)%nat →
    (∀ k v, same_end (rb_Insert_within cmp f k v) (rb_Insert cmp k v) s)
    ∧ (∀ a kv, (a, kv) ∈ l → same_end (rb_Delete_within f (Some a)) (rb_Delete (Some a)) s)
    ∧ (∀ k, same_end (rb_Find_within cmp f k) (rb_Find cmp k) s)
    ∧ (∀ k, same_end (rb_FindNode_within cmp f k) (rb_FindNode cmp k) s)
    ∧ (∀ k, same_end (rb_FindLowerBoundNode_within cmp f k) (rb_FindLowerBoundNode cmp k) s)
    ∧ (∀ k, same_end (rb_FindUpperBoundNode_within cmp f k) (rb_FindUpperBoundNode cmp k) s)
    ∧ same_end (rb_First_within f) rb_First s
    ∧ same_end (rb_Last_within f) rb_Last s
    ∧ (∀ a kv, (a, kv) ∈ l → same_end (successor_within f (Some a)) (next (Some a)) s)
    ∧ (∀ a kv, (a, kv) ∈ l → same_end (presuccessor_within f (Some a)) (prev (Some a)) s).
  Proof using CO.
    intros Hr Hc Hf. destruct (open cmp CO _ _ Hr Hc) as (t & H & -> & Hp). destruct (ri_rbt _ _ (proj1 H)) as [n Hn].
    assert (height t < f)%nat as Hh. { pose proof (height_log n t Hn). apply (Nat.pow_lt_mono_r_iff 2); lia. }
    split_and!.
    - intros k v. apply same_end_ok; [apply ag_Insert| |].
      + destruct (wp_ex _ _ _ (insert_h cmp CO f s t k v (proj1 H) (proj2 H) Hh)) as (a & s' & E1). exists tt, s'. unfold rb_Insert_within, mbind_. by rewrite E1.
      + destruct (insert_tinv cmp CO s t k v H) as (s' & ? & _ & _ & E1 & _). eauto.
    - intros a [k v] (L & R & E1)%elem_of_list_split. apply same_end_ok; [apply ag_Delete|eapply wp_ex; by eapply delete_h; [exact (proj1 H)|exact E1|]|].
      destruct (delete_tinv cmp CO s t L R a k v H E1) as (s' & ? & E2 & _). eauto.
    - intros k. apply same_end_ok; [apply ag_Find|destruct (Find_h cmp f k s t Hp Hh) as [p E1]; eauto|]. destruct (find_ok cmp CO k t s Hp (proj2 H)) as (p & E1 & _). eauto.
    - intros k. apply same_end_ok; [apply ag_FindNode|destruct (FindNode_h cmp f k s t Hp Hh) as (p & E1 & _); eauto|]. destruct (findnode_ok cmp CO k t s Hp (proj2 H)) as (p & E1 & _). eauto.
    - intros k. apply same_end_ok; [apply ag_Lower|destruct (Lower_h cmp f k s t Hp Hh) as (p & E1 & _); eauto|]. destruct (lower_ok cmp CO k t s Hp (proj2 H)) as (p & E1 & _). eauto.
    - intros k. apply same_end_ok; [apply ag_Upper|destruct (Upper_h cmp f k s t Hp Hh) as (p & E1); eauto|]. destruct (upper_ok cmp CO k t s Hp (proj2 H)) as (p & E1 & _). eauto.
    - apply same_end_ok; [apply ag_First|destruct (First_h f s t Hp Hh) as (p & E1); eauto|]. rewrite (first_ok _ _ Hp). eauto.
    - apply same_end_ok; [apply ag_Last|destruct (Last_h f s t Hp Hh) as (p & E1); eauto|]. rewrite (last_ok _ _ Hp). eauto.
    - intros a [k v] (L & R & E1)%elem_of_list_split. apply same_end_ok; [apply ag_next|destruct (next_h f s t L R a k v Hp E1 Hh) as (p & E2); eauto|]. rewrite (next_ok _ _ _ _ _ _ _ Hp E1). eauto.
    - intros a [k v] (L & R & E1)%elem_of_list_split. apply same_end_ok; [apply ag_prev|destruct (prev_h f s t L R a k v Hp E1 Hh) as (p & E2); eauto|]. rewrite (prev_ok _ _ _ _ _ _ _ Hp E1). eauto.
  Qed.
End cost.
Print Assumptions rb_log_time.

(** twenty keys inserted in ascending order, the worst case of an unbalanced tree: 9 rounds are
    enough for everything, and the limit is not idle (3 rounds are not enough) *)
Definition asc : list (Z * Z) := (λ i, (Z.of_nat i, 7)) <$> seq 0 20.
Example exasc_hyps : ∃ s l, inserts zc asc (rb_new : rb Z Z) = Ok (tt, s) ∧ reach zc s ∧ contents s l ∧ ((length l + 1) * (length l + 1) < 2 ^ 9)%nat.
Proof.
  destruct (nodes_survive_insertions zc zc_ok rb_new [] asc) as (s' & l' & E1 & H & Hc & _ & Hp); [constructor|by exists None; split; [done|constructor]|].
  exists s', l'. apply Permutation_length in Hp. rewrite fmap_length in Hp. split; [exact E1|]. split; [exact H|]. split; [exact Hc|]. rewrite Hp. apply Nat.ltb_lt. by vm_compute.
Qed.
Example exasc_runs : (match mbind_ (inserts zc asc) (λ _, rb_FindNode_within zc 9 19) (rb_new : rb Z Z) with Ok (Some _, _) => true | _ => false end) = true
  ∧ (match mbind_ (inserts zc asc) (λ _, rb_FindNode_within zc 3 19) (rb_new : rb Z Z) with Fuel => true | _ => false end) = true.
Proof. split; by vm_compute. Qed.
