(** Property C104: going from entry to entry of an ordered container takes constant time on average:
    n calls of Next (or Prev) in a row take at most 3n + 4·log2(size+1) + 2 rounds of all their loops
    together, wherever they start; a whole Traversal takes at most 4·size + 2 rounds, and one that the visitor
    stops after m calls at most 4m + 2·log2(size+1) + 3. *)
From Verif Require Import Base Wp RbModel RbTree RbRot RbIns RbIns2 RbDel RbNav RbDel2 RbSpec RbFind RbProps RbCostModel RbCostProofs RbCostProps TreeWalkCostModel TreeWalkCostProofs.
Open Scope nat_scope.

Section cost.
  Context {K V : Type} (cmp : K → K → Z) (CO : CmpOK cmp).
  Implicit Types (s : rb K V) (l : list (nat * (K * V))).
  (** n calls of Next from entry i; g is more than 2·log2(size+1) *)
  Theorem walking_costs s l i a kv n g : reach cmp s → contents s l → (length l + 1) * (length l + 1) < 2 ^ g →
    l !! i = Some (a, kv) → i + n <= length l →
    same_end (walk_within (3 * n + 2 * g) n (Some a)) (walk n (Some a)) s.
  Proof using CO.
    intros Hr Hc Hg Hi Hn. destruct (open cmp CO _ _ Hr Hc) as (t & H & -> & Hp). destruct (ri_rbt _ _ (proj1 H)) as [m Hm].
    assert (height t < g)%nat as Hh. { pose proof (height_log m t Hm). apply (Nat.pow_lt_mono_r_iff 2); lia. }
    destruct (walk_ok s t (take i (io t)) (drop i (io t)) n Hp ltac:(by rewrite take_drop) ltac:(rewrite drop_length; lia)) as [H1 H2]. { rewrite drop_length. apply lookup_lt_Some in Hi. lia. }
    rewrite (drop_S _ _ _ Hi) in H1, H2. cbn [head fmap option_fmap option_map fst] in H1, H2. eexists. split; [|exact H1]. apply H2. rewrite take_length_le by lia.
    pose proof (sum_range t 1 i n ltac:(lia) Hn). lia.
  Qed.
  (** n calls of Prev from entry i *)
  Theorem walking_back_costs s l i a kv n g : reach cmp s → contents s l → (length l + 1) * (length l + 1) < 2 ^ g →
    l !! i = Some (a, kv) → n <= i + 1 →
    same_end (walk_back_within (3 * n + 2 * g) n (Some a)) (walk_back n (Some a)) s.
  Proof using CO.
    intros Hr Hc Hg Hi Hn. destruct (open cmp CO _ _ Hr Hc) as (t & H & -> & Hp). destruct (ri_rbt _ _ (proj1 H)) as [m Hm].
    assert (height t < g)%nat as Hh. { pose proof (height_log m t Hm). apply (Nat.pow_lt_mono_r_iff 2); lia. }
    pose proof (lookup_lt_Some _ _ _ Hi) as Hl.
    destruct (walk_back_ok s t (take (S i) (io t)) (drop (S i) (io t)) n Hp ltac:(by rewrite take_drop) ltac:(rewrite take_length; lia)) as [H1 H2]. { rewrite take_length. lia. }
    rewrite (take_S_r _ _ _ Hi), last_snoc in H1, H2. cbn [fmap option_fmap option_map fst] in H1, H2. eexists. split; [|exact H1]. apply H2. rewrite drop_length.
    pose proof (sum_range (mirror t) 1 (length (io t) - S i) n ltac:(lia)) as Hs. rewrite mirror_size, mirror_height in Hs. specialize (Hs ltac:(lia)). lia.
  Qed.
  (** the whole of a traversal *)
  Theorem traversal_linear {W} (vis : K → V → W → bool * W) w s l : reach cmp s → contents s l →
    same_end (rb_Traversal_within (4 * length l + 2) vis w) (rb_Traversal vis w) s.
  Proof using CO.
    intros Hr Hc. destruct (open cmp CO _ _ Hr Hc) as (t & H & -> & Hp). eexists. split; [|by apply Traversal_ok]. pose proof (sum_all t 1) as Hs. unfold rb_Traversal_within, mbind_. rewrite (first_spend_ok s t _ Hp) by lia. cbn [fst snd].
    pose proof (calls_le vis (io t).*2 w) as Hl. rewrite fmap_length in Hl. apply (trav_spend_ok vis s t [] (io t)); [done|done|lia|]. cbn [length]; rewrite drop_0.
    assert (sum_list (take (calls vis (io t).*2 w) (costs t 1)) ≤ sum_list (costs t 1)). { rewrite <-(take_drop (calls vis (io t).*2 w) (costs t 1)) at 2. rewrite sum_app'. lia. } lia.
  Qed.
  (** a traversal in which the visitor is called m times *)
  Theorem traversal_stopped {W} (vis : K → V → W → bool * W) w s l g : reach cmp s → contents s l → (length l + 1) * (length l + 1) < 2 ^ g →
    same_end (rb_Traversal_within (4 * calls vis l.*2 w + g + 1) vis w) (rb_Traversal vis w) s.
  Proof using CO.
    intros Hr Hc Hg. destruct (open cmp CO _ _ Hr Hc) as (t & H & -> & Hp). destruct (ri_rbt _ _ (proj1 H)) as [m Hm].
    assert (height t < g)%nat as Hh. { pose proof (height_log m t Hm). apply (Nat.pow_lt_mono_r_iff 2); lia. }
    pose proof (calls_le vis (io t).*2 w) as Hl. rewrite fmap_length in Hl. pose proof (sum_front t 1 _ ltac:(lia) Hl) as Hs.
    eexists. split; [|by apply Traversal_ok]. unfold rb_Traversal_within, mbind_. rewrite (first_spend_ok s t _ Hp) by lia. cbn [fst snd].
    apply (trav_spend_ok vis s t [] (io t)); [done|done|lia|]. cbn [length]; rewrite drop_0. lia.
  Qed.
End cost.
Print Assumptions walking_costs.
Print Assumptions walking_back_costs.
Print Assumptions traversal_linear.
Print Assumptions traversal_stopped.

(** a tree with 64 entries: 63 calls of Next from the first entry need more than 63 rounds and end within 217;
    the traversal ends within 258 rounds, and ends in [Fuel] within 100; stopped after five calls it ends within 35 *)
Section example.
  Fixpoint filled (n : nat) : M (rb Z Z) unit := match n with O => mret_ tt | S n => mbind_ (rb_Insert Z.sub (Z.of_nat n) 0%Z) (λ _, filled n) end.
  Definition upto (m : nat) : Z → Z → nat → bool * nat := λ _ _ w, (bool_decide (S w < m), S w).
  Definition of64 {A} (m : M (rb Z Z) A) : res A := match filled 64 rb_new with Ok (_, s) => match m s with Ok (x, _) => Ok x | Panic => Panic | Fuel => Fuel end | Panic => Panic | Fuel => Fuel end.
  Example walk_meets : of64 (mbind_ (mbind_ rb_First (walk_within 217 63)) key) = Ok 63%Z ∧ of64 (mbind_ rb_First (walk_within 63 63)) = Fuel.
  Proof. by vm_compute. Qed.
  Example back_meets : of64 (mbind_ (mbind_ rb_Last (walk_back_within 217 63)) key) = Ok 0%Z ∧ of64 (mbind_ rb_Last (walk_back_within 63 63)) = Fuel.
  Proof. by vm_compute. Qed.
  Example traversal_meets : of64 (rb_Traversal_within 258 (upto 100) 0) = Ok 64 ∧ of64 (rb_Traversal_within 100 (upto 100) 0) = Fuel ∧ of64 (rb_Traversal_within 35 (upto 5) 0) = Ok 5.
  Proof. by vm_compute. Qed.
End example.
