(** Property C37, exactly: which iterators a Delete carries away. *)
From Verif Require Import Base Wp RbModel RbTree RbRot RbIns RbIns2 RbDel RbNav RbDel2 RbSpec RbFind RbProps.
Open Scope Z_scope.

Section exact.
  Context {K V : Type} (cmp : K → K → Z) (CO : CmpOK cmp).
  Implicit Types (s : rb K V) (t : tree K V) (l : list (nat * (K * V))).
  (** Deleting a node with at most one child unlinks that node and no other: every other node keeps
      its pair and its place.  Deleting a node with two children keeps the node, which takes the pair
      of its successor, and unlinks the successor's node; every other node keeps its pair and place. *)
  Theorem delete_exactly_partial s L a kv R : reach cmp s → contents s (L ++ (a, kv) :: R) →
    ∃ s' lp rp, rb_Delete (Some a) s = Ok (tt, s') ∧ left (Some a) s = Ok (lp, s) ∧ right (Some a) s = Ok (rp, s) ∧
      (lp = None ∨ rp = None → contents s' (L ++ R)) ∧
      (lp ≠ None ∧ rp ≠ None → ∃ b kvb R', R = (b, kvb) :: R' ∧ contents s' (L ++ (a, kvb) :: R')).
  Proof using CO.
    intros Hr Hc. destruct (open cmp CO _ _ Hr Hc) as (t & H & E1 & Hp). destruct kv as [k v]. pose proof (delete_exact s t L R a k v (proj1 H) (eq_sym E1)) as Hw. apply wp_Ok in Hw as ([] & s' & E2 & t' & H' & _ & Hd).
    destruct (locate _ _ _ _ _ _ (eq_sym E1)) as (ctx & l & c & r & -> & _). exists s', (rootp l), (rootp r). pose proof (contents_ok s' t' (ri_rep _ _ H')) as Hct.
    pose proof (proj1 (foc_split _ _ _) Hp) as ((Hz & _) & _).
    split_and!; [exact E2|by eapply rd_left|by eapply rd_right| |].
    - intros Hl. destruct Hd as [[_ Ei]|[(n & En & F1 & F2) _]]; [by rewrite <-Ei|]. rewrite Hz in En. injection En as <-. cbn in F1, F2. tauto.
    - intros Hl. destruct Hd as [[Hn _]|[_ (y & ky & vy & R' & -> & Ei)]]; [|exists y, (ky, vy), R'; by rewrite <-Ei]. destruct Hn. eexists. split; [exact Hz|]. exact Hl.
  Qed.

  Lemma root_forked n (l : tree K V) a c k v r : rbt n BLACK (N l a c k v r) → (3 <= length (io (N l a c k v r)))%nat → l ≠ E ∧ r ≠ (E : tree K V).
  Proof using.
    clear. intros H. inversion H as [|?|? cl cr ? ? ? ? ? Hl Hr]; subst. cbn [io]. rewrite app_length. cbn [length].
    assert (∀ m c (u : tree K V), rbt m c u → m = 0%nat → (length (io u) <= 1)%nat) as Hs.
    { intros m c u Hu ->. inversion Hu as [|? ? ? ? ? ? H1 H2|]; subst; [cbn; lia|]. inversion H1; inversion H2; subst. cbn. lia. }
    assert (∀ m c', rbt m c' (E : tree K V) → m = 0%nat) as Hz by (intros m c' Hm; by inversion Hm).
    intros H3. split; intros ->; [pose proof (Hz _ _ Hl) as Em|pose proof (Hz _ _ Hr) as Em]; pose proof (Hs _ _ _ Hl Em); pose proof (Hs _ _ _ Hr Em); cbn [io length] in *; lia.
  Qed.
  (** So C37 fails not in a corner: in every tree of three or more pairs there is an element whose
      removal takes an iterator on another, still present, element off the tree. *)
  Theorem erase_breaks_iterators_in_every_tree_refuted s l : reach cmp s → contents s l → (3 <= length l)%nat →
    ∃ L a kva b kvb R s' l', l = L ++ (a, kva) :: (b, kvb) :: R ∧ rb_Delete (Some a) s = Ok (tt, s') ∧ contents s' l' ∧
      l'.*2 = L.*2 ++ kvb :: R.*2 ∧ b ∉ l'.*1 ∧ it_Key (Some a) s' = Ok (kvb.1, s').
  Proof using CO.
    intros Hr Hc H3. destruct (open cmp CO _ _ Hr Hc) as (t & H & -> & Hp). destruct t as [|tl a c k v tr]; [cbn in H3; lia|].
    destruct (ri_rbt _ _ (proj1 H)) as [n Hn]. destruct (root_forked _ _ _ _ _ _ _ Hn H3) as [F1 F2].
    destruct (delete_exactly_partial s (io tl) a (k, v) (io tr) Hr Hc) as (s' & lp & rp & E2 & E3 & E4 & _ & Hd).
    assert (lp = rootp tl ∧ rp = rootp tr) as [-> ->]. { pose proof (rd_left s [] tl a c k v tr Hp) as E5. pose proof (rd_right s [] tl a c k v tr Hp) as E6. split; congruence. }
    destruct Hd as (b & kvb & R & ER & Hc'); [destruct tl, tr; done|]. exists (io tl), a, (k, v), b, kvb, R, s', (io tl ++ (a, kvb) :: R).
    cbn [io]. rewrite ER. split_and!; [done|done|done|by rewrite fmap_app| |].
    - pose proof (rr_nodup _ _ Hp) as Hnd. cbn [io] in Hnd. unfold ads in Hnd. cbn [io] in Hnd. rewrite ER, fmap_app in Hnd. cbn in Hnd. rewrite fmap_app. cbn.
      apply NoDup_app in Hnd as (_ & N1 & N2). apply NoDup_cons in N2 as [N2 N3]. apply NoDup_cons in N3 as [N3 _]. rewrite elem_of_app, elem_of_cons. intros [Hb|[->|Hb]].
      + apply (N1 b Hb). right. left.
      + apply N2. left.
      + done.
    - assert (reach cmp s') as Hr'. { eapply reach_delete; [exact Hr|exact Hc| |exact E2]. cbn [io]. apply elem_of_app. right. by left. }
      by destruct (tree_next_prev cmp CO s' _ (io tl) R a kvb Hr' Hc' eq_refl) as (_ & _ & -> & _).
  Qed.
End exact.
Print Assumptions delete_exactly_partial. Print Assumptions erase_breaks_iterators_in_every_tree_refuted.

(** both hypotheses are met: the tree 2, 1, 3, 2 of RbProps has four pairs, node 1 has no child and
    node 0 has two *)
Example exact_met : reach zc ex0 ∧ contents ex0 [(1%nat, (1, 10)); (0%nat, (2, 20)); (3%nat, (2, 21)); (2%nat, (3, 30))] ∧
  left (Some 1%nat) ex0 = Ok (None, ex0) ∧ left (Some 0%nat) ex0 = Ok (Some 1%nat, ex0) ∧ right (Some 0%nat) ex0 = Ok (Some 2%nat, ex0).
Proof. split_and!; [apply ex0_reach|apply ex0_contents| | |]; by vm_compute. Qed.
