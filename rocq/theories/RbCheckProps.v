(** Property C69: IsRbTree recognises exactly the red-black colourings. *)
From Verif Require Import Base Wp RbModel RbTree RbRot RbIns RbIns2 RbDel RbNav RbDel2 RbSpec RbFind RbProps.
Open Scope Z_scope.

Section check.
  Context {K V : Type} (cmp : K → K → Z) (CO : CmpOK cmp).
  Implicit Types (s : rb K V) (t : tree K V).
  (** s' is s with some nodes painted in other colours *)
  Definition repainted s s' : Prop := rb_root s' = rb_root s ∧ rb_next s' = rb_next s ∧ ∃ paint : nat → bool, ∀ a, rb_heap s' !! a = with_color (paint a) <$> (rb_heap s !! a).
  (** the red-black conditions, read off the ways down from the root *)
  Definition red_black s : Prop := ∀ cs, path s (rb_root s) cs → head cs ≠ Some RED ∧ no_red_red cs ∧ ∀ cs', path s (rb_root s) cs' → blacks cs' = blacks cs.
  Fixpoint paint_tree (paint : nat → bool) t : tree K V := match t with E => E | N l a _ k v r => N (paint_tree paint l) a (paint a) k v (paint_tree paint r) end.
  Lemma paint_io p t : io (paint_tree p t) = io t. Proof using. clear. induction t as [|l IHl a c k v r IHr]; cbn; [done|]. by rewrite IHl, IHr. Qed.
  Lemma paint_root p t : rootp (paint_tree p t) = rootp t. Proof using. clear. by destruct t. Qed.
  Lemma paint_rep p (h h' : gmap nat (node K V)) par t : (∀ a, h' !! a = with_color (p a) <$> (h !! a)) → rep h par t → rep h' par (paint_tree p t).
  Proof using. clear. intros Hh. revert par. induction t as [|l IHl a c k v r IHr]; intros par; cbn; [done|]. intros (H1 & H2 & H3). split_and!; [|by apply IHl|by apply IHr]. rewrite Hh, H1, !paint_root. done. Qed.
  Lemma repainted_rep s s' t : rbrep s t → repainted s s' → ∃ t', rbrep s' t'.
  Proof using.
    clear. intros [H1 H2 H3 H4] (E1 & E2 & p & Hp). exists (paint_tree p t). constructor.
    - by eapply paint_rep. - by rewrite E1, paint_root. - unfold ads in *. by rewrite paint_io. - rewrite E2. unfold ads in *. by rewrite paint_io.
  Qed.
  (** conditions on the ways down from a node make its subtree a red-black tree *)
  Lemma paths_rbt s par t b : rep (rb_heap s) par t → (∀ cs, path s (rootp t) cs → no_red_red cs ∧ blacks cs = b) → ∃ c, rbt b c t ∧ ∀ cs, path s (rootp t) cs → head cs = match t with E => None | _ => Some c end.
  Proof using.
    clear. revert par b. induction t as [|l IHl a c k v r IHr]; intros par b Hr Hp.
    - destruct (Hp [] (path_nil _)) as [_ <-]. exists BLACK. split; [constructor|]. intros cs Hcs. by inversion Hcs.
    - destruct Hr as (Ha & Hl & Hr). assert (∀ cs, path s (rootp l) cs ∨ path s (rootp r) cs → path s (Some a) (c :: cs)) as Hext.
      { intros cs [Hc|Hc]; [apply (path_node s a _ (rootp l) cs Ha); [by left|done]|apply (path_node s a _ (rootp r) cs Ha); [by right|done]]. }
      assert (∀ cs, path s (rootp (N l a c k v r)) cs → head cs = Some c) as Hh. { intros cs Hc. inversion Hc; subst; cbn. match goal with H : _ !! a = Some ?n |- _ => rewrite Ha in H; by injection H as <- end. }
      destruct c.
      + destruct b as [|b]. { exfalso. destruct (path_ex s _ _ Hl) as [cs Hcs]. destruct (Hp (true :: cs)) as [_ Hb]; [apply Hext; by left|]. unfold blacks in Hb. rewrite filter_cons_True in Hb by done. done. }
        assert (∀ cs, path s (rootp l) cs ∨ path s (rootp r) cs → no_red_red cs ∧ blacks cs = b) as Hsub. { intros cs Hcs. destruct (Hp _ (Hext cs Hcs)) as [H1 H2]. unfold blacks in *. rewrite filter_cons_True in H2 by done. cbn [length] in H2. split; [|lia]. cbn in H1. destruct cs; [done|]. by destruct H1. }
        destruct (IHl _ b Hl) as (cl & Hcl & _); [auto|]. destruct (IHr _ b Hr) as (cr & Hcr & _); [auto|]. exists BLACK. split; [by econstructor|done].
      + assert (∀ cs, path s (rootp l) cs ∨ path s (rootp r) cs → no_red_red cs ∧ blacks cs = b) as Hsub. { intros cs Hcs. destruct (Hp _ (Hext cs Hcs)) as [H1 H2]. unfold blacks in *. rewrite filter_cons_False in H2 by done. split; [|done]. cbn in H1. destruct cs; [done|]. by destruct H1. }
        destruct (IHl _ b Hl) as (cl & Hcl & Hhl); [auto|]. destruct (IHr _ b Hr) as (cr & Hcr & Hhr); [auto|]. exists RED. split; [|done].
        assert (cl = BLACK) as ->. { destruct l; [by inversion Hcl|]. destruct (path_ex s _ _ Hl) as [cs Hcs]. pose proof (Hhl _ Hcs) as E1. destruct (Hp _ (Hext cs (or_introl Hcs))) as [H1 _]. destruct cs as [|c' cs]; [done|]. cbn in H1, E1. injection E1 as ->. by apply H1. }
        assert (cr = BLACK) as ->. { destruct r; [by inversion Hcr|]. destruct (path_ex s _ _ Hr) as [cs Hcs]. pose proof (Hhr _ Hcs) as E1. destruct (Hp _ (Hext cs (or_intror Hcs))) as [H1 _]. destruct cs as [|c' cs]; [done|]. cbn in H1, E1. injection E1 as ->. by apply H1. }
        by econstructor.
  Qed.
  Lemma red_black_rbt s t : rbrep s t → red_black s ↔ ∃ n, rbt n BLACK t.
  Proof using.
    clear. intros H. pose proof (rr_rep _ _ H) as Hr. unfold red_black. rewrite (rr_root _ _ H). split.
    - intros Hrb. destruct (path_ex s _ _ Hr) as [cs Hcs]. destruct (Hrb cs Hcs) as (H1 & _ & H3). destruct (paths_rbt s None t (blacks cs) Hr) as (c & Hc & Hh). { intros cs' Hcs'. destruct (Hrb cs' Hcs') as (_ & H4 & _). split; [done|by apply H3]. }
      exists (blacks cs). destruct c; [done|]. exfalso. apply H1. rewrite (Hh cs Hcs). destruct t; [by inversion Hc|done].
    - intros [n Hn] cs Hcs. destruct (path_rb s None t n BLACK cs Hr Hn Hcs) as (H1 & H2 & H3 & _). split_and!; [|done|].
      + destruct cs as [|c cs]; [done|]. by subst c.
      + intros cs' Hcs'. destruct (path_rb s None t n BLACK cs' Hr Hn Hcs') as (-> & _). done.
  Qed.
  (** C69: on a tree built through the API and then repainted arbitrarily, IsRbTree ends, changes
      nothing and answers true exactly when the red-black conditions hold *)
  Theorem isrbtree_exact s s' : reach cmp s → repainted s s' → ∃ b, rb_IsRbTree s' = Ok (b, s') ∧ (b = true ↔ red_black s').
  Proof using CO.
    intros [t Ht]%(reach_tinv cmp CO) Hp. destruct (repainted_rep s s' t (ri_rep _ _ (proj1 Ht)) Hp) as [t' Ht']. destruct (isrb_ok s' t' Ht') as (b & E1 & Hb). exists b. split; [done|]. by rewrite Hb, (red_black_rbt s' t' Ht').
  Qed.
End check.
Print Assumptions isrbtree_exact.

(** the tree of ex0 with one node painted red: the check says no, and rightly *)
Example ex_repaint : ∃ a, let s' := MkRb (alter (with_color RED) a (rb_heap ex0)) (rb_next ex0) (rb_root ex0) (rb_size ex0) in repainted ex0 s' ∧ rb_IsRbTree s' = Ok (false, s').
Proof.
  assert (∃ a, rb_root ex0 = Some a) as [a Ha] by (eexists; by vm_compute). exists a. cbn zeta. split; [|vm_compute in Ha; injection Ha as <-; by vm_compute].
  split; [done|]. split; [done|]. exists (λ b, if decide (b = a) then RED else default true (n_color <$> rb_heap ex0 !! b)). intros b. cbn [rb_heap]. destruct (decide (b = a)) as [->|Hne].
  - by rewrite lookup_alter.
  - rewrite lookup_alter_ne by done. destruct (rb_heap ex0 !! b) as [n|]; [|done]. cbn. f_equal. by destruct n.
Qed.
