(** Runs with a panicking comparison function against runs with a total one. *)
From Verif Require Import Base Wp History RbModel RbTree RbRot RbIns RbIns2 RbNav RbSpec MapModel MapSpec SetModel SetSpec ConcRo CrashModel CrashSpec.
Open Scope Z_scope.
Open Scope go_scope.
Open Scope x_scope.

#[local] Hint Resolve ro_get ro_root ro_size ro_fuel_ ro_parent ro_left ro_right ro_key ro_value ro_first ro_last ro_next ro_lower ro_upper ro_findnode ro_find : ro.

(** x does what m does, or panics in a state satisfying P *)
Definition cr {S C A} (P : S → Prop) (Q : Prop) (x : X (S * C) A) (m : M S A) (s : S) : Prop := ∀ c,
  match m s with
  | Ok (a, s1) => (∃ c', x (s, c) = (Ok a, (s1, c'))) ∨ (Q ∧ ∃ s' c', x (s, c) = (Panic, (s', c')) ∧ P s')
  | Panic => ∃ s' c', x (s, c) = (Panic, (s', c')) ∧ P s'
  | Fuel => True
  end.
Section cr.
  Context {S C : Type}.
  Implicit Types (P : S → Prop) (Q : Prop).
  Lemma cr_ret {A} P Q (a : A) s : cr (C := C) P Q (xret a) (mret_ a) s.
  Proof. intros c. left. by exists c. Qed.
  Lemma cr_fuel {A} P Q (x : X (S * C) A) s : cr P Q x mfuel s. Proof. done. Qed.
  Lemma cr_run {A} P Q (m : M S A) s : (m s = Panic → P s) → cr (C := C) P Q (xrun m) m s.
  Proof. intros H c. unfold xrun. cbn [fst snd]. destruct (m s) as [[a s1]| |]; [left; by exists c| |done]. exists s, c. split; [done|by apply H]. Qed.
  Lemma cr_bind {A B} P Q (x : X (S * C) A) (m : M S A) f (g : A → M S B) s : cr P Q x m s → (∀ a s1, m s = Ok (a, s1) → cr P Q (f a) (g a) s1) → cr P Q (xbind x f) (mbind_ m g) s.
  Proof.
    intros H1 H2 c. specialize (H1 c). unfold mbind_, xbind. destruct (m s) as [[a s1]| |] eqn:E; [| |done].
    - destruct H1 as [(c1 & ->)|(HQ & s' & c' & -> & HP)].
      + exact (H2 a s1 eq_refl c1).
      + specialize (H2 a s1 eq_refl c'). destruct (g a s1) as [[b s2]| |]; [right; split; [done|by exists s', c']|by exists s', c'|done].
    - destruct H1 as (s' & c' & -> & HP). by exists s', c'.
  Qed.
  Lemma cr_runb {A B} P Q (m : M S A) f (g : A → M S B) s : (m s = Panic → P s) → (∀ a s1, m s = Ok (a, s1) → cr (C := C) P Q (f a) (g a) s1) → cr P Q (xbind (xrun m) f) (mbind_ m g) s.
  Proof. intros H1 H2. apply cr_bind; [by apply cr_run|done]. Qed.
  (** a read in a state that satisfies P *)
  Lemma cr_read {A B} P Q (m : M S A) f (g : A → M S B) s : P s → ro m → (∀ a, m s = Ok (a, s) → cr (C := C) P Q (f a) (g a) s) → cr P Q (xbind (xrun m) f) (mbind_ m g) s.
  Proof. intros H1 H2 H3. apply cr_runb; [done|]. intros a s1 E. pose proof (H2 _ _ _ E). subst s1. by apply H3. Qed.
  Lemma cr_cmp {K A} P Q (u : user_cmp K C) cmp a b f (m : M S A) s : agrees_with u cmp → (can_panic u → Q) → P s → cr P Q (f (cmp a b)) m s → cr P Q (xbind (xcmp u a b) f) m s.
  Proof.
    intros Hu HQ HP H c. unfold xbind, xcmp. cbn [fst snd]. destruct (u a b c) as [[z|] c'] eqn:E.
    - rewrite (Hu _ _ _ _ _ E). exact (H c').
    - assert Q as HQ' by (apply HQ; by exists a, b, c, c'). destruct (m s) as [[a' s1]| |]; [right; split; [done|by exists s, c']|by exists s, c'|done].
  Qed.
  Lemma cr_mono {A} P P' Q (x : X (S * C) A) m s : cr P Q x m s → (∀ s', P s' → P' s') → cr P' Q x m s.
  Proof. intros H HP c. specialize (H c). destruct (m s) as [[a s1]| |]; [|by destruct H as (s' & c' & ? & ?); exists s', c'; auto|done]. destruct H as [H|(HQ & s' & c' & ? & ?)]; [by left|right]. split; [done|]. exists s', c'. auto. Qed.
  Lemma cr_weak {A} P P' Q Q' (x : X (S * C) A) m s : cr P Q x m s → (∀ s', P s' → P' s') → (Q → Q') → cr P' Q' x m s.
  Proof. intros H HP HQ c. specialize (H c). destruct (m s) as [[a s1]| |]; [|by destruct H as (s' & c' & ? & ?); exists s', c'; auto|done]. destruct H as [H|(HQ' & s' & c' & ? & ?)]; [by left|right]. split; [auto|]. exists s', c'. auto. Qed.
End cr.

Lemma xb_run {S C A B} (m : M S A) (f : A → X (S * C) B) s c a s1 : m s = Ok (a, s1) → xbind (xrun m) f (s, c) = f a (s1, c).
Proof. intros E. unfold xbind, xrun. cbn [fst snd]. by rewrite E. Qed.
Lemma mb_ok {S A B} (m : M S A) (f : A → M S B) s a s1 : m s = Ok (a, s1) → mbind_ m f s = f a s1.
Proof. intros E. unfold mbind_. by rewrite E. Qed.
Lemma mb_assoc {S A B D} (m : M S A) (f : A → M S B) (g : B → M S D) s : mbind_ (mbind_ m f) g s = mbind_ m (λ a, mbind_ (f a) g) s.
Proof. unfold mbind_. by destruct (m s) as [[a s1]| |]. Qed.

Section rb.
  Context {K V C : Type} (u : user_cmp K C) (cmp : K → K → Z) (Hu : agrees_with u cmp).
  Implicit Types s : rb K V.
  Notation Q := (can_panic u).
  Notation same s0 := (λ s, s = s0).
  Ltac rd := apply cr_read; [done|solve [auto with ro]|intros ? _].
  Ltac cm := apply (cr_cmp _ _ _ cmp); [exact Hu|done|done|].
  Lemma c_find_lower f x k s : cr (same s) Q (x_find_lower u f x k) (find_lower cmp f x k) s.
  Proof using Hu.
    revert x. induction f as [|f IH]; intros x; cbn [x_find_lower find_lower]; [apply cr_fuel|]. destruct x as [a|]; [|apply cr_ret].
    rd. cm. destruct (_ <=? 0); [|rd; apply IH]. rd. apply cr_bind; [apply IH|]. intros ret s1 E. pose proof (ro_lowerl cmp _ _ _ _ _ _ E). subst s1.
    destruct ret; [|apply cr_ret]. rd. rd. cm. destruct (_ <=? 0); apply cr_ret.
  Qed.
  Lemma c_find_upper f x k s : cr (same s) Q (x_find_upper u f x k) (find_upper cmp f x k) s.
  Proof using Hu.
    revert x. induction f as [|f IH]; intros x; cbn [x_find_upper find_upper]; [apply cr_fuel|]. destruct x as [a|]; [|apply cr_ret].
    rd. cm. destruct (0 <=? _); [rd; apply IH|]. rd. apply cr_bind; [apply IH|]. intros ret s1 E. pose proof (ro_upperl cmp _ _ _ _ _ _ E). subst s1.
    destruct ret; [|apply cr_ret]. rd. rd. cm. destruct (_ <=? 0); apply cr_ret.
  Qed.
  Lemma c_lower k s : cr (same s) Q (x_FindLowerBoundNode u k) (rb_FindLowerBoundNode cmp k) s.
  Proof using Hu. unfold x_FindLowerBoundNode, rb_FindLowerBoundNode. rd. rd. apply c_find_lower. Qed.
  Lemma c_upper k s : cr (same s) Q (x_FindUpperBoundNode u k) (rb_FindUpperBoundNode cmp k) s.
  Proof using Hu. unfold x_FindUpperBoundNode, rb_FindUpperBoundNode. rd. rd. apply c_find_upper. Qed.
  Lemma c_findnode k s : cr (same s) Q (x_FindNode u k) (rb_FindNode cmp k) s.
  Proof using Hu.
    unfold x_FindNode, rb_FindNode. apply cr_bind; [apply c_lower|]. intros n s1 E. pose proof (ro_lower cmp _ _ _ _ E). subst s1.
    destruct n; [|apply cr_ret]. rd. cm. destruct (_ =? 0); apply cr_ret.
  Qed.
  Lemma c_find k s : cr (same s) Q (x_Find u k) (rb_Find cmp k) s.
  Proof using Hu.
    unfold x_Find, rb_Find. apply cr_bind; [apply c_findnode|]. intros n s1 E. pose proof (ro_findnode cmp _ _ _ _ E). subst s1.
    destruct n; [|apply cr_ret]. rd. apply cr_ret.
  Qed.
  Lemma ro_descend f k x y : ro (descend (V := V) cmp f k x y).
  Proof using. clear Hu. revert x y. induction f; intros x y; cbn [descend]; ro_go. Qed.
  Lemma c_descend f k x y s : cr (same s) Q (x_descend u f k x y) (descend cmp f k x y) s.
  Proof using Hu.
    revert x y. induction f as [|f IH]; intros x y; cbn [x_descend descend]; [apply cr_fuel|]. destruct x as [a|]; [|apply cr_ret].
    rd. cm. destruct (_ <? 0); rd; apply IH.
  Qed.
  (** where Insert may panic: before anything is written, or after the size was counted *)
  Definition counted k v s s' : Prop := s' = s ∨ ∃ y, s' = MkRb (<[rb_next s := MkNode y None None RED k v]> (rb_heap s)) (S (rb_next s)) (rb_root s) (rb_size s + 1).
  Lemma c_insert_node k v s : cr (counted k v s) Q (x_insert_node u k v) (rb_insert_node cmp k v) s.
  Proof using Hu.
    unfold x_insert_node, rb_insert_node.
    apply cr_read; [by left|auto with ro|intros x _]. apply cr_read; [by left|auto with ro|intros f _].
    apply cr_bind. { eapply cr_mono; [apply c_descend|]. intros s' ->. by left. }
    intros y s1 E. pose proof (ro_descend _ _ _ _ _ _ _ E). subst s1.
    apply cr_runb; [done|]. intros z s1 [= <- <-].
    apply cr_runb; [done|]. intros n s1 [= <- <-].
    apply cr_runb; [done|]. intros [] s1 [= <-]. cbn [rb_heap rb_next rb_root rb_size].
    set (s2 := MkRb _ _ _ _). assert (counted k v s s2) as HC by (right; by exists y).
    destruct y as [a|]; [|by apply cr_run].
    apply cr_read; [done|auto with ro|intros zk _]. apply cr_read; [done|auto with ro|intros yk _].
    apply (cr_cmp _ _ _ cmp); [exact Hu|done|done|]. by apply cr_run.
  Qed.
  Lemma c_insert k v s : cr (counted k v s) Q (x_insert u k v) (rb_Insert cmp k v) s.
  Proof using Hu. unfold x_insert, rb_Insert. apply cr_bind; [apply c_insert_node|]. intros z s1 _. apply cr_ret. Qed.
  (** with panics that depend on the arguments only, the second comparison with the parent does not
      panic: the first one did not *)
  Lemma x_descend_last (Ha : by_args u) f k x y c c' p s s' : x_descend u f k x y (s, c) = (Ok p, (s', c')) → s' = s ∧ (p = y ∨ ∃ a xk c1, p = Some a ∧ key p s = Ok (xk, s) ∧ (u k xk c1).1 ≠ None).
  Proof using.
    clear Hu. revert x y c. induction f as [|f IH]; intros x y c; cbn [x_descend]; [done|]. destruct x as [a|]; [|by intros [= <- <- <-]; split; [|left]].
    unfold xbind at 1, xrun at 1. cbn [fst snd]. destruct (key (Some a) s) as [[xk s1]| |] eqn:Ek; [|done..]. pose proof (ro_key _ _ _ _ Ek). subst s1.
    unfold xbind at 1, xcmp at 1. cbn [fst snd]. destruct (u k xk c) as [[z|] c1] eqn:Eu; [|done].
    assert (∀ x', x_descend u f k x' (Some a) (s, c1) = (Ok p, (s', c')) → s' = s ∧ (p = y ∨ ∃ a xk c1, p = Some a ∧ key p s = Ok (xk, s) ∧ (u k xk c1).1 ≠ None)) as Hgo.
    { intros x' [-> [->|H]]%IH; [|by split; [|right]]. split; [done|right]. exists a, xk, c. split_and!; [done|done|]. by rewrite Eu. }
    destruct (z <? 0).
    - unfold xbind at 1, xrun at 1. cbn [fst snd]. destruct (left (Some a) s) as [[l s1]| |] eqn:El; [|done..]. pose proof (ro_left _ _ _ _ El). subst s1. apply Hgo.
    - unfold xbind at 1, xrun at 1. cbn [fst snd]. destruct (right (Some a) s) as [[l s1]| |] eqn:El; [|done..]. pose proof (ro_right _ _ _ _ El). subst s1. apply Hgo.
  Qed.
  Lemma key_alloc s n z xk p : key (Some p) s = Ok (xk, s) → (p < rb_next s)%nat → key (Some p) (MkRb (<[rb_next s := n]> (rb_heap s)) (S (rb_next s)) (rb_root s) z) = Ok (xk, MkRb (<[rb_next s := n]> (rb_heap s)) (S (rb_next s)) (rb_root s) z).
  Proof using. unfold key, mbind_, get. cbn [rb_heap]. intros H Hp. rewrite lookup_insert_ne by lia. by destruct (rb_heap s !! p) as [m|]; [injection H as <-|]. Qed.
  Lemma cr_sure {A} P Q a b f (m : M (rb K V) A) s : (∀ c, (u a b c).1 ≠ None) → cr P Q (f (cmp a b)) m s → cr P Q (xbind (xcmp u a b) f) m s.
  Proof using Hu. intros Hn H c. unfold xbind, xcmp. cbn [fst snd]. specialize (Hn c). destruct (u a b c) as [[z|] c'] eqn:E; [|done]. rewrite (Hu _ _ _ _ _ E). exact (H c'). Qed.
  Lemma cr_tail {A B} P Q (x : X (rb K V * C) A) (m : M (rb K V) A) f (g : A → M (rb K V) B) s : cr P Q x m s →
    (∀ a s1 c c', m s = Ok (a, s1) → x (s, c) = (Ok a, (s1, c')) → cr (λ _, True) False (f a) (g a) s1) → cr (λ s', P s' ∨ mbind_ m g s = Panic) Q (xbind x f) (mbind_ m g) s.
  Proof using.
    clear Hu. intros H1 H2 c. specialize (H1 c). unfold mbind_, xbind. destruct (m s) as [[a s1]| |] eqn:E; [| |done].
    - destruct H1 as [(c1 & E1)|(HQ & s' & c' & -> & HP)].
      + specialize (H2 a s1 c c1 eq_refl E1 c1). rewrite E1. destruct (g a s1) as [[b s2]| |]; [|destruct H2 as (s' & c' & ? & _); exists s', c'; auto|done]. destruct H2 as [H2|[[] _]]. by left.
      + destruct (g a s1) as [[b s2]| |]; [right; split; [done|]| |done]; exists s', c'; auto.
    - destruct H1 as (s' & c' & -> & HP). exists s', c'. auto.
  Qed.
  Lemma c_insert_args (Ha : by_args u) k v s : (∀ a s1, descend cmp (S (rb_next s)) k (rb_root s) None s = Ok (Some a, s1) → (a < rb_next s)%nat) → cr (λ s', s' = s ∨ rb_Insert cmp k v s = Panic) Q (x_insert u k v) (rb_Insert cmp k v) s.
  Proof using Hu.
    intros Hn. unfold x_insert, rb_Insert.
    assert (cr (λ s', s' = s ∨ rb_insert_node cmp k v s = Panic) Q (x_insert_node u k v) (rb_insert_node cmp k v) s) as H0.
    2:{ apply cr_bind; [eapply cr_mono; [exact H0|]|intros z s1 _; apply cr_ret]. intros s' [-> | E0]; [by left|right]. unfold mbind_. by rewrite E0. }
    unfold x_insert_node, rb_insert_node.
    apply cr_read; [by left|auto with ro|intros x [= <-]]. apply cr_read; [by left|auto with ro|intros f [= <-]].
    eapply cr_mono; [apply cr_tail; [apply c_descend|]|intros s' [-> | E0]; [by left|by right]]. intros y s1 c c' E Ex. pose proof (ro_descend _ _ _ _ _ _ _ E). subst s1.
    apply cr_runb; [done|]. intros z s1 [= <- <-].
    apply cr_runb; [done|]. intros n s1 [= <- <-].
    apply cr_runb; [done|]. intros [] s1 [= <-]. cbn [rb_heap rb_next rb_root rb_size].
    apply (x_descend_last Ha) in Ex as [_ [-> | (a & xk & c1 & -> & Ek & Hk)]]; [by apply cr_run|].
    apply cr_runb; [done|]. intros zk s1 E1. assert (zk = k ∧ s1 = MkRb (<[rb_next s := MkNode (Some a) None None RED k v]> (rb_heap s)) (S (rb_next s)) (rb_root s) (rb_size s + 1)) as [-> ->].
    { unfold key, mbind_, get in E1. cbn [rb_heap] in E1. rewrite lookup_insert in E1. by injection E1 as <- <-. }
    apply cr_runb; [done|]. intros yk s1 E2. rewrite (key_alloc s _ _ xk a Ek) in E2; [injection E2 as <- <-|by eapply Hn].
    apply cr_sure; [intros c2 Hc; by apply Hk, (Ha _ _ c2)|]. by apply cr_run.
  Qed.
End rb.
