(** The operations that take RLock change nothing, in any state. *)
From Verif Require Import Base RbModel DequeModel BidlistModel AdapterModel MapModel SetModel SkipModel HeapModel.
Open Scope Z_scope.
Open Scope go_scope.
Definition ro {S A} (m : M S A) : Prop := ∀ s r s', m s = Ok (r, s') → s' = s.
Section ro.
  Context {S : Type}.
  Lemma ro_ret {A} (a : A) : ro (mret_ a : M S A).
  Proof. intros s r s' [= _ <-]. done. Qed.
  Lemma ro_panic {A} : ro (mpanic : M S A).
  Proof. done. Qed.
  Lemma ro_fuel {A} : ro (mfuel : M S A).
  Proof. done. Qed.
  Lemma ro_bind {A B} (m : M S A) (k : A → M S B) : ro m → (∀ a, ro (k a)) → ro (mbind_ m k).
  Proof. intros Hm Hk s r s'. unfold mbind_. destruct (m s) as [[a s1]| |] eqn:E; [|done..]. intros H. rewrite <- (Hm _ _ _ E). by eapply Hk. Qed.
End ro.
Ltac ro_go := repeat first [apply ro_ret | apply ro_panic | apply ro_fuel | assumption | solve [eauto with ro] | apply ro_bind; [|intros ?] | progress case_match | progress cbn beta iota].

Section rb.
  Context {K V : Type} (cmp : K → K → Z).
  Lemma ro_get p : ro (get (K := K) (V := V) p).
  Proof. intros s r s'. unfold get. repeat case_match; intros; by simplify_eq. Qed.
  Hint Resolve ro_get : ro.
  Lemma ro_root : ro (get_root (K := K) (V := V)). Proof. by intros s r s' [= _ <-]. Qed.
  Lemma ro_size : ro (get_size (K := K) (V := V)). Proof. by intros s r s' [= _ <-]. Qed.
  Lemma ro_fuel_ : ro (fuel (K := K) (V := V)). Proof. by intros s r s' [= _ <-]. Qed.
  Hint Resolve ro_root ro_size ro_fuel_ : ro.
  Lemma ro_parent p : ro (parent (K := K) (V := V) p). Proof. unfold parent. ro_go. Qed.
  Lemma ro_left p : ro (left (K := K) (V := V) p). Proof. unfold left. ro_go. Qed.
  Lemma ro_right p : ro (right (K := K) (V := V) p). Proof. unfold right. ro_go. Qed.
  Lemma ro_key p : ro (key (K := K) (V := V) p). Proof. unfold key. ro_go. Qed.
  Lemma ro_value p : ro (value (K := K) (V := V) p). Proof. unfold value. ro_go. Qed.
  Hint Resolve ro_parent ro_left ro_right ro_key ro_value : ro.
  Lemma ro_minl f : ∀ p, ro (minimum_loop (K := K) (V := V) f p). Proof. induction f; intros p; cbn [minimum_loop]; ro_go. Qed.
  Lemma ro_maxl f : ∀ p, ro (maximum_loop (K := K) (V := V) f p). Proof. induction f; intros p; cbn [maximum_loop]; ro_go. Qed.
  Hint Resolve ro_minl ro_maxl : ro.
  Lemma ro_min p : ro (minimum (K := K) (V := V) p). Proof. unfold minimum. ro_go. Qed.
  Lemma ro_max p : ro (maximum (K := K) (V := V) p). Proof. unfold maximum. ro_go. Qed.
  Hint Resolve ro_min ro_max : ro.
  Lemma ro_first : ro (rb_First (K := K) (V := V)). Proof. unfold rb_First. ro_go. Qed.
  Lemma ro_last : ro (rb_Last (K := K) (V := V)). Proof. unfold rb_Last. ro_go. Qed.
  Hint Resolve ro_first ro_last : ro.
  Lemma ro_succl f : ∀ x y, ro (succ_loop (K := K) (V := V) f x y). Proof. induction f; intros x y; cbn [succ_loop]; ro_go. Qed.
  Hint Resolve ro_succl : ro.
  Lemma ro_next p : ro (next (K := K) (V := V) p). Proof. unfold next, successor. ro_go. Qed.
  Hint Resolve ro_next : ro.
  Lemma ro_lowerl f : ∀ x k, ro (find_lower (V := V) cmp f x k). Proof. induction f; intros x k; cbn [find_lower]; ro_go. Qed.
  Lemma ro_upperl f : ∀ x k, ro (find_upper (V := V) cmp f x k). Proof. induction f; intros x k; cbn [find_upper]; ro_go. Qed.
  Hint Resolve ro_lowerl ro_upperl : ro.
  Lemma ro_lower k : ro (rb_FindLowerBoundNode (V := V) cmp k). Proof. unfold rb_FindLowerBoundNode. ro_go. Qed.
  Lemma ro_upper k : ro (rb_FindUpperBoundNode (V := V) cmp k). Proof. unfold rb_FindUpperBoundNode. ro_go. Qed.
  Hint Resolve ro_lower ro_upper : ro.
  Lemma ro_findl f : ∀ x k, ro (find_node_loop (V := V) cmp f x k). Proof. induction f; intros x k; cbn [find_node_loop]; ro_go. Qed.
  Hint Resolve ro_findl : ro.
  Lemma ro_find_ k : ro (rb_find_node (V := V) cmp k). Proof. unfold rb_find_node. ro_go. Qed.
  Hint Resolve ro_find_ : ro.
  Lemma ro_findnode k : ro (rb_FindNode (V := V) cmp k). Proof. unfold rb_FindNode. ro_go. Qed.
  Lemma ro_find k : ro (rb_Find (V := V) cmp k). Proof. unfold rb_Find. ro_go. Qed.
  Hint Resolve ro_findnode ro_find : ro.
  Lemma ro_travl {W} (vis : K → V → W → bool * W) f : ∀ x w, ro (traversal_loop vis f x w). Proof. induction f; intros x w; cbn [traversal_loop]; ro_go. Qed.
  Hint Resolve ro_travl : ro.
  Lemma ro_trav {W} (vis : K → V → W → bool * W) w : ro (rb_Traversal vis w). Proof. unfold rb_Traversal. ro_go. Qed.
End rb.
Global Hint Resolve ro_get ro_root ro_size ro_fuel_ ro_key ro_value ro_first ro_last ro_next ro_lower ro_upper ro_findnode ro_find ro_trav : ro.
Section map.
  Context {K V : Type} (cmp : K → K → Z).
  Lemma ro_map_Get k : ro (map_Get (V := V) cmp k). Proof. unfold map_Get. ro_go. Qed.
  Lemma ro_map_Contains k : ro (map_Contains (V := V) cmp k). Proof. unfold map_Contains. ro_go. Qed.
  Lemma ro_mm_Get k : ro (mm_Get (V := V) cmp k). Proof. unfold mm_Get. ro_go. Qed.
  Lemma ro_mm_Contains k : ro (mm_Contains (V := V) cmp k). Proof. unfold mm_Contains. ro_go. Qed.
End map.
Section set.
  Context {T : Type} (cmp : T → T → Z).
  Lemma ro_set_Contains x : ro (set_Contains cmp x). Proof. unfold set_Contains. ro_go. Qed.
  Lemma ro_ms_Contains x : ro (ms_Contains cmp x). Proof. unfold ms_Contains. ro_go. Qed.
  Lemma ro_set_travl {W} (vis : T → W → bool * W) f : ∀ x w, ro (set_traversal_loop vis f x w). Proof. induction f; intros x w; cbn [set_traversal_loop]; ro_go. Qed.
  Lemma ro_ms_travl {W} (vis : T → W → bool * W) f : ∀ x w, ro (ms_traversal_loop vis f x w). Proof. induction f; intros x w; cbn [ms_traversal_loop]; ro_go. Qed.
  Lemma ro_ms_countl f : ∀ x y n, ro (ms_count_loop cmp f x y n). Proof. induction f; intros x y n; cbn [ms_count_loop]; ro_go. Qed.
  Hint Resolve ro_set_travl ro_ms_travl ro_ms_countl : ro.
  Lemma ro_set_trav {W} (vis : T → W → bool * W) w : ro (set_Traversal vis w). Proof. unfold set_Traversal. ro_go. Qed.
  Lemma ro_ms_trav {W} (vis : T → W → bool * W) w : ro (ms_Traversal vis w). Proof. unfold ms_Traversal. ro_go. Qed.
  Lemma ro_ms_Count x : ro (ms_Count cmp x). Proof. unfold ms_Count. ro_go. Qed.
  Hint Resolve ro_set_trav ro_ms_trav : ro.
  Lemma ro_set_String show : ro (set_String (T := T) show). Proof. unfold set_String. ro_go. Qed.
  Lemma ro_ms_String show : ro (ms_String (T := T) show). Proof. unfold ms_String. ro_go. Qed.
End set.
Global Hint Resolve ro_map_Get ro_map_Contains ro_mm_Get ro_mm_Contains ro_set_Contains ro_ms_Contains ro_set_trav ro_ms_trav ro_ms_Count ro_set_String ro_ms_String : ro.
Section skip.
  Context {K V : Type} (cmp : K → K → Z).
  Lemma ro_el p : ro (el (K := K) (V := V) p). Proof. intros s r s'. unfold el. repeat case_match; intros; by simplify_eq. Qed.
  Lemma ro_nextat p i : ro (nextat (K := K) (V := V) p i). Proof. intros s r s'. unfold nextat. repeat case_match; intros; by simplify_eq. Qed.
  Lemma ro_getmax : ro (getmax (K := K) (V := V)). Proof. by intros s r s' [= _ <-]. Qed.
  Lemma ro_walkfuel : ro (walkfuel (K := K) (V := V)). Proof. by intros s r s' [= _ <-]. Qed.
  Hint Resolve ro_el ro_nextat ro_getmax ro_walkfuel : ro.
  Lemma ro_get_walk f : ∀ k i p c, ro (get_walk (V := V) cmp f k i p c). Proof. induction f; intros k i p c; cbn [get_walk]; ro_go. Qed.
  Hint Resolve ro_get_walk : ro.
  Lemma ro_get_loop lv : ∀ f k p, ro (get_loop (V := V) cmp lv f k p). Proof. induction lv; intros f k p; cbn [get_loop]; ro_go. Qed.
  Hint Resolve ro_get_loop : ro.
  Lemma ro_sk_Get k : ro (sk_Get (V := V) cmp k). Proof. unfold sk_Get. ro_go. Qed.
  Lemma ro_sk_Len : ro (sk_Len (K := K) (V := V)). Proof. by intros s r s' [= _ <-]. Qed.
  Lemma ro_sk_travl {W} f (vis : K → V → W → bool * W) : ∀ p w, ro (trav_loop f vis p w). Proof. induction f; intros p w; cbn [trav_loop]; ro_go. Qed.
  Hint Resolve ro_sk_travl : ro.
  Lemma ro_sk_trav {W} (vis : K → V → W → bool * W) w : ro (sk_Traversal vis w). Proof. unfold sk_Traversal. ro_go. Qed.
  Lemma ro_sk_Keys : ro (sk_Keys (K := K) (V := V)). Proof. unfold sk_Keys. apply ro_sk_trav. Qed.
End skip.
Global Hint Resolve ro_sk_Get ro_sk_Len ro_sk_trav ro_sk_Keys : ro.
