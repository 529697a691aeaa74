(** Nothing but Size and Clear looks at the size field: the code of the ordered containers runs the
    same in a state whose size field is d too large, and leaves it d too large. *)
From Verif Require Import Base RbModel MapModel MapSpec RbSpec SetModel SetSpec.
Open Scope Z_scope.
Open Scope go_scope.

Definition shift {K V} (d : Z) (s : rb K V) : rb K V := MkRb (rb_heap s) (rb_next s) (rb_root s) (rb_size s + d).
Definition shr {K V A} (d : Z) (r : res (A * rb K V)) : res (A * rb K V) :=
  match r with Ok (a, s) => Ok (a, shift d s) | Panic => Panic | Fuel => Fuel end.
Definition sh {K V A} (m : M (rb K V) A) : Prop := ∀ d s, m (shift d s) = shr d (m s).
Lemma shift_0 {K V} (s : rb K V) : shift 0 s = s.
Proof. destruct s. unfold shift. cbn. f_equal. lia. Qed.

Section sh.
  Context {K V : Type}.
  Notation RM := (M (rb K V)).
  Lemma sh_ret {A} (a : A) : sh (mret_ a : RM A). Proof. done. Qed.
  Lemma sh_panic {A} : sh (mpanic : RM A). Proof. done. Qed.
  Lemma sh_mfuel {A} : sh (mfuel : RM A). Proof. done. Qed.
  Lemma sh_bind {A B} (m : RM A) (k : A → RM B) : sh m → (∀ a, sh (k a)) → sh (mbind_ m k).
  Proof. intros Hm Hk d s. unfold mbind_. rewrite Hm. unfold shr. destruct (m s) as [[a s1]| |]; [apply Hk|done..]. Qed.
  Lemma sh_get p : sh (get (K := K) (V := V) p).
  Proof. intros d s. unfold get. destruct p; [|done]. cbn [rb_heap shift]. by destruct (rb_heap s !! _). Qed.
  Lemma sh_put p f : sh (put (K := K) (V := V) p f).
  Proof. intros d s. unfold put. destruct p; [|done]. unfold mbind_, get. cbn [rb_heap shift]. by destruct (rb_heap s !! _). Qed.
  Lemma sh_root : sh (get_root (K := K) (V := V)). Proof. done. Qed.
  Lemma sh_setroot p : sh (set_root (K := K) (V := V) p). Proof. done. Qed.
  Lemma sh_fuel : sh (fuel (K := K) (V := V)). Proof. done. Qed.
  Lemma sh_alloc n : sh (alloc (K := K) (V := V) n). Proof. done. Qed.
  Lemma sh_add {A} z (k : RM A) : sh k → sh (mbind_ get_size (λ n, mbind_ (set_size (n + z)) (λ _, k))).
  Proof. intros Hk d s. unfold mbind_, get_size, set_size. cbn. rewrite <- Hk. unfold shift. cbn. do 2 f_equal. lia. Qed.
  Lemma sh_sub z : sh (K := K) (V := V) (mbind_ get_size (λ n, set_size (n - z))).
  Proof. intros d s. unfold mbind_, get_size, set_size, shr, shift. cbn [rb_heap rb_next rb_root rb_size]. replace (rb_size s + d - z) with (rb_size s - z + d) by lia. done. Qed.
End sh.
Create HintDb sh discriminated.
#[local] Hint Constants Opaque : sh.
Ltac sh_1 := lazymatch goal with
  | |- sh (mbind_ get_size _) => first [apply sh_sub | apply sh_add]
  | |- sh (mbind_ _ _) => apply sh_bind; [|intros ?]
  | |- sh (mret_ _) => apply sh_ret
  | |- sh mpanic => apply sh_panic
  | |- sh mfuel => apply sh_mfuel
  | |- sh (match _ with _ => _ end) => case_match
  | |- sh (let '(_, _) := _ in _) => case_match
  | |- _ => solve [auto 1 with sh nocore]
  end.
Ltac sh_go := repeat sh_1; cbv zeta; repeat sh_1.

Section rb.
  Context {K V : Type} (cmp : K → K → Z).
  Hint Resolve sh_get sh_put sh_root sh_setroot sh_fuel sh_alloc : sh.
  Lemma sh_parent p : sh (parent (K := K) (V := V) p). Proof. unfold parent. sh_go. Qed.
  Lemma sh_left p : sh (left (K := K) (V := V) p). Proof. unfold left. sh_go. Qed.
  Lemma sh_right p : sh (right (K := K) (V := V) p). Proof. unfold right. sh_go. Qed.
  Lemma sh_color p : sh (color (K := K) (V := V) p). Proof. unfold color. sh_go. Qed.
  Lemma sh_key p : sh (key (K := K) (V := V) p). Proof. unfold key. sh_go. Qed.
  Lemma sh_value p : sh (value (K := K) (V := V) p). Proof. unfold value. sh_go. Qed.
  Hint Resolve sh_parent sh_left sh_right sh_color sh_key sh_value : sh.
  Lemma sh_setvalue p v : sh (set_value (K := K) (V := V) p v). Proof. unfold set_value. sh_go. Qed.
  Lemma sh_getcolor p : sh (get_color (K := K) (V := V) p). Proof. unfold get_color. sh_go. Qed.
  Hint Resolve sh_setvalue sh_getcolor : sh.
  Lemma sh_minl f : ∀ p, sh (minimum_loop (K := K) (V := V) f p). Proof. induction f; intros p; cbn [minimum_loop]; sh_go. Qed.
  Lemma sh_maxl f : ∀ p, sh (maximum_loop (K := K) (V := V) f p). Proof. induction f; intros p; cbn [maximum_loop]; sh_go. Qed.
  Hint Resolve sh_minl sh_maxl : sh.
  Lemma sh_min p : sh (minimum (K := K) (V := V) p). Proof. unfold minimum. sh_go. Qed.
  Lemma sh_max p : sh (maximum (K := K) (V := V) p). Proof. unfold maximum. sh_go. Qed.
  Hint Resolve sh_min sh_max : sh.
  Lemma sh_first : sh (rb_First (K := K) (V := V)). Proof. unfold rb_First. sh_go. Qed.
  Lemma sh_last : sh (rb_Last (K := K) (V := V)). Proof. unfold rb_Last. sh_go. Qed.
  Lemma sh_succl f : ∀ x y, sh (succ_loop (K := K) (V := V) f x y). Proof. induction f; intros x y; cbn [succ_loop]; sh_go. Qed.
  Lemma sh_predl f : ∀ x, sh (pred_loop (K := K) (V := V) f x). Proof. induction f; intros x; cbn [pred_loop]; sh_go. Qed.
  Hint Resolve sh_first sh_last sh_succl sh_predl : sh.
  Lemma sh_succ p : sh (successor (K := K) (V := V) p). Proof. unfold successor. sh_go. Qed.
  Hint Resolve sh_succ : sh.
  Lemma sh_next p : sh (next (K := K) (V := V) p). Proof. unfold next. sh_go. Qed.
  Lemma sh_prev p : sh (prev (K := K) (V := V) p). Proof. unfold prev, presuccessor. sh_go. Qed.
  Hint Resolve sh_next sh_prev : sh.
  Lemma sh_lrot p : sh (left_rotate (K := K) (V := V) p). Proof. unfold left_rotate. sh_go. Qed.
  Lemma sh_rrot p : sh (right_rotate (K := K) (V := V) p). Proof. unfold right_rotate. sh_go. Qed.
  Hint Resolve sh_lrot sh_rrot : sh.
  Lemma sh_descend f : ∀ k x y, sh (descend (V := V) cmp f k x y). Proof. induction f; intros k x y; cbn [descend]; sh_go. Qed.
  Lemma sh_insl f : ∀ z, sh (insert_fixup_loop (K := K) (V := V) f z). Proof. induction f; intros z; cbn [insert_fixup_loop]; sh_go. Qed.
  Hint Resolve sh_descend sh_insl : sh.
  Lemma sh_insfix z : sh (insert_fixup (K := K) (V := V) z). Proof. unfold insert_fixup. sh_go. Qed.
  Hint Resolve sh_insfix : sh.
  Lemma sh_insert k v : sh (rb_Insert (V := V) cmp k v). Proof. unfold rb_Insert, rb_insert_node. sh_go. Qed.
  Lemma sh_fl p : sh (fixup_left (K := K) (V := V) p). Proof. unfold fixup_left. sh_go. Qed.
  Lemma sh_fr p : sh (fixup_right (K := K) (V := V) p). Proof. unfold fixup_right. sh_go. Qed.
  Hint Resolve sh_fl sh_fr : sh.
  Lemma sh_dell f : ∀ x p, sh (delete_fixup_loop (K := K) (V := V) f x p). Proof. induction f; intros x p; cbn [delete_fixup_loop]; sh_go. Qed.
  Hint Resolve sh_dell : sh.
  Lemma sh_delfix x p : sh (delete_fixup (K := K) (V := V) x p). Proof. unfold delete_fixup. sh_go. Qed.
  Hint Resolve sh_delfix : sh.
  Lemma sh_delete p : sh (rb_Delete (K := K) (V := V) p). Proof. unfold rb_Delete. sh_go. Qed.
  Lemma sh_lowerl f : ∀ x k, sh (find_lower (V := V) cmp f x k). Proof. induction f; intros x k; cbn [find_lower]; sh_go. Qed.
  Lemma sh_upperl f : ∀ x k, sh (find_upper (V := V) cmp f x k). Proof. induction f; intros x k; cbn [find_upper]; sh_go. Qed.
  Hint Resolve sh_lowerl sh_upperl sh_insert sh_delete : sh.
  Lemma sh_lower k : sh (rb_FindLowerBoundNode (V := V) cmp k). Proof. unfold rb_FindLowerBoundNode. sh_go. Qed.
  Lemma sh_upper k : sh (rb_FindUpperBoundNode (V := V) cmp k). Proof. unfold rb_FindUpperBoundNode. sh_go. Qed.
  Hint Resolve sh_lower sh_upper : sh.
  Lemma sh_findnode k : sh (rb_FindNode (V := V) cmp k). Proof. unfold rb_FindNode. sh_go. Qed.
  Hint Resolve sh_findnode : sh.
  Lemma sh_find k : sh (rb_Find (V := V) cmp k). Proof. unfold rb_Find. sh_go. Qed.
  Hint Resolve sh_find : sh.
  Lemma sh_travl {W} (vis : K → V → W → bool * W) f : ∀ x w, sh (traversal_loop vis f x w). Proof. induction f; intros x w; cbn [traversal_loop]; sh_go. Qed.
  Hint Resolve sh_travl : sh.
  Lemma sh_trav {W} (vis : K → V → W → bool * W) w : sh (rb_Traversal vis w). Proof. unfold rb_Traversal. sh_go. Qed.
  Hint Resolve sh_trav : sh.
  Lemma sh_mi_next p : sh (mi_Next (K := K) (V := V) p). Proof. unfold mi_Next. sh_go. Qed.
  Lemma sh_mi_prev p : sh (mi_Prev (K := K) (V := V) p). Proof. unfold mi_Prev. sh_go. Qed.
  Hint Resolve sh_mi_next sh_mi_prev : sh.
  Lemma sh_times {A} (m : A → M (rb K V) A) : (∀ p, sh (m p)) → ∀ i p, sh (times i m p). Proof. intros H. induction i; intros p; cbn [times]; sh_go. Qed.
  Lemma sh_tn i p : sh (times i (mi_Next (K := K) (V := V)) p). Proof. apply sh_times. auto with sh. Qed.
  Lemma sh_tp i p : sh (times i (mi_Prev (K := K) (V := V)) p). Proof. apply sh_times. auto with sh. Qed.
  Hint Resolve sh_tn sh_tp : sh.
  Lemma sh_entry p : sh (entry (K := K) (V := V) p). Proof. unfold entry, mi_Key, mi_Value. sh_go. Qed.
  Hint Resolve sh_entry : sh.
  Lemma sh_mml f : ∀ k, sh (mm_erase_loop (V := V) cmp f k). Proof. induction f; intros k; cbn [mm_erase_loop]; sh_go. Qed.
  Hint Resolve sh_mml : sh.
  (** the operations that use the size field *)
  Definition sized {W} (o : map_op K V W) : bool := match o with MSize | MClear => true | _ => false end.
  Lemma sh_map {W} (o : map_op K V W) : sized o = false → sh (map_step cmp o).
  Proof. destruct o; try done; intros _; cbn [map_step]; unfold map_Insert, map_Get, map_Erase, map_EraseIter, map_Find, map_LowerBound, map_UpperBound, map_Begin, map_First, map_Last, map_Contains, map_Traversal, mi_SetValue, mi_Key, mi_Value; sh_go. Qed.
  Lemma sh_mm {W} (o : map_op K V W) : sized o = false → sh (mm_step cmp o).
  Proof. destruct o; try done; intros _; cbn [mm_step]; unfold mm_Insert, mm_Get, mm_Erase, mm_Find, mm_LowerBound, mm_UpperBound, mm_Begin, mm_First, mm_Last, mm_Contains, mm_Traversal, mi_SetValue, mi_Key, mi_Value; sh_go. Qed.
End rb.
Section set.
  Context {T : Type} (cmp : T → T → Z).
  #[local] Hint Resolve sh_get sh_put sh_root sh_setroot sh_fuel sh_alloc sh_key sh_value sh_setvalue sh_first sh_last sh_next sh_prev sh_insert sh_delete sh_lower sh_upper sh_findnode sh_find : sh.
  Lemma sh_stravl {W} (vis : T → W → bool * W) f : ∀ x w, sh (set_traversal_loop vis f x w). Proof. induction f; intros x w; cbn [set_traversal_loop]; sh_go. Qed.
  Lemma sh_mtravl {W} (vis : T → W → bool * W) f : ∀ x w, sh (ms_traversal_loop vis f x w). Proof. induction f; intros x w; cbn [ms_traversal_loop]; sh_go. Qed.
  Hint Resolve sh_stravl sh_mtravl : sh.
  Lemma sh_strav {W} (vis : T → W → bool * W) w : sh (set_Traversal vis w). Proof. unfold set_Traversal. sh_go. Qed.
  Lemma sh_mtrav {W} (vis : T → W → bool * W) w : sh (ms_Traversal vis w). Proof. unfold ms_Traversal. sh_go. Qed.
  Lemma sh_countl f : ∀ x p n, sh (ms_count_loop cmp f x p n). Proof. induction f; intros x p n; cbn [ms_count_loop]; sh_go. Qed.
  Lemma sh_msl f : ∀ k, sh (ms_erase_loop cmp f k). Proof. induction f; intros k; cbn [ms_erase_loop]; sh_go. Qed.
  Hint Resolve sh_strav sh_mtrav sh_countl sh_msl : sh.
  Lemma sh_si_next p : sh (si_Next (T := T) p). Proof. unfold si_Next. sh_go. Qed.
  Lemma sh_si_prev p : sh (si_Prev (T := T) p). Proof. unfold si_Prev. sh_go. Qed.
  Lemma sh_stn i p : sh (times i (si_Next (T := T)) p). Proof. apply sh_times. apply sh_si_next. Qed.
  Lemma sh_stp i p : sh (times i (si_Prev (T := T)) p). Proof. apply sh_times. apply sh_si_prev. Qed.
  Lemma sh_elem p : sh (elem (T := T) p). Proof. unfold elem, si_Value. sh_go. Qed.
  Hint Resolve sh_stn sh_stp sh_elem : sh.
  Definition s_sized {W} (o : set_op T W) : bool := match o with SSize | SClear => true | _ => false end.
  Lemma sh_set {W} (o : set_op T W) : s_sized o = false → sh (set_step cmp o).
  Proof. destruct o; try done; intros _; cbn [set_step]; unfold set_Insert, set_Erase, set_Find, set_LowerBound, set_UpperBound, set_Begin, set_First, set_Last, set_Contains, set_String, si_Value; sh_go. Qed.
  Lemma sh_ms {W} (o : set_op T W) : s_sized o = false → sh (ms_step cmp o).
  Proof. destruct o; try done; intros _; cbn [ms_step]; unfold ms_Insert, ms_Erase, ms_EraseAll, ms_Count, ms_Find, ms_LowerBound, ms_UpperBound, ms_Begin, ms_First, ms_Last, ms_Contains, ms_String, si_Value; sh_go. Qed.
End set.
