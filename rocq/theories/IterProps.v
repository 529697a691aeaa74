(** Properties C15, C16: slice wrapper and random access iterators. *)
From Verif Require Import Base History GoSliceModel GoSliceProofs VectorModel VectorSpec VectorProofs ArrayModel ArrayProofs SliceModel.
From Verif Require Import IterModel IterSpec IterProofs.
Open Scope Z_scope.

(** C16 for any container obeying the sequence law under Size/At/Set (instances below):
    the forward walk from Begin to End and the backward walk from Last visit the elements in
    order and in reverse order, within length-many rounds; Next/Prev are inverse inside the
    range and saturate at Size and -1; IsValid is exactly "in range" and Value panics exactly
    otherwise; SetValue changes exactly the element pointed to. *)
Theorem random_access_iterators {W T} csize cat cset o (R : W → list T → Prop) w l :
  @ra_law W T csize cat cset o R → R w l →
  (∃ e, c_end csize o w = Ok (e, w) ∧ it_position e = Z.of_nat (length l) ∧
        walk csize cat it_equal (length l) (c_begin o) e w = Ok (l, w)) ∧
  (∃ e, c_last csize o w = Ok (e, w) ∧ walk_back csize cat (length l) e w = Ok (rev l, w)) ∧
  ∀ p, let i := it_at (c_begin o) p in
    it_position i = p ∧ it_position (it_clone i) = p ∧ it_equal (it_clone i) i = true ∧
    (∀ q, it_equal i (it_at i q) = bool_decide (p = q)) ∧
    it_valid csize i w = Ok (bool_decide (0 <= p < Z.of_nat (length l)), w) ∧
    (it_value cat i w = Panic ↔ it_valid csize i w = Ok (false, w)) ∧
    (∀ x, it_value cat i w = Ok (x, w) ↔ 0 <= p ∧ l !! Z.to_nat p = Some x) ∧
    (0 <= p < Z.of_nat (length l) → ∃ n, it_next csize i w = Ok (n, w) ∧ it_position n = p + 1 ∧
        ∃ b, it_prev n w = Ok (b, w) ∧ it_equal b i = true) ∧
    (0 <= p <= Z.of_nat (length l) → ∃ b, it_prev i w = Ok (b, w) ∧ it_position b = p - 1 ∧
        ∃ n, it_next csize b w = Ok (n, w) ∧ it_equal n i = true) ∧
    (Z.of_nat (length l) <= p → it_next csize i w = Ok (i, w)) ∧
    (p < 0 → it_prev i w = Ok (i, w)) ∧
    (∀ x, ∃ w', it_set cset i x w = Ok (tt, w') ∧ R w' (if bool_decide (0 <= p) then <[Z.to_nat p := x]> l else l)).
Proof.
  intros L HR. split_and!.
  - eexists. unfold c_end, mbind_. rewrite (ra_size _ _ _ _ _ L _ _ HR). split; [done|]. split; [done|].
    exact (walk_ok _ _ _ _ _ L it_equal w l 0 (length l) (it_equal_pos o) HR ltac:(lia) ltac:(lia)).
  - eexists. unfold c_last, mbind_. rewrite (ra_size _ _ _ _ _ L _ _ HR). split; [done|].
    rewrite (walk_back_ok _ _ _ _ _ L w l (length l) (length l) HR) by lia. by rewrite firstn_all.
  - intros p i. assert (it_valid csize i w = Ok (bool_decide (0 <= p < Z.of_nat (length l)), w)) as Hv
      by (by apply (valid_ok _ _ _ _ _ L)).
    assert (∀ q, it_next csize (MkIter o q) w = Ok (MkIter o (if q <? Z.of_nat (length l) then q + 1 else q), w)) as Hn.
    { intros q. by apply (next_ok _ _ _ _ _ L). }
    assert (∀ q, it_prev (MkIter o q) w = Ok (if 0 <=? q then MkIter o (q - 1) else MkIter o q, w)) as Hp by done.
    split_and!; try done.
    + unfold it_equal, i. simpl. by rewrite Nat.eqb_refl, Z.eqb_refl.
    + intros q. apply (it_equal_pos o).
    + rewrite Hv. unfold it_value, i. simpl. rewrite (ra_at _ _ _ _ _ L _ _ _ HR).
      destruct (decide (0 <= p < Z.of_nat (length l))) as [H1|H1].
      * rewrite !bool_decide_eq_true_2 by lia. destruct (lookup_lt_is_Some_2 l (Z.to_nat p) ltac:(lia)) as [x ->]. done.
      * rewrite (bool_decide_eq_false_2 (0 <= p < _)) by lia. clear Hv. case_bool_decide; [|by split].
        rewrite lookup_ge_None_2 by lia. by split.
    + intros x. unfold it_value, i. simpl. rewrite (ra_at _ _ _ _ _ L _ _ _ HR). clear Hv. case_bool_decide.
      * destruct (l !! Z.to_nat p); (split; [intros ?; by simplify_eq|intros [_ ?]; by simplify_eq]).
      * split; [done|lia].
    + intros Hr. eexists. split; [apply Hn|]. destruct (Z.ltb_spec p (Z.of_nat (length l))); [|lia]. split; [done|].
      eexists. split; [apply Hp|]. destruct (Z.leb_spec 0 (p + 1)); [|lia].
      unfold i, it_at, c_begin; cbn [it_obj]. rewrite (it_equal_pos o). apply bool_decide_eq_true_2. lia.
    + intros Hr. eexists. split; [apply Hp|]. destruct (Z.leb_spec 0 p); [|lia]. split; [done|].
      eexists. split; [apply Hn|]. destruct (Z.ltb_spec (p - 1) (Z.of_nat (length l))); [|lia].
      unfold i, it_at, c_begin; cbn [it_obj]. rewrite (it_equal_pos o). apply bool_decide_eq_true_2. lia.
    + intros Hr. unfold i, it_at. simpl. rewrite Hn. destruct (Z.ltb_spec p (Z.of_nat (length l))); [lia|done].
    + intros Hr. unfold i, it_at. simpl. rewrite Hp. destruct (Z.leb_spec 0 p); [lia|done].
    + intros x. exact (ra_set _ _ _ _ _ L w l p x HR).
Qed.
Print Assumptions random_access_iterators.

(** vector, array and slice wrapper obey the law; [vec_holds]/[sw_holds] say that object o of
    the world holds l *)
Theorem random_access_instances {T} (zero : T) o :
  ra_law (W := world T) v_size v_at v_set_at o (vec_holds o) ∧
  ra_law (W := world T) a_size a_at a_set o (vec_holds o) ∧
  ra_law (W := world T) sw_len sw_at sw_set o (sw_holds o).
Proof. split_and!; [apply (vector_ra_law zero)|apply (array_ra_law zero)|apply (slice_ra_law zero)]. Qed.
Print Assumptions random_access_instances.

(** every vector of every reachable world qualifies *)
Theorem reachable_vectors_hold {T} (zero : T) grow ops rs w v n :
  run (v_step zero grow) ops world0 = Ok (rs, w) → v_size v w = Ok (n, w) →
  ∃ l, vec_holds v w l ∧ Z.of_nat (length l) = n.
Proof.
  intros E Hn. destruct (v_reach zero grow _ _ _ E) as (ls & _ & R). destruct (ls !! v) as [l|] eqn:Hl.
  - exists l. split; [by exists ls|]. destruct (v_obs zero grow _ _ _ _ R Hl) as [O _]. by rewrite O in Hn; simplify_eq.
  - unfold v_size, mbind_, data in Hn. by rewrite (rel_lookup_None zero grow _ _ _ R Hl) in Hn.
Qed.
Print Assumptions reachable_vectors_hold.

Definition demo_sw : world Z := MkWorld (MkMem {[0%nat := [4; 5; 6; 7]; 1%nat := [8; 9; 9]]} 2)
  [MkSlice 0 1 3 3; MkSlice 1 0 3 3].
Example demo_sw_holds : sw_holds 0 demo_sw [5; 6; 7] ∧ sw_holds 1 demo_sw [8; 9; 9].
Proof. split; eexists; (split; [reflexivity|]; split; [eexists; split; [reflexivity|simpl; lia]|reflexivity]). Qed.

(** C15, true part.  For a wrapper of any slice holding l: Begin is position 0, End position
    length l, the walk visits l, and SetValue at p changes exactly element p of the caller's
    slice s and no slice of another array. *)
Theorem slice_wrapper_partial {T} (zero : T) o (w : world T) s :
  w_vecs w !! o = Some s → sl_fits (w_mem w) s →
  let l := s_vals s (w_mem w) in
  (∃ e, c_end sw_len o w = Ok (e, w) ∧ it_position e = Z.of_nat (length l) ∧
        walk sw_len sw_at it_equal_slice (length l) (c_begin o) e w = Ok (l, w)) ∧
  (∀ x, l !! 0%nat = Some x → it_value sw_at (c_begin o) w = Ok (x, w)) ∧
  ∀ p x, 0 <= p < Z.of_nat (length l) →
    ∃ w', it_set sw_set (it_at (c_begin o) p) x w = Ok (tt, w') ∧
          s_vals s (w_mem w') = <[Z.to_nat p := x]> l ∧
          ∀ t, s_arr t ≠ s_arr s → s_vals t (w_mem w') = s_vals t (w_mem w).
Proof.
  intros Hs Hf l. assert (sw_holds o w l) as HR by (by exists s). pose proof (slice_ra_law zero o) as L. split_and!.
  - eexists. unfold c_end, mbind_. rewrite (ra_size _ _ _ _ _ L _ _ HR). split; [done|]. split; [done|].
    exact (walk_ok _ _ _ _ _ L it_equal_slice w l 0 (length l) (it_equal_slice_pos o) HR ltac:(lia) ltac:(lia)).
  - intros x Hx. unfold it_value, c_begin. cbn [it_obj it_pos]. rewrite (ra_at _ _ _ _ _ L _ _ _ HR). rewrite bool_decide_eq_true_2 by lia. change (Z.to_nat 0) with 0%nat. by rewrite Hx.
  - intros p x Hp. unfold l in Hp. rewrite (s_vals_length zero) in Hp by done. unfold it_set, it_at. cbn [it_obj it_pos c_begin].
    unfold sw_set, mbind_, data, len_. rewrite Hs.
    destruct (Z.ltb_spec p 0), (Z.leb_spec (Z.of_nat (s_len s)) p); simpl; try lia. unfold lift.
    destruct (s_set_vals zero (w_mem w) s p x Hf Hp) as (m' & -> & ? & ? & ?). eexists. split_and!; done.
Qed.
Print Assumptions slice_wrapper_partial.
(** … and for a wrapper fresh from NewSliceWrapper: it addresses exactly the elements of the slice it was given, in the same array. *)
Theorem slice_wrapper_new_partial {T} (zero : T) (w0 : world T) s :
  sl_fits (w_mem w0) s → let l := s_vals s (w_mem w0) in
  ∃ o w, sw_new s w0 = Ok (o, w) ∧ w_mem w = w_mem w0 ∧ (∀ o' s', w_vecs w0 !! o' = Some s' → o' ≠ o ∧ w_vecs w !! o' = Some s') ∧
  (∃ e, c_end sw_len o w = Ok (e, w) ∧ it_position e = Z.of_nat (length l) ∧
        walk sw_len sw_at it_equal_slice (length l) (c_begin o) e w = Ok (l, w)) ∧
  (∀ x, l !! 0%nat = Some x → it_value sw_at (c_begin o) w = Ok (x, w)) ∧
  ∀ p x, 0 <= p < Z.of_nat (length l) →
    ∃ w', it_set sw_set (it_at (c_begin o) p) x w = Ok (tt, w') ∧
          s_vals s (w_mem w') = <[Z.to_nat p := x]> l ∧
          ∀ t, s_arr t ≠ s_arr s → s_vals t (w_mem w') = s_vals t (w_mem w0).
Proof.
  intros Hf l. eexists (length (w_vecs w0)), _. split; [done|]. cbn [w_mem w_vecs]. split; [done|]. split.
  { intros o' s' E. pose proof (lookup_lt_Some _ _ _ E). split; [lia|]. by rewrite lookup_app_l by lia. }
  apply (slice_wrapper_partial zero _ (MkWorld (w_mem w0) (w_vecs w0 ++ [s])) s); [|done]. cbn [w_vecs]. by rewrite lookup_app_r, Nat.sub_diag by done.
Qed.
Print Assumptions slice_wrapper_new_partial.

(** C15 is false for Last: for every slice, Last is the position after the last element: it is
    not valid, reading it panics, and it is Equal to End. *)
Theorem slice_last_refuted {T} (zero : T) o (w : world T) l : sw_holds o w l →
  ∃ i, c_last_slice sw_len o w = Ok (i, w) ∧ it_valid sw_len i w = Ok (false, w) ∧
       it_value sw_at i w = Panic ∧ c_end sw_len o w = Ok (i, w).
Proof.
  intros HR. pose proof (slice_ra_law zero o) as L. unfold c_last_slice, c_end, mbind_.
  rewrite (ra_size _ _ _ _ _ L _ _ HR). eexists. split; [done|]. split_and!; [| |done].
  - rewrite (valid_ok _ _ _ _ _ L _ _ _ HR). by rewrite bool_decide_eq_false_2 by lia.
  - unfold it_value. simpl. rewrite (ra_at _ _ _ _ _ L _ _ _ HR). rewrite bool_decide_eq_true_2 by lia.
    by rewrite lookup_ge_None_2 by lia.
Qed.
Print Assumptions slice_last_refuted.

(** C15 is false for Equal: iterators of two different wrapped slices are Equal whenever their
    positions agree (here slices with different contents). *)
Theorem slice_equal_refuted :
  ∃ (w : world Z) l1 l2, sw_holds 0 w l1 ∧ sw_holds 1 w l2 ∧ l1 ≠ l2 ∧
    it_equal_slice (c_begin 0) (c_begin 1) = true ∧
    it_value sw_at (c_begin 0) w ≠ it_value sw_at (c_begin 1) w.
Proof.
  exists demo_sw, [5; 6; 7], [8; 9; 9]. destruct demo_sw_holds. split_and!; try done.
Qed.
Print Assumptions slice_equal_refuted.
