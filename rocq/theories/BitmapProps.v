(** Properties C06-C08: the bitmap. *)
From Verif Require Import Base History BitmapModel BitmapSpec BitmapProofs.
Open Scope N_scope.

(** C06.  Every history of Set/Unset/IsSet/Clear/Resize/Size/Data+NewFromData starting from
    New(n) gives exactly the answers of a (size, set of positions) pair.  n ranges over
    all of uint64; [size_for] is 0 for the seven sizes whose rounding overflows (see C07). *)
Theorem bitmap_is_set_of_positions n ops : n < 2 ^ 64 → Forall bm_good ops →
  ∃ rs b s, run bm_step ops (bm_new n) = Ok (rs, b) ∧
            srun bm_spec_step ops (MkBS (size_for n) ∅) = Some (rs, s) ∧
            bm_Size b = bs_size s ∧ ∀ p, bm_isset p b = Ok (bool_decide (p ∈ bs_set s)).
Proof.
  intros Hn Hg. destruct (bm_history n ops Hn Hg) as (rs & b & s & ? & ? & Hr).
  exists rs, b, s. split_and!; [done|done|by destruct Hr as (_ & ? & _)|intros; by apply bm_isset_rel].
Qed.
Print Assumptions bitmap_is_set_of_positions.

Example bitmap_history_example :
  run bm_step [BSet 3; BSet 9; BUnset 3; BSet 16; BIsSet 9; BIsSet 3; BResize 20; BSet 16; BIsSet 9; BSize] (bm_new 10)
  = Ok ([BBool true; BBool true; BBool true; BBool false; BBool true; BBool false; BUnit; BBool true; BBool true; BNum 24],
        MkBitmap [0; 2; 1] 24).
Proof. vm_compute. reflexivity. Qed.

(** C06, second half: what one call does to one position. *)
Theorem bitmap_set_unset_one_position n ops rs b p q : n < 2 ^ 64 → Forall bm_good ops →
  run bm_step ops (bm_new n) = Ok (rs, b) →
  (∃ b', bm_set p b = Ok (bool_decide (p < bm_Size b), b') ∧ bm_Size b' = bm_Size b ∧
     (p < bm_Size b → bm_isset p b' = Ok true) ∧ (q ≠ p → bm_isset q b' = bm_isset q b) ∧
     (bm_Size b <= p → b' = b)) ∧
  (∃ b', bm_unset p b = Ok (bool_decide (p < bm_Size b), b') ∧ bm_Size b' = bm_Size b ∧
     bm_isset p b' = Ok false ∧ (q ≠ p → bm_isset q b' = bm_isset q b) ∧
     (bm_Size b <= p → b' = b)).
Proof. exact (bm_one_position n ops rs b p q). Qed.
Print Assumptions bitmap_set_unset_one_position.

(** C07, as far as it is true: New(n) has Size the least multiple of 8 >= n and no bit set. *)
Theorem bitmap_new_size_partial n : n <= 2 ^ 64 - 8 →
  ((∃ k, bm_Size (bm_new n) = 8 * k) ∧ n <= bm_Size (bm_new n) ∧
   (∀ k, n <= 8 * k → bm_Size (bm_new n) <= 8 * k)) ∧
  ∀ p, bm_isset p (bm_new n) = Ok false.
Proof.
  intros Hn. pose proof (bm_new_rel n ltac:(lia)) as H. split.
  - destruct H as (_ & E & _). cbn [bs_size] in E. unfold bm_Size. rewrite <-E. unfold size_for. destruct (N.leb_spec n (2 ^ 64 - 8)); [|lia]. apply ceil8_least.
  - intros p. rewrite (bm_isset_rel _ _ p H). done.
Qed.
Print Assumptions bitmap_new_size_partial.
Example bitmap_new_size_example : bm_Size (bm_new 17) = 24.
Proof. reflexivity. Qed.

(** C07 is false for the 7 largest sizes: size + 7 wraps and the bitmap is empty. *)
Theorem bitmap_new_size_refuted n : 2 ^ 64 - 8 < n < 2 ^ 64 →
  bm_Size (bm_new n) = 0 ∧ ∀ p, bm_set p (bm_new n) = Ok (false, bm_new n).
Proof.
  intros H. pose proof (bm_new_wraps n H) as E. split; [done|]. intros p. unfold bm_set.
  unfold bm_Size in E. rewrite E. destruct p; done.
Qed.
Print Assumptions bitmap_new_size_refuted.
Example bitmap_new_size_refuted_nonvacuous : 2 ^ 64 - 8 < 2 ^ 64 - 1 < 2 ^ 64.
Proof. lia. Qed.

(** C08: Resize keeps exactly the bits below both sizes; NewFromData(Data()) is the same bitmap. *)
Theorem bitmap_resize_preserves n ops rs b m p : n < 2 ^ 64 → Forall bm_good ops → m < 2 ^ 64 →
  run bm_step ops (bm_new n) = Ok (rs, b) →
  bm_Size (bm_resize m b) = size_for m ∧
  bm_isset p (bm_resize m b) = (if p <? size_for m then bm_isset p b else Ok false).
Proof. exact (bm_resize_pres n ops rs b m p). Qed.
Print Assumptions bitmap_resize_preserves.

Theorem bitmap_data_round_trip n ops rs b p : n < 2 ^ 64 → Forall bm_good ops →
  run bm_step ops (bm_new n) = Ok (rs, b) →
  bm_Size (bm_from_data (bm_Data b)) = bm_Size b ∧ bm_isset p (bm_from_data (bm_Data b)) = bm_isset p b.
Proof. exact (bm_data_round n ops rs b p). Qed.
Print Assumptions bitmap_data_round_trip.
Example bitmap_reachable_nontrivial :
  let b := MkBitmap [0; 2; 1] 24 in
  run bm_step [BSet 9; BSet 16] (bm_new 17) = Ok ([BBool true; BBool true], b)
  ∧ bm_isset 9 (bm_resize 16 b) = Ok true ∧ bm_isset 16 (bm_resize 16 b) = Ok false
  ∧ bm_isset 16 (bm_from_data (bm_Data b)) = Ok true.
Proof. vm_compute. done. Qed.
