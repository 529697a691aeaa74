(** The finite map a Hamt should be when its caller keeps the slices it passed as keys: a key is the
    bytes its slice held at the time of the call. *)
From Verif Require Import Base History GoSliceModel HamtModel HamtSpec HamtAliasModel.

Section spec.
  Context {T : Type}.
  (** the caller's memory after an operation: only the caller's own writes change it *)
  Definition al_mem (m : mem N) (o : al_op T) : mem N :=
    match o with AWrite a i b => MkMem (<[a := <[i := b]> (array_of a m)]> (m_arr m)) (m_next m) | _ => m end.
  (** memory and map after an operation *)
  Definition al_after (w : mem N * gmap key T) (o : al_op T) : mem N * gmap key T :=
    (al_mem w.1 o, match o with AInsert s v => <[s_vals s w.1 := v]> w.2 | AErase s => delete (s_vals s w.1) w.2 | _ => w.2 end).
  (** the answer the map demands *)
  Definition al_answer (w : mem N * gmap key T) (o : al_op T) (a : al_res T) : Prop :=
    match o with
    | AInsert _ _ | AWrite _ _ _ => a = AUnit
    | AGet s => a = AVal (w.2 !! s_vals s w.1)
    | AErase s => a = ABool (bool_decide (is_Some (w.2 !! s_vals s w.1)))
    | AKeys => ∃ l, a = AKeyList l ∧ NoDup l ∧ ∀ k, k ∈ l ↔ is_Some (w.2 !! k)
    end.
  (** a write at this place changes a byte of this slice *)
  Definition hits (a i : nat) (s : slice) : Prop := s_arr s = a ∧ (s_off s ≤ i < s_off s + s_len s)%nat.
  (** the caller never overwrites a byte of a slice it has passed to Insert before *)
  Definition keeps_inserted (ops : list (al_op T)) : Prop :=
    ∀ i j s v a x b, (i < j)%nat → ops !! i = Some (AInsert s v) → ops !! j = Some (AWrite a x b) → ¬ hits a x s.
  (** memory holds bytes *)
  Definition mem_bytes (m : mem N) : Prop := ∀ a l, m_arr m !! a = Some l → is_bytes l.
  (** what is written is a byte *)
  Definition al_op_ok (o : al_op T) : Prop := match o with AWrite _ _ b => (b < 256)%N | _ => True end.
End spec.
