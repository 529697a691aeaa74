(** C81: Map, MultiMap, Set and MultiSet when the comparison function panics and the caller recovers. *)
From Verif Require Import Base History RbModel RbSpec RbProps MapModel MapSpec MapProofs SetModel SetSpec SetProofs CrashModel CrashSpec CrashProofs CrashShift CrashStep.
Open Scope Z_scope.

Section maps.
  Context {K V W C : Type} (u : user_cmp K C) (cmp : K → K → Z) (CO : CmpOK cmp) (Hu : agrees_with u cmp).
  Notation op := (map_op K V W).
  Notation may := (λ o : op, map_compares o = true ∧ can_panic u).
  (** any comparison function that, when it answers, answers like cmp: every history in which panics
      are recovered returns, each call answers as specified or panics, and a panic changes no entry
      (MultiMap.Erase: may have erased some of its entries); only Size may be too large, by at most
      one for every Insert that panicked since the last Clear *)
  Theorem map_survives_panics (ops : list op) c : ∃ rs w l d, attempts (x_map_step u) ops (map_new, c) = Some (rs, w) ∧
    recovered (surplus (map_spec cmp)) may (counts untouched) ops ([], 0%nat) rs (l, d).
  Proof using CO Hu.
    destruct (attempts_recovered _ _ _ _ _ _ (map_any u cmp CO Hu) ops map_new ([], 0%nat) c) as (rs & s' & c' & [l d] & H1 & H2 & _); [|by exists rs, (s', c'), l, d].
    exists map_new. split; [split; [by apply holds_new|constructor]|done].
  Qed.
  Theorem multimap_survives_panics (ops : list op) c : ∃ rs w l d, attempts (x_mm_step u) ops (map_new, c) = Some (rs, w) ∧
    recovered (surplus (mm_spec cmp)) may (counts (mm_left cmp)) ops ([], 0%nat) rs (l, d).
  Proof using CO Hu.
    destruct (attempts_recovered _ _ _ _ _ _ (mm_any u cmp CO Hu) ops map_new ([], 0%nat) c) as (rs & s' & c' & [l d] & H1 & H2 & _); [|by exists rs, (s', c'), l, d].
    exists map_new. split; [by apply holds_new|done].
  Qed.
  (** if it depends on the arguments only whether the comparison function panics, Size is right too:
      a panic changes nothing (MultiMap.Erase: as before) *)
  Theorem map_no_effect_partial (Ha : by_args u) (ops : list op) c : ∃ rs w l, attempts (x_map_step u) ops (map_new, c) = Some (rs, w) ∧ recovered (map_spec cmp) may untouched ops [] rs l.
  Proof using CO Hu.
    destruct (attempts_recovered _ _ _ _ _ _ (map_args u cmp CO Hu Ha) ops map_new [] c) as (rs & s' & c' & l & H1 & H2 & _); [|by exists rs, (s', c'), l].
    split; [by apply holds_new|constructor].
  Qed.
  Theorem multimap_no_effect_partial (Ha : by_args u) (ops : list op) c : ∃ rs w l, attempts (x_mm_step u) ops (map_new, c) = Some (rs, w) ∧ recovered (mm_spec cmp) may (mm_left cmp) ops [] rs l.
  Proof using CO Hu.
    destruct (attempts_recovered _ _ _ _ _ _ (mm_args u cmp CO Hu Ha) ops map_new [] c) as (rs & s' & c' & l & H1 & H2 & _); [|by exists rs, (s', c'), l].
    by apply holds_new.
  Qed.
End maps.
Section sets.
  Context {T W C : Type} (u : user_cmp T C) (cmp : T → T → Z) (CO : CmpOK cmp) (Hu : agrees_with u cmp).
  Notation op := (set_op T W).
  Notation may := (λ o : op, set_compares o = true ∧ can_panic u).
  Theorem set_survives_panics (ops : list op) c : ∃ rs w l d, attempts (x_set_step u) ops (set_new, c) = Some (rs, w) ∧
    recovered (s_surplus (set_spec cmp)) may (s_counts untouched) ops ([], 0%nat) rs (l, d).
  Proof using CO Hu.
    destruct (attempts_recovered _ _ _ _ _ _ (set_any u cmp CO Hu) ops set_new ([], 0%nat) c) as (rs & s' & c' & [l d] & H1 & H2 & _); [|by exists rs, (s', c'), l, d].
    exists set_new. split; [split; [by apply sholds_new|constructor]|done].
  Qed.
  Theorem multiset_survives_panics (ops : list op) c : ∃ rs w l d, attempts (x_ms_step u) ops (set_new, c) = Some (rs, w) ∧
    recovered (s_surplus (ms_spec cmp)) may (s_counts (ms_left cmp)) ops ([], 0%nat) rs (l, d).
  Proof using CO Hu.
    destruct (attempts_recovered _ _ _ _ _ _ (ms_any u cmp CO Hu) ops set_new ([], 0%nat) c) as (rs & s' & c' & [l d] & H1 & H2 & _); [|by exists rs, (s', c'), l, d].
    exists set_new. split; [by apply sholds_new|done].
  Qed.
  Theorem set_no_effect_partial (Ha : by_args u) (ops : list op) c : ∃ rs w l, attempts (x_set_step u) ops (set_new, c) = Some (rs, w) ∧ recovered (set_spec cmp) may untouched ops [] rs l.
  Proof using CO Hu.
    destruct (attempts_recovered _ _ _ _ _ _ (set_args u cmp CO Hu Ha) ops set_new [] c) as (rs & s' & c' & l & H1 & H2 & _); [|by exists rs, (s', c'), l].
    split; [by apply sholds_new|constructor].
  Qed.
  Theorem multiset_no_effect_partial (Ha : by_args u) (ops : list op) c : ∃ rs w l, attempts (x_ms_step u) ops (set_new, c) = Some (rs, w) ∧ recovered (ms_spec cmp) may (ms_left cmp) ops [] rs l.
  Proof using CO Hu.
    destruct (attempts_recovered _ _ _ _ _ _ (ms_args u cmp CO Hu Ha) ops set_new [] c) as (rs & s' & c' & l & H1 & H2 & _); [|by exists rs, (s', c'), l].
    by apply sholds_new.
  Qed.
End sets.
Print Assumptions map_survives_panics.
Print Assumptions multimap_survives_panics.
Print Assumptions map_no_effect_partial.
Print Assumptions multimap_no_effect_partial.
Print Assumptions set_survives_panics.
Print Assumptions multiset_survives_panics.
Print Assumptions set_no_effect_partial.
Print Assumptions multiset_no_effect_partial.

(** integers, panicking on the call number c only *)
Definition once (a b : Z) (c : nat) : option Z * nat := match c with O => (None, 1000%nat) | S c => (Some (a - b), c) end.
(** integers, panicking on 13 *)
Definition no13 (a b : Z) (c : unit) : option Z * unit := (if (a =? 13) || (b =? 13) then None else Some (a - b), c).
Lemma zcmp_ok : CmpOK Z.sub. Proof. split; intros; lia. Qed.
Lemma once_agrees : agrees_with once Z.sub. Proof. intros a b [|c] z c'; cbn; [done|by intros [= <- _]]. Qed.
Lemma no13_agrees : agrees_with no13 Z.sub. Proof. intros a b c z c'. unfold no13. destruct (_ || _); [done|by intros [= <- _]]. Qed.
Lemma no13_args : by_args no13. Proof. intros a b c c'. unfold no13. by destruct (_ || _). Qed.

(** "an Insert that panics leaves the map as it was": a map with one entry reports two *)
Theorem map_size_after_panic_refuted : ∃ rs w, attempts (x_map_step (V := Z) (W := unit) once) [MInsert 1 10; MInsert 2 20; MSize; MFwd 0; MFwd 1; MContains 2; MInsert 2 20; MSize] (map_new, 2%nat) = Some (rs, w) ∧
  rs = [Answer RUnit; Recovered; Answer (RInt 2); Answer (REnt (Some (1, 10))); Answer (REnt None); Answer (RBool false); Answer RUnit; Answer (RInt 3)].
Proof. eexists _, _. split; [vm_compute; reflexivity|reflexivity]. Qed.
Print Assumptions map_size_after_panic_refuted.
(** the same for the others *)
Theorem set_size_after_panic_refuted : ∃ rs w, attempts (x_set_step (W := unit) once) [SInsert 1; SInsert 2; SSize; SFwd 1] (set_new, 2%nat) = Some (rs, w) ∧ rs = [Answer QUnit; Recovered; Answer (QInt 2); Answer (QElem None)].
Proof. eexists _, _. split; [vm_compute; reflexivity|reflexivity]. Qed.
Print Assumptions set_size_after_panic_refuted.
(** a MultiMap.Erase that panics half way has erased one of the two *)
Theorem multimap_erase_half_done_refuted : ∃ rs w, attempts (x_mm_step (V := Z) (W := unit) once) [MInsert 1 10; MInsert 1 11; MErase 1; MSize; MFwd 0; MFwd 1] (map_new, 4%nat) = Some (rs, w) ∧
  rs = [Answer RUnit; Answer RUnit; Recovered; Answer (RInt 1); Answer (REnt (Some (1, 11))); Answer (REnt None)].
Proof. eexists _, _. split; [vm_compute; reflexivity|reflexivity]. Qed.
Print Assumptions multimap_erase_half_done_refuted.
(** with panics on an argument *)
Example no13_run : ∃ rs w, attempts (x_map_step (V := Z) (W := unit) no13) [MInsert 1 10; MInsert 13 0; MInsert 2 20; MGet 13; MSize; MKeyAt 5; MGet 2] (map_new, tt) = Some (rs, w) ∧
  rs = [Answer RUnit; Recovered; Answer RUnit; Recovered; Answer (RInt 2); Recovered; Answer (ROpt (Some 20))].
Proof. eexists _, _. split; [vm_compute; reflexivity|reflexivity]. Qed.
