(** C83-C85: sorting and priority queues with a comparison function that panics. *)
From Verif Require Import Base Wp ListLib History IterModel IterSpec SortModel SortSpec SortProofs SortProps StableProofs HeapModel AnyCmpHeap AnyCmpProofs AnyCmpProps.
From Verif Require Import CrashModel CrashSpec CrashProofs CrashAlgModel CrashAlgProofs CrashAlgSame GoSliceModel VectorModel SliceModel IterProofs IterProps.
Open Scope nat_scope.

Section sort.
  Context {W T C : Type} (csize : nat → M W Z) (cat : nat → Z → M W T) (cset : nat → Z → T → M W unit).
  Context (o : nat) (R : W → list T → Prop) (L : ra_law csize cat cset o R).
  (** the comparison function has a state, may panic and may contradict itself *)
  Context (u : user_cmp T C).
  Lemma cr_same {S A} (x : X (S * C) A) m s c a s1 s' c' : cr tt_ (can_panic u) x m s → m s = Ok (a, s1) → ∀ r, x (s, c) = (Ok r, (s', c')) → m s = Ok (r, s').
  Proof using. intros H E r Ex. specialize (H c). rewrite E in *. destruct H as [(c1 & H)|(_ & s2 & c2 & H & _)]; rewrite H in Ex; by simplify_eq. Qed.

  (** C83: Sort, NthElement and Stable (of a non-empty range) return, or end in the panic of the
      comparison function; either way they leave a rearrangement of the range and the rest alone; and
      if they return, and the answers were those of cmp, they have done what they do with cmp *)
  Theorem sort_survives_panic w l a b c : R w l → a <= b <= length l →
    ∃ r w' c' s', x_sort_range csize cat cset u (pos o a) (pos o b) (w, c) = (r, (w', c')) ∧ (r = Ok tt ∨ r = Panic ∧ can_panic u) ∧
      R w' (take a l ++ s' ++ drop b l) ∧ s' ≡ₚ seg a b l ∧
      (∀ cmp, r = Ok tt → agrees_with u cmp → sort_range csize cat cset cmp (pos o a) (pos o b) w = Ok (tt, w')).
  Proof using L.
    intros HR Hab. pose proof (xquick_sort _ _ _ o R L u (b - a) w l a b HR Hab ltac:(lia)) as H.
    assert (x_sort_range csize cat cset u (pos o a) (pos o b) = x_quick_sort csize cat cset u (b - a) (pos o a) (MkIter o (Z.of_nat b - 1))) as E0.
    { unfold x_sort_range, it_position, it_at. cbn [it_pos it_obj]. replace (Z.of_nat a + (Z.of_nat b - Z.of_nat a) - 1)%Z with (Z.of_nat b - 1)%Z by lia. by replace (Z.to_nat (Z.of_nat b - Z.of_nat a)) with (b - a) by lia. }
    rewrite <-E0 in H. clear E0. apply (xwp_out _ _ _ _ c) in H as [([] & w' & c' & E & l' & HR' & Hp)|(w' & c' & E & Hc & l' & HR' & Hp)];
      destruct (permuted R w' l l' a b Hab HR' Hp) as (s' & H1 & H2).
    - exists (Ok tt), w', c', s'. split_and!; [done|by left|done|done|]. intros cmp _ Hu. destruct (sort_any_comparator _ _ _ o R L cmp w l a b HR Hab) as (w1 & s1 & E1 & _).
      exact (cr_same _ _ _ _ _ _ _ _ (s_sort csize cat cset u cmp Hu _ _ w) E1 tt E).
    - exists Panic, w', c', s'. split_and!; [done|by right|done|done|]. intros cmp [=].
  Qed.
  Theorem nth_element_survives_panic w l a b n c : R w l → a <= b <= length l →
    ∃ r w' c' s', x_nth_element csize cat cset u (pos o a) (pos o b) n (w, c) = (r, (w', c')) ∧ (r = Ok tt ∨ r = Panic ∧ can_panic u) ∧
      R w' (take a l ++ s' ++ drop b l) ∧ s' ≡ₚ seg a b l ∧
      (∀ cmp, r = Ok tt → agrees_with u cmp → nth_element csize cat cset cmp (pos o a) (pos o b) n w = Ok (tt, w')).
  Proof using L.
    intros HR Hab. assert (xwp (x_nth_element csize cat cset u (pos o a) (pos o b) n) (λ _, moved R a b l) (broke R u a b l) w) as H.
    { unfold x_nth_element, it_position, it_at. cbn [it_pos it_obj]. destruct (_ || _). { apply xwp_ret. by exists l. }
      replace (Z.of_nat a + (Z.of_nat b - Z.of_nat a) - 1)%Z with (Z.of_nat b - 1)%Z by lia. replace (Z.to_nat (Z.of_nat b - Z.of_nat a)) with (b - a) by lia.
      apply (xnth _ _ _ o R L u (b - a) w l a b n HR Hab). lia. }
    apply (xwp_out _ _ _ _ c) in H as [([] & w' & c' & E & l' & HR' & Hp)|(w' & c' & E & Hc & l' & HR' & Hp)];
      destruct (permuted R w' l l' a b Hab HR' Hp) as (s' & H1 & H2).
    - exists (Ok tt), w', c', s'. split_and!; [done|by left|done|done|]. intros cmp _ Hu. destruct (nth_element_any_comparator _ _ _ o R L cmp w l a b n HR Hab) as (w1 & s1 & E1 & _).
      exact (cr_same _ _ _ _ _ _ _ _ (s_nth csize cat cset u cmp Hu _ _ n w) E1 tt E).
    - exists Panic, w', c', s'. split_and!; [done|by right|done|done|]. intros cmp [=].
  Qed.
  Theorem stable_survives_panic zero w l a b fuel c : R w l → a < b <= length l → b - a <= fuel →
    ∃ r w' c' s', x_stable csize cat cset u fuel zero (pos o a) (pos o b) (w, c) = (r, (w', c')) ∧ (r = Ok tt ∨ r = Panic ∧ can_panic u) ∧
      R w' (take a l ++ s' ++ drop b l) ∧ s' ≡ₚ seg a b l ∧
      (∀ cmp, r = Ok tt → agrees_with u cmp → stable csize cat cset cmp fuel zero (pos o a) (pos o b) w = Ok (tt, w')).
  Proof using L.
    intros HR Hab Hf. assert (xwp (x_stable csize cat cset u fuel zero (pos o a) (pos o b)) (λ _, moved R a b l) (broke R u a b l) w) as H.
    { unfold x_stable, it_position. cbn [it_pos]. destruct (Z.ltb_spec (Z.of_nat b - Z.of_nat a) 0); [lia|]. apply xwp_bind.
      eapply xwp_mono; [apply (xmerge_sort _ _ _ o R L u fuel w l a b); [done|done|done|rewrite replicate_length; lia]| |done]. intros tmp w' [_ Hm]. by apply xwp_ret. }
    apply (xwp_out _ _ _ _ c) in H as [([] & w' & c' & E & l' & HR' & Hp)|(w' & c' & E & Hc & l' & HR' & Hp)];
      destruct (permuted R w' l l' a b ltac:(lia) HR' Hp) as (s' & H1 & H2).
    - exists (Ok tt), w', c', s'. split_and!; [done|by left|done|done|]. intros cmp _ Hu. destruct (stable_any_comparator _ _ _ o R L cmp zero w l a b fuel HR Hab Hf) as (w1 & s1 & E1 & _).
      exact (cr_same _ _ _ _ _ _ _ _ (s_stable csize cat cset u cmp Hu fuel zero _ _ w) E1 tt E).
    - exists Panic, w', c', s'. split_and!; [done|by right|done|done|]. intros cmp [=].
  Qed.
  (** NextPermutation compares before it writes: a panic changes nothing.  (The comparison function has to
      answer like one for which "less" and "greater" are opposite: see next_permutation_any_refuted.) *)
  Theorem next_permutation_survives_panic cmp w l a b c : agrees_with u cmp → (∀ x y, (cmp x y < 0)%Z → (0 < cmp y x)%Z) → R w l → a <= b <= length l →
    ∃ r w' c', x_next_permutation csize cat cset u (pos o a) (pos o b) (w, c) = (r, (w', c')) ∧
      ((∃ q, r = Ok q ∧ next_permutation csize cat cset cmp (pos o a) (pos o b) w = Ok (q, w')) ∨ (r = Panic ∧ can_panic u ∧ w' = w)).
  Proof using L.
    intros Hu Hanti HR Hab. pose proof (xnext_permutation _ _ _ o R L u cmp Hu Hanti w l a b HR Hab) as H. apply (xwp_out _ _ _ _ c) in H as [(q & w' & c' & E & H)|(w' & c' & E & Hc & ->)].
    - exists (Ok q), w', c'. split; [done|]. left. exists q. split; [done|].
      assert (∃ q1 w1, next_permutation csize cat cset cmp (pos o a) (pos o b) w = Ok (q1, w1)) as (q1 & w1 & E1).
      { destruct (next_permutation_any_partial _ _ _ o R L cmp w l a b Hanti HR Hab) as [E1|(w1 & s1 & E1 & _)]; by eexists _, _. }
      exact (cr_same _ _ _ _ _ _ _ _ (s_np csize cat cset u cmp Hu _ _ w) E1 q E).
    - exists Panic, w, c'. split; [done|]. by right.
  Qed.
End sort.
Print Assumptions sort_survives_panic.
Print Assumptions nth_element_survives_panic.
Print Assumptions stable_survives_panic.
Print Assumptions next_permutation_survives_panic.

(** C84: package heap: an interrupted Push has added its element, an interrupted Pop or Remove has removed
    none; nothing else is lost or duplicated; Pop returns the element at the front *)
Section heap.
  Context {T C : Type} (u : user_cmp T C).
  Theorem heap_survives_panic (l : list T) c :
    (∃ r l' c', x_init u (l, c) = (r, (l', c')) ∧ (r = Ok tt ∨ r = Panic ∧ can_panic u) ∧ l' ≡ₚ l) ∧
    (∀ x, ∃ r l' c', x_push u x (l, c) = (r, (l', c')) ∧ (r = Ok tt ∨ r = Panic ∧ can_panic u) ∧ l' ≡ₚ x :: l) ∧
    (∀ x t, l = x :: t → ∃ r l' c', x_pop u (l, c) = (r, (l', c')) ∧ (r = Ok x ∧ l' ≡ₚ t ∨ r = Panic ∧ can_panic u ∧ l' ≡ₚ l)) ∧
    (∀ i x, l !! i = Some x → ∃ r l' c', x_remove u (Z.of_nat i) (l, c) = (r, (l', c')) ∧ (r = Ok x ∧ l ≡ₚ x :: l' ∨ r = Panic ∧ can_panic u ∧ l' ≡ₚ l)) ∧
    (∀ i, i < length l → ∃ r l' c', x_fix u (Z.of_nat i) (l, c) = (r, (l', c')) ∧ (r = Ok tt ∨ r = Panic ∧ can_panic u) ∧ l' ≡ₚ l).
  Proof.
    split_and!.
    - destruct (xwp_out _ _ _ _ c (xinit u l)) as [([] & l' & c' & E & P)|(l' & c' & E & Hc & P)]; eexists _, l', c'; (split; [exact E|]); split; [by left|done|by right|done].
    - intros x. destruct (xwp_out _ _ _ _ c (xpush u l x)) as [([] & l' & c' & E & P)|(l' & c' & E & Hc & P)]; eexists _, l', c'; (split; [exact E|]); split; [by left|done|by right|done].
    - intros x t ->. destruct (xwp_out _ _ _ _ c (xpop u x t)) as [(r & l' & c' & E & -> & P)|(l' & c' & E & Hc & P)]; eexists _, l', c'; (split; [exact E|]); [by left|by right].
    - intros i x Hx. destruct (xwp_out _ _ _ _ c (xremove u l i x Hx)) as [(r & l' & c' & E & -> & P)|(l' & c' & E & Hc & P)]; eexists _, l', c'; (split; [exact E|]); [by left|by right].
    - intros i Hi. destruct (xwp_out _ _ _ _ c (xfix u l i Hi)) as [([] & l' & c' & E & P)|(l' & c' & E & Hc & P)]; eexists _, l', c'; (split; [exact E|]); split; [by left|done|by right|done].
  Qed.
  (** PriorityQueue, panics being recovered by the caller: a bag (AnyCmpProps.v) *)
  Inductive bag_recovered : list (pq_op T) → list T → list (outcome (pq_out T)) → list T → Prop :=
  | bagr_nil s : bag_recovered [] s [] s
  | bagr_answer p ops s r s1 rs s2 : bag_allows p s r s1 → bag_recovered ops s1 rs s2 → bag_recovered (p :: ops) s (Answer r :: rs) s2
  | bagr_push x ops s rs s2 : can_panic u → bag_recovered ops (x :: s) rs s2 → bag_recovered (PPush x :: ops) s (Recovered :: rs) s2
  | bagr_pop ops s rs s2 : can_panic u → bag_recovered ops s rs s2 → bag_recovered (PPop :: ops) s (Recovered :: rs) s2
  | bagr_empty p ops rs s2 : p = PPop ∨ p = PTop → bag_recovered ops [] rs s2 → bag_recovered (p :: ops) [] (Recovered :: rs) s2.
  Lemma bag_rec ops l s c : l ≡ₚ s → ∃ rs l' c' s', attempts (x_pq_step u) ops (l, c) = Some (rs, (l', c')) ∧ bag_recovered ops s rs s' ∧ l' ≡ₚ s'.
  Proof.
    revert l s c. induction ops as [|p ops IH]; intros l s c Hl; cbn [attempts]. { exists [], l, c, s. split_and!; [done|constructor|done]. }
    assert ((∃ r l' c' s', x_pq_step u p (l, c) = (Ok r, (l', c')) ∧ bag_allows p s r s' ∧ l' ≡ₚ s') ∨
            (∃ l' c' s', x_pq_step u p (l, c) = (Panic, (l', c')) ∧ l' ≡ₚ s' ∧ ∀ rs s2, bag_recovered ops s' rs s2 → bag_recovered (p :: ops) s (Recovered :: rs) s2)) as Hstep.
    { destruct p as [x| | | | |]; cbn [x_pq_step].
      - destruct (xwp_out _ _ _ _ c (xpush u l x)) as [([] & l' & c' & E & P)|(l' & c' & E & Hc & P)]; unfold xbind; rewrite E.
        + left. exists PUnit, l', c', (x :: s). split_and!; [done|constructor|by rewrite P, Hl].
        + right. exists l', c', (x :: s). split_and!; [done|by rewrite P, Hl|]. intros. by constructor.
      - destruct l as [|x t].
        { right. apply Permutation_nil_l in Hl as <-. exists [], c, []. split_and!; [done|done|]. intros. constructor; [by left|done]. }
        destruct (xwp_out _ _ _ _ c (xpop u x t)) as [(r & l' & c' & E & -> & P)|(l' & c' & E & Hc & P)]; unfold xbind; rewrite E.
        + left. exists (PVal x), l', c', l'. split_and!; [done|constructor; by rewrite P, Hl|done].
        + right. exists l', c', s. split_and!; [done|by rewrite P, Hl|]. intros. by constructor.
      - destruct l as [|x t].
        { right. apply Permutation_nil_l in Hl as <-. exists [], c, []. split_and!; [done|done|]. intros. constructor; [by right|done]. }
        left. exists (PVal x), (x :: t), c, s. split_and!; [done|constructor; rewrite <-Hl; by left|done].
      - left. exists (PBool (bool_decide (s = []))), l, c, s. split_and!; [|constructor|done]. unfold xrun, pq_step, mbind_, h_len, mret_. cbn [fst snd]. do 3 f_equal. destruct l as [|x t].
        + apply Permutation_nil_l in Hl as <-. done.
        + rewrite bool_decide_eq_false_2; [done|]. intros ->. by apply Permutation_nil_r in Hl.
      - left. exists PUnit, [], c, []. split_and!; [done|constructor|done].
      - left. exists (PInt (Z.of_nat (length s))), l, c, s. split_and!; [|constructor|done]. unfold xrun, pq_step, mbind_, h_len, mret_. cbn [fst snd]. by rewrite (Permutation_length Hl). }
    destruct Hstep as [(r & l' & c' & s' & -> & Ha & Hl')|(l' & c' & s' & -> & Hl' & Ha)]; destruct (IH l' s' c' Hl') as (rs & l2 & c2 & s2 & -> & H1 & H2).
    - exists (Answer r :: rs), l2, c2, s2. split_and!; [done|by econstructor|done].
    - exists (Recovered :: rs), l2, c2, s2. split_and!; [done|by apply Ha|done].
  Qed.
  Theorem priority_queue_survives_panics ops c : ∃ rs l c' s, attempts (x_pq_step u) ops ([], c) = Some (rs, (l, c')) ∧ bag_recovered ops [] rs s ∧ l ≡ₚ s.
  Proof. by apply bag_rec. Qed.
  (** C85, what holds: as long as no call has panicked, all is as with a comparison function that cannot panic *)
  Theorem priority_queue_until_panic_partial cmp ops c rs w : agrees_with u cmp → attempts (x_pq_step u) ops ([], c) = Some (Answer <$> rs, w) → run (pq_step cmp) ops [] = Ok (rs, w.1).
  Proof.
    intros Hu. generalize (@nil T). revert c rs. induction ops as [|p ops IH]; intros c rs l; cbn [attempts run]. { destruct rs; [|done]. by intros [= <-]. }
    pose proof (s_pq u cmp Hu p l c) as H. pose proof (bag_run cmp [p] l l ltac:(done)) as Hf. cbn [run] in Hf.
    destruct (pq_step cmp p l) as [[r l1]| |]; [| |done].
    - destruct H as [(c1 & ->)|(_ & l2 & c2 & -> & _)]; (destruct (attempts _ ops _) as [[rs1 w1]|] eqn:E; [|done]); cbn; intros E2; [|destruct rs; by simplify_eq].
      destruct rs as [|r' rs]; simplify_eq/=. by rewrite (IH _ _ _ E).
    - destruct H as (l2 & c2 & -> & _). destruct (attempts _ ops _) as [[rs1 w1]|]; [|done]. cbn. intros E2. destruct rs; by simplify_eq.
  Qed.
End heap.
Print Assumptions heap_survives_panic.
Print Assumptions priority_queue_survives_panics.
Print Assumptions priority_queue_until_panic_partial.

(** a comparison function on integers that panics once, after n comparisons *)
Definition bomb : user_cmp Z nat := λ a b n, match n with 1 => (None, 0) | S n => (Some (a - b)%Z, n) | 0 => (Some (a - b)%Z, 0) end.
Example bomb_agrees : agrees_with bomb Z.sub.
Proof. intros a b [|[|n]] z c'; cbn; intros [= <- _]; done. Qed.
Example bomb_panics : can_panic bomb. Proof. by exists 0%Z, 0%Z, 1, 0. Qed.
(** C85 fails: an interrupted Push has pushed, and afterwards Top and Pop return 5 although 3 is less *)
Theorem priority_queue_after_panic_refuted : ∃ rs w, attempts (x_pq_step bomb) [PPush 5; PPush 3; PSize; PTop; PPop; PPop; PEmpty]%Z ([], 1) = Some (rs, w) ∧
  rs = [Answer PUnit; Recovered; Answer (PInt 2); Answer (PVal 5); Answer (PVal 5); Answer (PVal 3); Answer (PBool true)]%Z.
Proof. eexists _, _. split; [vm_compute; reflexivity|reflexivity]. Qed.
Print Assumptions priority_queue_after_panic_refuted.
(** the same for an interrupted Pop *)
Example priority_queue_after_pop : ∃ rs w, attempts (x_pq_step bomb) [PPush 1; PPush 2; PPush 3; PPush 4; PPop; PSize; PPop; PPop]%Z ([], 5) = Some (rs, w) ∧
  rs = [Answer PUnit; Answer PUnit; Answer PUnit; Answer PUnit; Recovered; Answer (PInt 4); Answer (PVal 4); Answer (PVal 1)]%Z.
Proof. eexists _, _. split; [vm_compute; reflexivity|reflexivity]. Qed.
(** a slice of six elements: Sort stopped after seven comparisons *)
Definition six : world Z := MkWorld (MkMem {[0 := [6; 5; 3; 1; 4; 2]%Z]} 1) [MkSlice 0 0 6 6].
Example six_holds : sw_holds 0 six [6; 5; 3; 1; 4; 2]%Z.
Proof. eexists; split; [reflexivity|]; split; [eexists; split; [reflexivity|cbn; lia]|reflexivity]. Qed.
Example six_sort : ∃ w', x_sort_range sw_len sw_at sw_set bomb (pos 0 0) (pos 0 6) (six, 7) = (Panic, (w', 0)) ∧ array_of 0 (w_mem w') = [1; 5; 3; 4; 2; 6]%Z.
Proof. eexists. split; [vm_compute; reflexivity|]. vm_compute; reflexivity. Qed.
Example six_stable : ∃ w', x_stable sw_len sw_at sw_set bomb 6 0%Z (pos 0 0) (pos 0 6) (six, 7) = (Panic, (w', 0)) ∧ array_of 0 (w_mem w') = [3; 5; 6; 1; 2; 4]%Z.
Proof. eexists. split; [vm_compute; reflexivity|]. vm_compute; reflexivity. Qed.
