(** Property C87: a Hamt does not copy the keys it stores. *)
From Verif Require Import Base History GoSliceModel HamtModel HamtSpec HamtProofs HamtProps HamtAliasModel HamtAliasSpec HamtAliasProofs.
Open Scope N_scope.

(** the bytes a slice of protected slices holds *)
Definition shows (ins : list slice) (m : mem N) (s : slice) (k : key) : Prop := s ∈ ins ∧ s_vals s m = k.
(** bytes in memory stay bytes *)
Lemma vals_bytes m s : mem_bytes m → is_bytes (s_vals s m).
Proof.
  intros Hm. unfold s_vals, array_of. destruct (m_arr m !! s_arr s) as [l|] eqn:E; cbn.
  - apply Forall_take, Forall_drop. by eapply Hm.
  - rewrite drop_nil, take_nil. constructor.
Qed.
Lemma al_mem_bytes {T} m (o : al_op T) : al_op_ok o → mem_bytes m → mem_bytes (al_mem m o).
Proof.
  destruct o as [| | | |a i b]; try done. cbn. intros Hb Hm a' l. destruct (decide (a' = a)) as [->|Hne].
  - cbn [m_arr]. rewrite lookup_insert. intros [= <-]. unfold array_of. destruct (m_arr m !! a) as [l|] eqn:E; cbn.
    + apply Forall_insert; [by eapply Hm | done].
    + constructor.
  - cbn [m_arr]. rewrite lookup_insert_ne by done. apply Hm.
Qed.
(** a write outside a slice does not change its bytes *)
Lemma write_misses {T} m a i b s : ¬ hits a i s → s_vals s (al_mem m (AWrite a i b : al_op T)) = s_vals s m.
Proof.
  intros Hn. unfold s_vals. cbn [al_mem]. unfold array_of at 1. cbn [m_arr]. destruct (decide (s_arr s = a)) as [<-|Hne].
  - rewrite lookup_insert. cbn. apply list_eq. intros j. destruct (decide (j < s_len s)%nat) as [Hj|Hj].
    + rewrite !lookup_take, !lookup_drop by lia. apply list_lookup_insert_ne. intros ->. apply Hn. split; [done|]. lia.
    + rewrite !lookup_take_ge by lia. done.
  - rewrite lookup_insert_ne by done. done.
Qed.

Section props.
  Context {T : Type} (hf : key → N) (Hhf : ∀ k, is_bytes k → hf k < 2 ^ 64).
  Notation brel := (brel (T := T)).
  (** the state reached, the slices inserted so far, and the map *)
  Definition al_inv (ins : list slice) (w : mem N * ghamt slice T) (m : mem N * gmap key T) : Prop :=
    w.1 = m.1 ∧ mem_bytes w.1 ∧ ∃ h, brel (shows ins w.1) w.2 h ∧ holds hf h m.2.
  Lemma brel_mono (R R' : slice → key → Prop) x y : (∀ s k, R s k → R' s k) → brel R x y → brel R' x y.
  Proof using.
    intros HR [H1 H2]. split; [done|]. eapply Forall2_impl; [exact H2|]. intros o o' Ho. destruct Ho; constructor. by eapply erel_mono.
  Qed.
  Lemma same_bytes_shows m ins s a a' : shows ins m a a' → same_bytes m a s = bool_decide (a' = s_vals s m).
  Proof using. intros [_ <-]. done. Qed.
  (** the slices an operation stores *)
  Definition inserts (o : al_op T) : list slice := match o with AInsert s _ => [s] | _ => [] end.
  Lemma al_step_ok ins o w m : al_op_ok o → al_inv ins w m → (∀ a i b, o = AWrite a i b → ∀ s, s ∈ ins → ¬ hits a i s) →
    ∃ a w', al_step hf o w = Ok (a, w') ∧ al_answer m o a ∧ al_inv (inserts o ++ ins) w' (al_after m o).
  Proof using Hhf.
    intros Ho (Hm & Hb & h & Hr & Hh) Hw. destruct w as [mm gh], m as [mm' g]. cbn [fst snd] in *. subst mm'.
    assert (Hsb : ∀ s, is_bytes (s_vals s mm)) by (intros s; by apply vals_bytes).
    destruct Hr as [Hr1 Hr2]. destruct gh as [gb gc], h as [hb hc]. cbn [fst snd] in Hr1, Hr2. subst hb.
    destruct o as [s v|s|s| |a i b]; cbn [al_step al_answer inserts app].
    - destruct (step_ok (W := unit) hf Hhf (HInsert (s_vals s mm) v) (gb, hc) g (Hsb s) Hh) as (a & h' & E & Ha & Hh').
      cbn [hm_step] in E. unfold hm_Insert in E.
      assert (Hr' : srel (T := T) (shows (s :: ins) mm) gc hc).
      { assert (brel (shows (s :: ins) mm) (gb, gc) (gb, hc)) as [_ H]; [|exact H]. apply (brel_mono (shows ins mm)); [|by split]. intros s' k [? ?]. split; [by right | done]. }
      pose proof (insert_rel (T := T) (shows (s :: ins) mm) (same_bytes mm)) as HI.
      specialize (HI ltac:(intros a1 a' b1 b' [_ <-] [_ <-]; done) levels 0%nat (hf (s_vals s mm)) [(s, v)] [(s_vals s mm, v)] gb gc hc).
      specialize (HI ltac:(constructor; [split; [split; [by left | done] | done] | constructor]) Hr').
      cbn [fst snd] in *. destruct (bn_insert _ _ _ _ _ _) as [h1| |]; [|done|done]. injection E as <- <-.
      apply rrel_ok in HI as (gh & -> & Hg). eexists _, _. split; [reflexivity|]. split; [done|]. split; [done|]. split; [done|]. exists h1. by split.
    - destruct (step_ok (W := unit) hf Hhf (HGet (s_vals s mm)) (gb, hc) g (Hsb s) Hh) as (a & h' & E & Ha & Hh').
      cbn [hm_step] in E. unfold hm_Get in E. cbn [fst snd] in *.
      rewrite (gfind_rel (T := T) (shows ins mm) (same_bytes mm) levels 0%nat (hf (s_vals s mm)) s (s_vals s mm) gb gc hc); [|intros ? ?; apply same_bytes_shows | done].
      destruct (bn_find _ _ _ _ _ _) as [r| |]; [|done|done]. injection E as <- <-. cbn [hm_answer] in Ha. injection Ha as ->.
      eexists _, _. split; [reflexivity|]. split; [done|]. split; [done|]. split; [done|]. exists (gb, hc). by split.
    - destruct (step_ok (W := unit) hf Hhf (HErase (s_vals s mm)) (gb, hc) g (Hsb s) Hh) as (a & h' & E & Ha & Hh').
      cbn [hm_step] in E. unfold hm_Erase in E. cbn [fst snd] in *.
      pose proof (erase_rel (T := T) (shows ins mm) (same_bytes mm) levels 0%nat (hf (s_vals s mm)) s (s_vals s mm) gb gc hc) as HE.
      specialize (HE ltac:(intros ? ?; apply same_bytes_shows) Hr2).
      destruct (bn_erase _ _ _ _ _ _) as [[[ok b1] c1]| |]; [|done|done]. injection E as <- <-. cbn [hm_answer fst snd] in *. injection Ha as ->.
      apply rrel_ok in HE as ([[ok' b2] c2] & -> & [[= -> ->] Hc]). cbn [snd] in Hc.
      eexists _, _. split; [reflexivity|]. split; [done|]. split; [done|]. split; [done|]. exists (b1, c1). by split.
    - destruct (step_ok (W := unit) hf Hhf HKeys (gb, hc) g I Hh) as (a & h' & E & Ha & Hh').
      cbn [hm_step] in E. unfold hm_Keys in E. cbn [fst snd] in *.
      pose proof (keys_rel (T := T) (shows ins mm) levels gc hc [] [] Hr2 ltac:(constructor)) as HK.
      destruct (bn_traversal _ _ _ _) as [l| |]; [|done|done]. injection E as <- <-. apply rrel_ok in HK as (ks & -> & HK).
      assert ((λ s, s_vals s mm) <$> ks = l) as Hl. { clear -HK. induction HK as [|x y ? ? [_ Hx] _ IH]; [done|]. cbn. by rewrite Hx, IH. }
      destruct Ha as (l' & [= ->] & Hn & Hi). rewrite Hl.
      eexists _, _. split; [reflexivity|]. split; [by exists l'|]. split; [done|]. split; [done|]. exists (gb, hc). by split.
    - eexists _, _. split; [reflexivity|]. split; [done|]. split; [done|]. split.
      { apply (al_mem_bytes mm (AWrite a i b) Ho Hb). }
      exists (gb, hc). split; [|done]. cbn [fst snd]. apply (brel_mono (shows ins mm)); [|by split].
      intros s k [Hs Hk]. split; [done|]. rewrite <- Hk. apply (write_misses (T := T)). by eapply Hw.
  Qed.
  Lemma al_run_ok (ops : list (al_op T)) : ∀ ins w m, Forall al_op_ok ops → al_inv ins w m → keeps_inserted ops →
    (∀ j a i b, ops !! j = Some (AWrite a i b) → ∀ s, s ∈ ins → ¬ hits a i s) →
    ∃ rs w', run (al_step hf) ops w = Ok (rs, w') ∧ length rs = length ops ∧
      ∀ i o, ops !! i = Some o → ∃ a, rs !! i = Some a ∧ al_answer (foldl al_after m (take i ops)) o a.
  Proof using Hhf.
    induction ops as [|o ops IH]; intros ins w m Hok Hi Hk Hw. { exists [], w. split; [done|]. split; [done|]. intros i o. by rewrite lookup_nil. }
    inversion Hok as [|? ? Ho Hok']; subst.
    destruct (al_step_ok ins o w m Ho Hi) as (a & w1 & E & Ha & Hi1). { intros a i b -> s Hs. exact (Hw 0%nat a i b eq_refl s Hs). }
    destruct (IH _ _ _ Hok' Hi1) as (rs & w2 & E2 & Hl & Hrs).
    { intros i j s v a' x b Hij H1 H2. eapply (Hk (S i) (S j)); [lia | exact H1 | exact H2]. }
    { intros j a' i b Hj s. rewrite elem_of_app. intros [Hs|Hs].
      - destruct o as [s' v| | | |]; cbn [inserts] in Hs; try (by apply elem_of_nil in Hs). apply elem_of_list_singleton in Hs as ->.
        eapply (Hk 0%nat (S j)); [lia | reflexivity | exact Hj].
      - exact (Hw (S j) a' i b Hj s Hs). }
    exists (a :: rs), w2. cbn [run]. rewrite E, E2. split; [done|]. split; [cbn; by rewrite Hl|]. intros [|i] o'; cbn.
    - intros [= <-]. by exists a.
    - apply Hrs.
  Qed.
  (** C87, the part that holds.  The caller creates slices as it likes, calls the Hamt with them and goes
      on writing into its arrays, but never overwrites a byte of a slice it passed to Insert: no call
      panics and every answer is the one of the finite map whose keys are the bytes at the time of each
      call. *)
  Theorem hamt_aliased_keys_partial m0 (ops : list (al_op T)) : mem_bytes m0 → Forall al_op_ok ops → keeps_inserted ops →
    ∃ rs w, run (al_step hf) ops (m0, (0, [])) = Ok (rs, w) ∧ length rs = length ops ∧
      ∀ i o, ops !! i = Some o → ∃ a, rs !! i = Some a ∧ al_answer (foldl al_after (m0, ∅) (take i ops)) o a.
  Proof using Hhf.
    intros Hm Hok Hk. apply (al_run_ok ops []); [done | | done |].
    - split; [done|]. split; [done|]. exists hm_new. split; [split; [done | constructor] | apply holds_new].
    - intros j a i b _ s Hs. by apply elem_of_nil in Hs.
  Qed.
End props.
(** the same for the code's own hash function *)
Theorem hamt_fnv_aliased_keys_partial {T} m0 (ops : list (al_op T)) : mem_bytes m0 → Forall al_op_ok ops → keeps_inserted ops →
    ∃ rs w, run (al_step fnv1) ops (m0, (0, [])) = Ok (rs, w) ∧ length rs = length ops ∧
      ∀ i o, ops !! i = Some o → ∃ a, rs !! i = Some a ∧ al_answer (foldl al_after (m0, ∅) (take i ops)) o a.
Proof. apply hamt_aliased_keys_partial, fnv1_64. Qed.

(** C87 is false.  One buffer of two bytes, used to build one key after the other: *)
Definition mem1 : mem N := MkMem {[ 0%nat := [97; 98]; 1%nat := [97; 98]; 2%nat := [99; 98] ]} 3.
Definition buf : slice := MkSlice 0 0 2 2.
Definition old_bytes : slice := MkSlice 1 0 2 2.
Definition new_bytes : slice := MkSlice 2 0 2 2.
(** Insert(buf, 1); buf[0] = 'c'; then neither the old nor the new bytes are found, neither can be
    erased, but Keys lists the new bytes *)
Definition alias_ops : list (al_op nat) := [AInsert buf 1%nat; AGet old_bytes; AWrite 0 0 99; AGet old_bytes; AGet new_bytes; AGet buf; AErase old_bytes; AErase new_bytes; AKeys].
Theorem hamt_aliased_keys_refuted : mem_bytes mem1 ∧ Forall al_op_ok alias_ops ∧ ∃ w, run (al_step fnv1) alias_ops (mem1, (0, [])) =
    Ok ([AUnit; AVal (Some 1%nat); AUnit; AVal None; AVal None; AVal None; ABool false; ABool false; AKeyList [[99; 98]]], w) ∧
  (** the map's answers to the third Get and to Keys are others *)
  ¬ al_answer (foldl al_after (mem1, ∅) (take 3 alias_ops)) (AGet old_bytes) (AVal (None : option nat)) ∧
  ¬ al_answer (foldl al_after (mem1, ∅) (take 8 alias_ops)) AKeys (AKeyList [[99; 98]] : al_res nat).
Proof.
  split. { intros a l H. unfold mem1 in H. cbn [m_arr] in H. rewrite !lookup_insert_Some, lookup_singleton_Some in H. destruct H as [[_ <-]|[_ [[_ <-]|[_ [_ <-]]]]]; repeat constructor; done. }
  split. { repeat constructor; done. }
  eexists. split; [vm_compute; reflexivity|]. split.
  - intros H. vm_compute in H. discriminate H.
  - intros (l & [= <-] & _ & Hk). assert (Hin : [99; 98] ∈ [[99; 98]]) by (by left). apply Hk in Hin as [v Hv]. vm_compute in Hv. discriminate Hv.
Qed.

(** a history with a reused lookup buffer meets the hypotheses, writes included *)
Example alias_nonvacuous : keeps_inserted [AInsert old_bytes 1%nat; AWrite 0 0 99; AGet buf; AWrite 0 0 97; AGet buf; AErase buf; AKeys].
Proof.
  intros i j s v a x b Hij Hi Hj. assert (Hj' : a = 0%nat). { do 7 (destruct j as [|j]; [naive_solver|]). done. }
  assert (Hs : s = old_bytes). { do 7 (destruct i as [|i]; [naive_solver|]). done. }
  intros [H _]. subst. done.
Qed.
Print Assumptions hamt_aliased_keys_partial.
Print Assumptions hamt_fnv_aliased_keys_partial.
Print Assumptions hamt_aliased_keys_refuted.
