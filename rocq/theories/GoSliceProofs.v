From Verif Require Import Base GoSliceModel.
Open Scope Z_scope.
Open Scope go_scope.

Section proofs.
  Context {T : Type}.
  Implicit Types (m : mem T) (s : slice) (l : list T).

  (** slice header s in store m holds exactly the elements l *)
  Definition wf_slice m s l : Prop :=
    s_off s = 0%nat ∧ (s_arr s < m_next m)%nat ∧
    ∃ a, m_arr m !! s_arr s = Some a ∧ length a = s_cap s ∧ (s_len s <= s_cap s)%nat ∧ l = take (s_len s) a.
  (** going from m to m' only touches array a and fresh arrays *)
  Definition mem_step (a : nat) m m' : Prop :=
    (m_next m <= m_next m')%nat ∧
    ∀ b, b ≠ a → (b < m_next m)%nat → m_arr m' !! b = m_arr m !! b.

  Lemma mem_step_refl a m : mem_step a m m.
  Proof. by split. Qed.
  Lemma mem_step_trans a m1 m2 m3 : mem_step a m1 m2 → mem_step a m2 m3 → mem_step a m1 m3.
  Proof. intros [H1 H2] [H3 H4]. split; [lia|]. intros b ? ?. rewrite H4 by lia. auto. Qed.
  (** a step on a fresh array is a step on any array *)
  Lemma mem_step_fresh a b m1 m2 m3 : mem_step a m1 m2 → (m_next m1 <= b)%nat → mem_step b m2 m3 → mem_step a m1 m3.
  Proof. intros [H1 H2] Hb [H3 H4]. split; [lia|]. intros c ? ?. rewrite H4 by lia. auto. Qed.
  Lemma mem_step_other m m' a s l : mem_step a m m' → s_arr s ≠ a → wf_slice m s l → wf_slice m' s l.
  Proof. intros [H1 H2] Hne (? & ? & x & ? & ?). split; [done|]. split; [lia|]. exists x. rewrite H2 by done. done. Qed.

  Lemma wf_length m s l : wf_slice m s l → length l = s_len s.
  Proof. intros (_ & _ & a & _ & ? & ? & ->). rewrite take_length. lia. Qed.
  Lemma wf_cap m s l : wf_slice m s l → (s_len s <= s_cap s)%nat.
  Proof. intros (_ & _ & a & _ & ? & ? & ->). done. Qed.
  Lemma wf_vals m s l : wf_slice m s l → s_vals s m = l.
  Proof. intros (E & _ & a & H & ? & ? & ->). unfold s_vals, array_of. rewrite H, E. done. Qed.

  Lemma s_get_ok m s l i : wf_slice m s l → s_get s i m = match idx l i with Ok x => Ok (x, m) | Panic => Panic | Fuel => Fuel end.
  Proof.
    intros Hwf. pose proof (wf_length _ _ _ Hwf) as Hl. unfold s_get, idx. rewrite Hl.
    destruct Hwf as (E & _ & a & H & ? & ? & ->). unfold array_of. rewrite H, E. simpl.
    destruct (Z.leb_spec 0 i), (Z.ltb_spec i (Z.of_nat (s_len s))); simpl; try done.
    rewrite lookup_take by lia. by destruct (a !! Z.to_nat i).
  Qed.
  Lemma s_get_Some m s l i x : wf_slice m s l → l !! i = Some x → s_get s (Z.of_nat i) m = Ok (x, m).
  Proof. intros Hwf H. rewrite (s_get_ok _ _ _ _ Hwf). by rewrite (idx_nat _ _ _ H). Qed.

  Lemma s_set_ok m s l i x : wf_slice m s l → 0 <= i < Z.of_nat (length l) →
    ∃ m', s_set s i x m = Ok (tt, m') ∧ wf_slice m' s (<[Z.to_nat i := x]> l) ∧ mem_step (s_arr s) m m' ∧ m_next m' = m_next m.
  Proof.
    intros Hwf Hi. pose proof (wf_length _ _ _ Hwf) as Hl. unfold s_set.
    destruct (Z.leb_spec 0 i), (Z.ltb_spec i (Z.of_nat (s_len s))); simpl; try lia.
    eexists. split; [done|]. destruct Hwf as (E & ? & a & H' & ? & ? & ->). split; [split; [done|]; split; [done|]|split; [split; simpl|done]].
    - simpl. eexists. rewrite lookup_insert. split; [done|]. unfold array_of. rewrite H', E. simpl.
      rewrite insert_length. split_and!; [done|done|]. by rewrite take_insert_lt by lia.
    - done.
    - intros b ? ?. simpl. by rewrite lookup_insert_ne.
  Qed.

  Lemma alloc_ok l m : ∃ m', alloc l m = Ok (m_next m, m') ∧ m_arr m' !! m_next m = Some l ∧
    m_next m' = S (m_next m) ∧ ∀ a, mem_step a m m'.
  Proof.
    eexists. split; [done|]. simpl. rewrite lookup_insert. split_and!; [done|done|].
    intros a. split; simpl; [lia|]. intros b ? ?. rewrite lookup_insert_ne by lia. done.
  Qed.

  Lemma s_to_ok m s l n : wf_slice m s l → 0 <= n <= Z.of_nat (length l) →
    ∃ s', s_to s n m = Ok (s', m) ∧ wf_slice m s' (take (Z.to_nat n) l) ∧ s_arr s' = s_arr s.
  Proof.
    intros Hwf H. pose proof (wf_length _ _ _ Hwf) as Hl. pose proof (wf_cap _ _ _ Hwf). unfold s_to.
    destruct (Z.leb_spec 0 n), (Z.leb_spec n (Z.of_nat (s_cap s))); simpl; try lia.
    eexists. split; [done|]. split; [|done]. destruct Hwf as (E & ? & a & Ha & ? & ? & ->). split; [done|]. split; [done|].
    exists a. simpl. split_and!; [done|done|lia|]. rewrite take_take. f_equal. lia.
  Qed.
  Lemma s_from_vals m s l n : wf_slice m s l → 0 <= n <= Z.of_nat (length l) →
    ∃ s', s_from s n m = Ok (s', m) ∧ s_vals s' m = drop (Z.to_nat n) l.
  Proof.
    intros Hwf H. pose proof (wf_length _ _ _ Hwf) as Hl. unfold s_from.
    destruct (Z.leb_spec 0 n), (Z.leb_spec n (Z.of_nat (s_len s))); simpl; try lia.
    eexists. split; [done|]. destruct Hwf as (E & ? & a & Ha & ? & ? & ->). unfold s_vals, array_of. simpl.
    rewrite Ha, E. simpl. rewrite skipn_firstn_comm. done.
  Qed.

  Lemma copy_loop_ok cnt i m d ld s l : wf_slice m d ld → wf_slice m s l → s_arr d ≠ s_arr s →
    (i + cnt = length l)%nat → length ld = length l → take i ld = take i l →
    ∃ m', copy_loop cnt (Z.of_nat i) d s m = Ok (tt, m') ∧ wf_slice m' d l ∧ mem_step (s_arr d) m m' ∧ m_next m' = m_next m.
  Proof.
    revert i m ld. induction cnt as [|c IH]; intros i m ld Hd Hs Hne Hi Hl Ht; simpl.
    - exists m. rewrite !firstn_all2 in Ht by lia. subst. split_and!; [done|done|apply mem_step_refl|done].
    - destruct (lookup_lt_is_Some_2 l i ltac:(lia)) as [x Hx]. unfold mbind_.
      rewrite (s_get_Some _ _ _ _ _ Hs Hx).
      destruct (s_set_ok m d ld (Z.of_nat i) x Hd ltac:(lia)) as (m1 & -> & Hd1 & Hs1 & Hn1). rewrite Nat2Z.id in Hd1.
      replace (Z.of_nat i + 1) with (Z.of_nat (S i)) by lia.
      destruct (IH (S i) m1 _ Hd1) as (m' & E & ? & ? & ?); [by eapply mem_step_other|done|lia|by rewrite insert_length| |].
      + rewrite !(take_S_r _ _ x); [|done|by rewrite list_lookup_insert by lia]. f_equal.
        by rewrite take_insert.
      + exists m'. split_and!; [done|done| |congruence]. eapply mem_step_trans; done.
  Qed.

  Context (zero : T).
  Lemma make_slice_ok len cap m : 0 <= len <= cap →
    ∃ s m', make_slice zero len cap m = Ok (s, m') ∧ wf_slice m' s (replicate (Z.to_nat len) zero) ∧
      (∀ a, mem_step a m m') ∧ s_arr s = m_next m ∧ Z.of_nat (s_cap s) = cap ∧ Z.of_nat (s_len s) = len.
  Proof.
    intros H. unfold make_slice. destruct (Z.ltb_spec len 0), (Z.ltb_spec cap len); simpl; try lia.
    destruct (alloc_ok (replicate (Z.to_nat cap) zero) m) as (m' & E & Hm & Hn & Hs).
    unfold mbind_. rewrite E. unfold mret_. do 2 eexists. split; [done|]. split_and!; simpl; try done; try lia.
    split; [done|]. split; [simpl; lia|]. eexists. split; [done|]. simpl. rewrite replicate_length.
    split_and!; [done|lia|]. rewrite take_replicate. f_equal. lia.
  Qed.

  Context (grow : nat → nat → nat).
  Lemma s_append_ok m s l xs : wf_slice m s l →
    ∃ s' m', s_append zero grow s xs m = Ok (s', m') ∧ wf_slice m' s' (l ++ xs) ∧ mem_step (s_arr s) m m' ∧
      (s_arr s' = s_arr s ∨ (m_next m <= s_arr s')%nat).
  Proof.
    intros Hwf. pose proof (wf_length _ _ _ Hwf) as Hl. unfold s_append.
    destruct (Nat.leb_spec (s_len s + length xs) (s_cap s)).
    - do 2 eexists. split; [done|]. destruct Hwf as (E & ? & a & Ha & ? & ? & ->). rewrite take_length in Hl.
      split_and!; simpl; [|split; simpl; [done|intros; by rewrite lookup_insert_ne]|by left].
      split; [done|]. split; [done|]. eexists. simpl. rewrite lookup_insert. split; [done|].
      unfold array_of. rewrite Ha, E. cbn [default]. rewrite !app_length, take_length, drop_length. split_and!; [simpl; lia|lia|].
      simpl. rewrite app_assoc. rewrite take_app_alt; [done|]. rewrite app_length, take_length. lia.
    - rewrite (wf_vals _ _ _ Hwf). cbn [mbind_]. unfold mbind_.
      destruct (alloc_ok (l ++ xs ++ replicate (s_len s + length xs + grow (s_cap s) (s_len s + length xs) - (s_len s + length xs)) zero) m) as (m' & -> & Hm & Hn & Hs).
      do 2 eexists. split; [done|]. split_and!; [|done|simpl; right; lia].
      split; [done|]. split; [simpl; lia|]. eexists. split; [done|]. simpl.
      rewrite !app_length, replicate_length. split_and!; [lia|lia|].
      rewrite app_assoc. rewrite take_app_alt; [done|]. rewrite app_length. lia.
  Qed.

End proofs.
