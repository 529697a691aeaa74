(** Property C71: the slice returned by Data and the vector are the same elements until the
    vector's capacity changes, and have nothing to do with each other afterwards. *)
From Verif Require Import Base History GoSliceModel GoSliceProofs VectorModel VectorSpec VectorProofs VectorDataModel.
Open Scope Z_scope.
Open Scope go_scope.

Section spec.
  Context {T : Type} (zero : T) (grow : nat → nat → nat).
  Notation step := (xstep zero grow).
  (** states a client can bring about *)
  Definition xreach (st : xst T) : Prop := ∃ ops rs, run step ops xst0 = Ok (rs, st).
  (** Size and Capacity of vector v *)
  Definition vsize (v : nat) (st : xst T) : option Z := match v_size v (x_w st) with Ok (n, _) => Some n | _ => None end.
  Definition vcap (v : nat) (st : xst T) : option Z := match v_capacity v (x_w st) with Ok (n, _) => Some n | _ => None end.
  (** a run during which the capacity of v stays what it is *)
  Inductive quiet (v : nat) : xst T → list (xop T) → xst T → Prop :=
  | quiet_nil st : quiet v st [] st
  | quiet_cons st o r st1 ops st' : step o st = Ok (r, st1) → vcap v st1 = vcap v st → quiet v st1 ops st' → quiet v st (o :: ops) st'.
  (** slice h and vector v are the same elements, as far as both reach *)
  Definition shared (v h : nat) (st : xst T) : Prop := ∃ n m, vsize v st = Some n ∧ step (XLen h) st = Ok (XV (VInt m), st) ∧
    ∀ i, 0 <= i < n → i < m → step (XGet h i) st = step (XVec (VAt v i)) st ∧ (∃ x, step (XGet h i) st = Ok (XV (VVal x), st))
      ∧ ∀ x, step (XSet h i x) st = step (XVec (VSetAt v i x)) st ∧ ∃ st', step (XSet h i x) st = Ok (XV VUnit, st').
  (** writing slice h changes no vector and calls on vectors do not change what h reads *)
  Definition separate (h : nat) (st : xst T) : Prop :=
    (∀ i x r st', step (XSet h i x) st = Ok (r, st') → ∀ u j y, step (XVec (VAt u j)) st = Ok (y, st) ↔ step (XVec (VAt u j)) st' = Ok (y, st'))
    ∧ (∀ o r st', step (XVec o) st = Ok (r, st') → ∀ i y, step (XGet h i) st = Ok (y, st) ↔ step (XGet h i) st' = Ok (y, st')).
End spec.

Section proofs.
  Context {T : Type} (zero : T) (grow : nat → nat → nat).
  Implicit Types (w : world T) (ls : list (list T)) (st : xst T).
  Notation step := (xstep zero grow).
  Definition moved (s s' : slice) (m m' : mem T) : Prop :=
    (s_arr s' = s_arr s ∧ s_cap s' = s_cap s) ∨ ((m_next m <= s_arr s')%nat ∧ s_cap s' ≠ s_cap s ∧ ∀ a, mem_step a m m').
  Lemma append_shape m s l xs s' m' : wf_slice m s l → s_append zero grow s xs m = Ok (s', m') → mem_step (s_arr s) m m' ∧ moved s s' m m'.
  Proof using.
    intros Hwf E1. destruct (s_append_ok zero grow m s l xs Hwf) as (s1 & m1 & E2 & _ & Hm & _). rewrite E1 in E2. injection E2 as <- <-. split; [done|].
    pose proof (wf_cap _ _ _ Hwf). revert E1. unfold s_append. destruct (Nat.leb_spec (s_len s + length xs) (s_cap s)).
    - intros [= <- <-]. by left.
    - unfold mbind_, alloc, mret_. intros [= <- <-]. right. cbn. split_and!; [lia|lia|]. intros a. split; cbn; [lia|]. intros b _ Hb. rewrite lookup_insert_ne by lia. done.
  Qed.
  Definition touched (v : nat) w w' : Prop := ∃ s s', w_vecs w !! v = Some s ∧ w_vecs w' = <[v := s']> (w_vecs w) ∧ mem_step (s_arr s) (w_mem w) (w_mem w') ∧ moved s s' (w_mem w) (w_mem w').
  Definition added w w' : Prop := ∃ s', w_vecs w' = w_vecs w ++ [s'] ∧ (m_next (w_mem w) <= s_arr s')%nat ∧ ∀ a, mem_step a (w_mem w) (w_mem w').
  Lemma touched_refl v w s : w_vecs w !! v = Some s → touched v w w.
  Proof using. clear zero grow. intros H. exists s, s. split; [done|]. split; [by rewrite list_insert_id|]. split; [apply mem_step_refl|by left]. Qed.
  Lemma shrink_touched v w s n m' s' : w_vecs w !! v = Some s → s_to s n (w_mem w) = Ok (s', m') → touched v w (MkWorld m' (<[v := s']> (w_vecs w))).
  Proof using. clear zero grow.
    intros Hs. unfold s_to. destruct (_ && _); [|done]. intros [= <- <-]. exists s, (MkSlice (s_arr s) (s_off s) (Z.to_nat n) (s_cap s)). split; [done|]. split; [done|]. split; [apply mem_step_refl|by left].
  Qed.
  Lemma push_touched v x w ls r w' : v_rel w ls → v_push_back zero grow v x w = Ok (r, w') → touched v w w'.
  Proof using.
    intros R. unfold v_push_back, mbind_, data. destruct (w_vecs w !! v) as [s|] eqn:Hs; [|done]. destruct (Forall2_lookup_l _ _ _ _ _ (proj1 R) Hs) as (l & _ & Hwf).
    unfold lift. destruct (s_append zero grow s [x] (w_mem w)) as [[s' m']| |] eqn:E1; [|done|done]. unfold set_data. cbn. intros [= _ <-]. destruct (append_shape _ _ _ _ _ _ Hwf E1) as [H1 H2]. by exists s, s'.
  Qed.
  Lemma set_at_touched v i x w ls r w' : v_rel w ls → v_set_at v i x w = Ok (r, w') → touched v w w'.
  Proof using. clear zero grow.
    intros R. unfold v_set_at, mbind_, data. destruct (w_vecs w !! v) as [s|] eqn:Hs; [|done]. destruct (_ || _) eqn:E0. { intros [= _ <-]. by eapply touched_refl. }
    unfold lift, s_set. destruct (_ && _); [|done]. cbn. intros [= _ <-]. exists s, s. split; [done|]. cbn [w_vecs w_mem]; split; [by rewrite list_insert_id|]. split; [|by left]. split; cbn; [done|]. intros b Hb _. by rewrite lookup_insert_ne.
  Qed.
  Lemma shift_mem cnt i s m r m' : shift_loop (T := T) cnt i s m = Ok (r, m') → mem_step (s_arr s) m m'.
  Proof using. clear zero grow.
    revert i m. induction cnt as [|c IH]; intros i m; cbn. { intros [= _ <-]. apply mem_step_refl. }
    unfold mbind_. destruct (s_get s (i - 1) m) as [[y m1]| |] eqn:E1; [|done|done]. assert (m1 = m) as ->. { unfold s_get in E1. destruct (_ && _); [|done]. destruct (_ !! _); [|done]. congruence. }
    destruct (s_set s i y m) as [[q m2]| |] eqn:E2; [|done|done]. intros E3. apply (mem_step_trans _ m m2 m'); [|by eapply IH].
    unfold s_set in E2. destruct (_ && _); [|done]. injection E2 as _ <-. split; cbn; [done|]. intros b Hb _. by rewrite lookup_insert_ne.
  Qed.
  Lemma insert_touched v i x w ls r w' : v_rel w ls → v_insert_at zero grow v i x w = Ok (r, w') → touched v w w'.
  Proof using.
    intros R. unfold v_insert_at, mbind_, data. destruct (w_vecs w !! v) as [s|] eqn:Hs; [|done]. destruct (Forall2_lookup_l _ _ _ _ _ (proj1 R) Hs) as (l & _ & Hwf). destruct (_ || _). { intros [= _ <-]. by eapply touched_refl. }
    unfold lift at 1. destruct (s_append zero grow s [x] (w_mem w)) as [[s' m']| |] eqn:E1; [|done|done]. unfold set_data. cbn [w_mem w_vecs]. destruct (append_shape _ _ _ _ _ _ Hwf E1) as [H1 H2].
    unfold lift. cbn [w_mem w_vecs]. destruct (shift_loop _ _ s' m') as [[q m2]| |] eqn:E2; [|done|done]. cbn [w_mem w_vecs]. apply shift_mem in E2. destruct (s_set s' i x m2) as [[q3 m3]| |] eqn:E3; [|done|done]. intros [= _ <-].
    assert (mem_step (s_arr s') m' m3) as H3. { eapply mem_step_trans; [exact E2|]. unfold s_set in E3. destruct (_ && _); [|done]. injection E3 as _ <-. split; cbn; [done|]. intros b Hb _. by rewrite lookup_insert_ne. }
    exists s, s'. cbn [w_mem w_vecs]. split_and!; [done|done| |]. { destruct H2 as [[H2 _]|[H2 _]]; [rewrite H2 in H3; by eapply mem_step_trans|by eapply mem_step_fresh]. } destruct H2 as [H2|(H2 & H4 & H5)]; [by left|]. right. split_and!; [done|done|]. intros a. eapply mem_step_fresh; [apply H5|exact H2|exact H3].
  Qed.
  Lemma erase_touched v i j w ls r w' : v_rel w ls → v_erase_index_range zero grow v i j w = Ok (r, w') → touched v w w'.
  Proof using.
    intros R. unfold v_erase_index_range, mbind_, data. destruct (w_vecs w !! v) as [s|] eqn:Hs; [|done]. destruct (Forall2_lookup_l _ _ _ _ _ (proj1 R) Hs) as (l & _ & Hwf). destruct (Z.ltb_spec j i). { intros [= _ <-]. by eapply touched_refl. }
    destruct (_ || _) eqn:E0. { intros [= _ <-]. by eapply touched_refl. }
    assert (0 <= i ∧ j <= Z.of_nat (length l)) as [Hi Hj]. { pose proof (wf_length _ _ _ Hwf) as Hl. unfold len_ in E0. apply orb_false_iff in E0 as [?%Z.ltb_ge ?%Z.ltb_ge]. lia. }
    destruct (s_to_ok _ _ _ i Hwf ltac:(lia)) as (lf & E1 & Hwfl & Harr). assert (s_cap lf = s_cap s) as Hcap. { unfold s_to in E1. destruct (_ && _); [|done]. by injection E1 as <-. }
    destruct (s_from_vals _ _ _ j Hwf ltac:(lia)) as (rt & E2 & Hv). unfold lift. rewrite E1. cbn [w_mem w_vecs]. rewrite E2. cbn [w_mem w_vecs]. unfold s_append_slice. rewrite Hv.
    destruct (s_append zero grow lf (drop (Z.to_nat j) l) (w_mem w)) as [[s' m']| |] eqn:E3; [|done|done]. unfold set_data. cbn. intros [= _ <-].
    destruct (append_shape _ _ _ _ _ _ Hwfl E3) as [H1 H2]. exists s, s'. unfold moved in *. rewrite Harr, Hcap in *. done.
  Qed.
  Lemma make_mem n c m s m' : make_slice zero n c m = Ok (s, m') → s_arr s = m_next m ∧ Z.of_nat (s_cap s) = c ∧ ∀ a, mem_step a m m'.
  Proof using. clear grow.
    unfold make_slice. destruct (Z.ltb_spec n 0); [done|]. destruct (Z.ltb_spec c n); [done|]. cbn. unfold mbind_, alloc, mret_. intros [= <- <-]. cbn. split_and!; [done|lia|]. intros a. split; cbn; [lia|]. intros b _ Hb. rewrite lookup_insert_ne by lia. done.
  Qed.
  Lemma copy_mem cnt i d s m r m' : copy_loop (T := T) cnt i d s m = Ok (r, m') → mem_step (s_arr d) m m'.
  Proof using. clear zero grow.
    revert i m. induction cnt as [|c IH]; intros i m; cbn. { intros [= _ <-]. apply mem_step_refl. }
    unfold mbind_. destruct (s_get s i m) as [[y m1]| |] eqn:E1; [|done|done]. assert (m1 = m) as ->. { unfold s_get in E1. destruct (_ && _); [|done]. destruct (_ !! _); [|done]. congruence. }
    destruct (s_set d i y m) as [[q m2]| |] eqn:E2; [|done|done]. intros E3. apply (mem_step_trans _ m m2 m'); [|by eapply IH].
    unfold s_set in E2. destruct (_ && _); [|done]. injection E2 as _ <-. split; cbn; [done|]. intros b Hb _. by rewrite lookup_insert_ne.
  Qed.
  Lemma renew_touched v w s n c d m1 m2 r : w_vecs w !! v = Some s → make_slice zero n c (w_mem w) = Ok (d, m1) → copy_loop (s_len s) 0 d s m1 = Ok (r, m2) → Z.of_nat (s_cap s) ≠ c → touched v w (MkWorld m2 (<[v := d]> (w_vecs w))).
  Proof using. clear grow.
    intros Hs E1 E2 Hc. destruct (make_mem _ _ _ _ _ E1) as (H1 & H2 & H3). apply copy_mem in E2. exists s, d. cbn. assert (∀ a, mem_step a (w_mem w) m2) as H4. { intros a. eapply mem_step_fresh; [apply H3| |exact E2]. lia. } split_and!; [done|done|done|]. right. split_and!; [lia|lia|done].
  Qed.
  Lemma reserve_touched v c w r w' : v_reserve zero v c w = Ok (r, w') → touched v w w'.
  Proof using. clear grow.
    unfold v_reserve, mbind_, data. destruct (w_vecs w !! v) as [s|] eqn:Hs; [|done]. unfold cap_. destruct (Z.leb_spec c (Z.of_nat (s_cap s))). { intros [= _ <-]. by eapply touched_refl. }
    unfold lift. destruct (make_slice zero (len_ s) c (w_mem w)) as [[d m1]| |] eqn:E1; [|done|done]. cbn [w_mem w_vecs]. destruct (copy_loop (s_len s) 0 d s m1) as [[q m2]| |] eqn:E2; [|done|done]. unfold set_data. cbn. intros [= _ <-]. eapply renew_touched; [done|exact E1|exact E2|lia].
  Qed.
  Lemma fit_touched v w r w' : v_shrink_to_fit zero v w = Ok (r, w') → touched v w w'.
  Proof using. clear grow.
    unfold v_shrink_to_fit, mbind_, data. destruct (w_vecs w !! v) as [s|] eqn:Hs; [|done]. unfold cap_. destruct (Z.eqb_spec (len_ s) (Z.of_nat (s_cap s))). { intros [= _ <-]. by eapply touched_refl. }
    unfold lift. destruct (make_slice zero (len_ s) (len_ s) (w_mem w)) as [[d m1]| |] eqn:E1; [|done|done]. cbn [w_mem w_vecs]. destruct (copy_loop (s_len s) 0 d s m1) as [[q m2]| |] eqn:E2; [|done|done]. unfold set_data. cbn. intros [= _ <-]. eapply renew_touched; [done|exact E1|exact E2|lia].
  Qed.
  Lemma at_same v i w r w' : v_at v i w = Ok (r, w') → w' = w.
  Proof using. clear zero grow. unfold v_at, mbind_, data. destruct (w_vecs w !! v) as [s|]; [|done]. destruct (_ || _); [done|]. unfold lift, s_get. destruct (_ && _); [|done]. destruct (_ !! _); [|done]. intros [= _ <-]. by destruct w. Qed.
  Lemma step_shape o w ls r w' : v_rel w ls → v_step zero grow o w = Ok (r, w') → added w w' ∨ w' = w ∨ ∃ v, touched v w w'.
  Proof using.
    intros R. assert (∀ {A} (f : A → v_out T) (m : M (world T) A), omap_ f m w = Ok (r, w') → ∃ a, m w = Ok (a, w')) as Hom.
    { intros A f m. unfold omap_, mbind_. destruct (m w) as [[a w1]| |]; [|done|done]. unfold mret_. intros [= _ <-]. eauto. }
    destruct o as [c|v|v|v|v x|v pos x|v pos x|v pos|v first lst|v pos|v|v|v|v c|v|v|v n|v [i1 i2] x|v [i1 i2]|v [f1 f2] [l1 l2]]; cbn [v_step]; intros [a E]%Hom.
    - left. revert E. unfold v_new, mbind_, lift. destruct (make_slice zero 0 c (w_mem w)) as [[s m]| |] eqn:E1; [|done|done]. unfold new_vec. intros [= _ <-]. destruct (make_mem _ _ _ _ _ E1) as (H1 & _ & H2). exists s. cbn. split_and!; [done|rewrite H1; done|done].
    - left. revert E. unfold v_from, mbind_, data. destruct (w_vecs w !! v) as [s|] eqn:Hs; [|done]. unfold lift at 1. destruct (make_slice zero (len_ s) (cap_ s) (w_mem w)) as [[d m1]| |] eqn:E1; [|done|done]. unfold new_vec, lift. cbn [w_mem w_vecs].
      destruct (copy_loop (s_len s) 0 d s m1) as [[q m2]| |] eqn:E2; [|done|done]. intros [= _ <-]. destruct (make_mem _ _ _ _ _ E1) as (H1 & _ & H2). apply copy_mem in E2. exists d. cbn. split_and!; [done|rewrite H1; done|]. intros b. eapply mem_step_fresh; [apply H2| |exact E2]. rewrite H1. done.
    - right; left. revert E. unfold v_size, mbind_, data. by destruct (w_vecs w !! v); [intros [= _ <-]|].
    - right; left. revert E. unfold v_empty, mbind_, data. by destruct (w_vecs w !! v); [intros [= _ <-]|].
    - right; right. exists v. by eapply push_touched.
    - right; right. exists v. by eapply set_at_touched.
    - right; right. exists v. by eapply insert_touched.
    - right; right. exists v. by eapply erase_touched.
    - right; right. exists v. by eapply erase_touched.
    - right; left. by eapply at_same.
    - right; left. by eapply at_same.
    - right; left. revert E. unfold v_back, v_size, mbind_, data. destruct (w_vecs w !! v); [|done]. cbn. apply at_same.
    - right; right. exists v. revert E. unfold v_pop_back, v_empty, v_back, v_size, mbind_, data. destruct (w_vecs w !! v) as [s|] eqn:Hs; [|done]. cbn [mret_]. destruct (_ =? _); [done|]. unfold mret_. rewrite Hs. destruct (v_at v (len_ s - 1) w) as [[y w1]| |] eqn:E1; [|done|done]. apply at_same in E1 as ->.
      rewrite Hs. unfold lift. destruct (s_to s (len_ s - 1) (w_mem w)) as [[s' m']| |] eqn:E2; [|done|done]. unfold set_data. cbn. intros [= _ <-]. by eapply shrink_touched.
    - right; right. exists v. by eapply reserve_touched.
    - right; right. exists v. by eapply fit_touched.
    - right; right. exists v. revert E. unfold v_clear, mbind_, data. destruct (w_vecs w !! v) as [s|] eqn:Hs; [|done]. unfold lift. destruct (s_to s 0 (w_mem w)) as [[s' m']| |] eqn:E2; [|done|done]. unfold set_data. cbn. intros [= _ <-]. by eapply shrink_touched.
    - right; right. exists v. revert E. unfold v_resize, mbind_, data. destruct (w_vecs w !! v) as [s|] eqn:Hs; [|done]. destruct (_ <=? _). { intros [= _ <-]. by eapply touched_refl. }
      unfold lift. destruct (s_to s n (w_mem w)) as [[s' m']| |] eqn:E2; [|done|done]. unfold set_data. cbn. intros [= _ <-]. by eapply shrink_touched.
    - right; right. exists v. revert E. unfold v_insert, mbind_. destruct (v_insert_at zero grow v _ x w) as [[q w1]| |] eqn:E1; [|done|done]. intros [= _ <-]. by eapply insert_touched.
    - right; right. exists v. revert E. unfold v_erase, v_erase_at, mbind_. destruct (v_erase_index_range zero grow v _ _ w) as [[q w1]| |] eqn:E1; [|done|done]. intros [= _ <-]. by eapply erase_touched.
    - right; right. exists v. revert E. unfold v_erase_range, mbind_. destruct (v_erase_index_range zero grow v _ _ w) as [[q w1]| |] eqn:E1; [|done|done]. intros [= _ <-]. by eapply erase_touched.
  Qed.
  (** the invariant: the vectors hold lists; every slice lies in an allocated array *)
  Definition xinv ls st : Prop := v_rel (x_w st) ls ∧ ∀ h d, x_ds st !! h = Some d → s_off d = 0%nat ∧ (s_arr d < m_next (w_mem (x_w st)))%nat ∧ ∃ a, m_arr (w_mem (x_w st)) !! s_arr d = Some a ∧ (s_len d <= length a)%nat.
  Lemma xinv0 : xinv [] xst0. Proof using zero grow. split; [apply (world0_rel zero grow)|]. intros h d H. by apply lookup_nil in H || done. Qed.
  Lemma shape_grows w ls w' ls' : v_rel w ls → v_rel w' ls' → added w w' ∨ w' = w ∨ (∃ v, touched v w w') → (m_next (w_mem w) <= m_next (w_mem w'))%nat ∧
    ∀ b a, (b < m_next (w_mem w))%nat → m_arr (w_mem w) !! b = Some a → ∃ a', m_arr (w_mem w') !! b = Some a' ∧ length a' = length a.
  Proof using. clear zero grow.
    intros R R' [(s' & _ & _ & H)|[->|(v & s & s' & Hs & Hv & Hm & Hmv)]].
    - split; [apply (H O)|]. intros b a Hb Ha. exists a. split; [|done]. rewrite (proj2 (H (S b))) by lia. done.
    - split; [done|]. eauto.
    - split; [apply Hm|]. intros b a Hb Ha. destruct (decide (b = s_arr s)) as [->|Hne]; [|exists a; split; [by rewrite (proj2 Hm)|done]].
      destruct Hmv as [[E1 E2]|(_ & _ & H)]; [|exists a; split; [|done]; rewrite (proj2 (H (S (s_arr s)))) by lia; done].
      assert (w_vecs w' !! v = Some s') as Hs'. { rewrite Hv. apply list_lookup_insert. by eapply lookup_lt_Some. }
      destruct (Forall2_lookup_l _ _ _ _ _ (proj1 R') Hs') as (l' & _ & (_ & _ & a' & Ha' & Hl' & _)). destruct (Forall2_lookup_l _ _ _ _ _ (proj1 R) Hs) as (l & _ & (_ & _ & a2 & Ha2 & Hl2 & _)).
      rewrite E1 in Ha'. rewrite Ha in Ha2. injection Ha2 as <-. exists a'. split; [done|]. congruence.
  Qed.
  (** a write through a slice: the vector owning the array, if any, has that element changed *)
  Lemma poke_rel w ls b i x a : v_rel w ls → m_arr (w_mem w) !! b = Some a → (b < m_next (w_mem w))%nat →
    let w' := MkWorld (MkMem (<[b := <[i := x]> a]> (m_arr (w_mem w))) (m_next (w_mem w))) (w_vecs w) in
    ∃ ls', v_rel w' ls' ∧ ((∀ u s, w_vecs w !! u = Some s → s_arr s ≠ b) → ls' = ls).
  Proof using zero grow.
    intros [H1 H2] Ha Hb w'. destruct (decide (Exists (λ s, s_arr s = b) (w_vecs w))) as [(s & [v Hs]%elem_of_list_lookup & E1)%Exists_exists|Hno].
    - destruct (Forall2_lookup_l _ _ _ _ _ H1 Hs) as (l & Hl & Hwf). exists (<[v := <[i := x]> l]> ls). split; [|intros Hn; by destruct (Hn v s Hs)]. unfold w'. apply (rel_mem zero grow w ls v s l); [by split|done|done| |].
      + rewrite E1. split; cbn; [done|]. intros c Hc _. by rewrite lookup_insert_ne.
      + destruct Hwf as (W1 & W2 & a2 & W3 & W4 & W5 & W6). rewrite E1 in W3. rewrite Ha in W3. injection W3 as <-. split; [done|]. split; [done|]. exists (<[i := x]> a). cbn. rewrite E1, lookup_insert, insert_length. split_and!; [done|done|done|]. subst l. (destruct (decide (i < s_len s)%nat); [by rewrite take_insert_lt|rewrite take_insert by lia; rewrite list_insert_ge; [done|rewrite take_length; lia]]).
    - exists ls. split; [|done]. split; [|done]. cbn. apply Forall2_same_length_lookup. split; [by eapply Forall2_length|]. intros u s l Hs Hl. assert (s_arr s ≠ b) as Hne. { intros E1. apply Hno. apply Exists_exists. exists s. split; [by eapply elem_of_list_lookup_2|done]. }
      eapply (mem_step_other (w_mem w) _ b); [|done|by eapply Forall2_lookup_lr]. split; cbn; [done|]. intros c Hc _. by rewrite lookup_insert_ne.
  Qed.
  (** one action *)
  Definition xshape st st' : Prop := (m_next (w_mem (x_w st)) <= m_next (w_mem (x_w st')))%nat ∧ (∃ ds, x_ds st' = x_ds st ++ ds) ∧
    (∀ u s', w_vecs (x_w st') !! u = Some s' → (∃ s, w_vecs (x_w st) !! u = Some s ∧ s_arr s' = s_arr s) ∨ (m_next (w_mem (x_w st)) <= s_arr s')%nat) ∧
    (∀ u s, w_vecs (x_w st) !! u = Some s → ∃ s', w_vecs (x_w st') !! u = Some s' ∧ ((s_arr s' = s_arr s ∧ s_cap s' = s_cap s) ∨ ((m_next (w_mem (x_w st)) <= s_arr s')%nat ∧ s_cap s' ≠ s_cap s))).
  Lemma xshape_same st ds : xshape st (MkX (x_w st) (x_ds st ++ ds)).
  Proof using. clear zero grow. split_and!; cbn; [done|by exists ds|eauto|eauto]. Qed.
  Lemma xstep_inv o st ls r st' : xinv ls st → step o st = Ok (r, st') → xshape st st' ∧ ∃ ls', xinv ls' st'.
  Proof using.
    intros [R HD] E1. destruct o as [o|v|h|h i|h i x].
    - revert E1. cbn [xstep]. unfold xlift. destruct (v_step zero grow o (x_w st)) as [[q w']| |] eqn:E1; [|done|done]. intros [= _ <-].
      pose proof (step_shape o _ _ _ _ R E1) as Hsh. pose proof (v_step_agrees zero grow o _ _ I R) as HA. unfold agrees in HA. destruct (v_spec o ls) as [[q' ls']|]; [|congruence]. destruct HA as (w2 & E2 & R'). rewrite E1 in E2. injection E2 as <- <-.
      destruct (shape_grows _ _ _ _ R R' Hsh) as [G1 G2]. split.
      + split_and!; cbn; [done|exists []; by rewrite app_nil_r| |].
        * intros u s' Hs'. destruct Hsh as [(s1 & Hv & Hf & _)|[->|(v & s & s1 & Hs & Hv & _ & Hmv)]]; [|by eauto|].
          -- rewrite Hv in Hs'. apply lookup_app_Some in Hs' as [Hs'|[_ Hs']]; [by eauto|]. apply list_lookup_singleton_Some in Hs' as [_ <-]. by right.
          -- rewrite Hv in Hs'. destruct (decide (u = v)) as [->|Hne]; [|rewrite list_lookup_insert_ne in Hs' by done; by eauto]. rewrite list_lookup_insert in Hs' by (by eapply lookup_lt_Some). injection Hs' as <-. destruct Hmv as [[H _]|(H & _)]; [by eauto|by right].
        * intros u s Hu. destruct Hsh as [(s1 & Hv & Hf & _)|[->|(v & s0 & s1 & Hs & Hv & _ & Hmv)]]; [|by eauto|].
          -- exists s. split; [|by left]. rewrite Hv. by apply lookup_app_l_Some.
          -- rewrite Hv. destruct (decide (u = v)) as [->|Hne]; [|exists s; split; [by rewrite list_lookup_insert_ne|by left]]. rewrite Hu in Hs. injection Hs as <-. exists s1. split; [apply list_lookup_insert; by eapply lookup_lt_Some|]. destruct Hmv as [H|(H & H' & _)]; auto.
      + exists ls'. split; [done|]. cbn. intros h d Hd. destruct (HD h d Hd) as (D1 & D2 & a & D3 & D4). split_and!; [done|lia|]. destruct (G2 _ a D2 D3) as (a' & ? & ?). exists a'. split; [done|lia].
    - revert E1. cbn [xstep]. unfold v_data, data. destruct (w_vecs (x_w st) !! v) as [s|] eqn:Hs; [|done]. intros [= _ <-]. split; [apply xshape_same|]. exists ls. split; [done|]. cbn. intros h d [Hd|[_ Hd]]%lookup_app_Some; [by apply (HD h)|]. apply list_lookup_singleton_Some in Hd as [_ <-].
      destruct (Forall2_lookup_l _ _ _ _ _ (proj1 R) Hs) as (l & _ & (W1 & W2 & a & W3 & W4 & W5 & W6)). split_and!; [done|done|]. exists a. split; [done|lia].
    - revert E1. cbn [xstep]. unfold handle, mbind_. destruct (x_ds st !! h); [|done]. intros [= _ <-]. split; [|by exists ls]. pose proof (xshape_same st []) as H. rewrite app_nil_r in H. by destruct st.
    - revert E1. cbn [xstep]. unfold handle, mbind_, xlift, lift, s_get. destruct (x_ds st !! h) as [d|]; [|done]. destruct (_ && _); [|done]. destruct (_ !! _); [|done]. cbn. intros [= _ <-].
      assert (MkX (MkWorld (w_mem (x_w st)) (w_vecs (x_w st))) (x_ds st) = st) as -> by by destruct st as [[] ?]. split; [|by exists ls]. pose proof (xshape_same st []) as H. rewrite app_nil_r in H. by destruct st.
    - revert E1. cbn [xstep]. unfold handle, mbind_, xlift, lift, s_set. destruct (x_ds st !! h) as [d|] eqn:Hd; [|done]. destruct (_ && _); [|done]. cbn. intros [= _ <-]. destruct (HD h d Hd) as (D1 & D2 & a & D3 & D4). unfold array_of. rewrite D3. cbn [default].
      destruct (poke_rel _ _ _ (s_off d + Z.to_nat i)%nat x a R D3 D2) as (ls' & R' & _). split.
      + split_and!; cbn; [done|exists []; by rewrite app_nil_r|eauto|eauto].
      + exists ls'. split; [exact R'|]. cbn. intros h' d' Hd'. destruct (HD h' d' Hd') as (D1' & D2' & a' & D3' & D4'). split_and!; [done|done|]. destruct (decide (s_arr d' = s_arr d)) as [E1|Hne]; [rewrite E1 in *; rewrite lookup_insert; rewrite D3 in D3'; injection D3' as <-; eexists; split; [done|by rewrite insert_length]|rewrite lookup_insert_ne by done; eauto].
  Qed.
  Lemma xrun_inv ops st ls rs st' : xinv ls st → run step ops st = Ok (rs, st') → ∃ ls', xinv ls' st'.
  Proof using.
    revert st ls rs. induction ops as [|o ops IH]; intros st ls rs H; cbn; [intros [= _ <-]; eauto|]. destruct (step o st) as [[q st1]| |] eqn:E1; [|done|done]. destruct (run step ops st1) as [[qs st2]| |] eqn:E2; [|done|done]. intros [= _ <-].
    destruct (xstep_inv _ _ _ _ _ H E1) as (_ & ls1 & H1). by eapply IH.
  Qed.
  Lemma xreach_inv st : xreach zero grow st → ∃ ls, xinv ls st.
  Proof using. intros (ops & rs & E). eapply xrun_inv; [apply xinv0|exact E]. Qed.
  Definition linked (v h : nat) st : Prop := ∃ s d, w_vecs (x_w st) !! v = Some s ∧ x_ds st !! h = Some d ∧ s_arr d = s_arr s.
  Lemma linked_shared ls st v h : xinv ls st → linked v h st → shared zero grow v h st.
  Proof using.
    intros [R HD] (s & d & Hs & Hd & Ea). destruct (Forall2_lookup_l _ _ _ _ _ (proj1 R) Hs) as (l & Hl & Hwf). destruct (HD h d Hd) as (D1 & D2 & a & D3 & D4). pose proof Hwf as (W1 & W2 & a' & W3 & W4 & W5 & W6). rewrite <-Ea, D3 in W3. injection W3 as <-.
    exists (Z.of_nat (s_len s)), (Z.of_nat (s_len d)). split_and!.
    - unfold vsize, v_size, mbind_, data. by rewrite Hs.
    - cbn. unfold mbind_, handle. by rewrite Hd.
    - intros i Hi Hi'. cbn [xstep v_step]. unfold mbind_, handle. rewrite Hd. unfold xlift, omap_, v_at, v_set_at, mbind_, data. rewrite Hs. unfold len_. destruct (Z.ltb_spec i 0); [lia|]. destruct (Z.leb_spec (Z.of_nat (s_len s)) i); [lia|]. cbn [orb].
      unfold lift, s_get, s_set. destruct (Z.leb_spec 0 i); [|lia]. destruct (Z.ltb_spec i (Z.of_nat (s_len d))); [|lia]. destruct (Z.ltb_spec i (Z.of_nat (s_len s))); [|lia]. cbn [andb]. rewrite D1, W1, Ea. rewrite Ea in D3. unfold array_of. rewrite D3. cbn [default]. cbn [Nat.add].
      destruct (lookup_lt_is_Some_2 a (Z.to_nat i) ltac:(lia)) as [x Hx]. unfold id. rewrite Hx. split; [done|]. split; [exists x; by destruct st as [[] ?]|]. intros y. split; [done|eauto].
  Qed.
  Lemma vcap_eq st v s : w_vecs (x_w st) !! v = Some s → vcap v st = Some (Z.of_nat (s_cap s)).
  Proof using. clear zero grow. intros Hs. unfold vcap, v_capacity, mbind_, data. by rewrite Hs. Qed.
  Lemma step_linked o ls st r st' v h : xinv ls st → step o st = Ok (r, st') → vcap v st' = vcap v st → linked v h st → linked v h st'.
  Proof using.
    intros H E1 Hc (s & d & Hs & Hd & Ea). destruct (xstep_inv _ _ _ _ _ H E1) as [(_ & (ds & Hds) & _ & Hsh) _]. destruct (Hsh v s Hs) as (s' & Hs' & [[E2 _]|[_ E2]]).
    - exists s', d. split_and!; [done| |congruence]. rewrite Hds. by apply lookup_app_l_Some.
    - rewrite (vcap_eq _ _ _ Hs), (vcap_eq _ _ _ Hs') in Hc. injection Hc as Hc. lia.
  Qed.
  Lemma quiet_linked st ops st' v h : quiet zero grow v st ops st' → (∃ ls, xinv ls st) → linked v h st → linked v h st' ∧ ∃ ls, xinv ls st'.
  Proof using.
    induction 1 as [st|st o r st1 ops st' E1 Hc Hq IH]; intros [ls H] Hl; [eauto|]. destruct (xstep_inv _ _ _ _ _ H E1) as [_ H1]. apply IH; [done|]. by eapply step_linked.
  Qed.
  Lemma data_linked ls st v h st1 : xinv ls st → step (XData v) st = Ok (XSlice h, st1) → linked v h st1 ∧ h = length (x_ds st) ∧ xinv ls st1.
  Proof using.
    intros [R HD]. cbn [xstep]. unfold v_data, data. destruct (w_vecs (x_w st) !! v) as [s|] eqn:Hs; [|done]. intros [= <- <-]. split; [|split; [done|]].
    - exists s, s. cbn. split_and!; [done|apply list_lookup_middle; done|done].
    - split; [done|]. cbn. intros h d [Hd|[_ Hd]]%lookup_app_Some; [by apply (HD h)|]. apply list_lookup_singleton_Some in Hd as [_ <-].
      destruct (Forall2_lookup_l _ _ _ _ _ (proj1 R) Hs) as (l & _ & (W1 & W2 & a & W3 & W4 & W5 & W6)). split_and!; [done|done|]. exists a. split; [done|lia].
  Qed.
  (** no vector lies in the array of slice h *)
  Definition loose (h : nat) st : Prop := ∃ d, x_ds st !! h = Some d ∧ ∀ u s, w_vecs (x_w st) !! u = Some s → s_arr s ≠ s_arr d.
  Lemma step_loose o ls st r st' h : xinv ls st → step o st = Ok (r, st') → loose h st → loose h st'.
  Proof using.
    intros H E1 (d & Hd & Hl). destruct (xstep_inv _ _ _ _ _ H E1) as [(_ & (ds & Hds) & Hsh & _) _]. exists d. split; [rewrite Hds; by apply lookup_app_l_Some|]. intros u s' Hs'. destruct (proj2 H h d Hd) as (_ & D2 & _).
    destruct (Hsh u s' Hs') as [(s & Hs & ->)|Hf]; [by eapply Hl|lia].
  Qed.
  Lemma run_loose ops st ls rs st' h : xinv ls st → run step ops st = Ok (rs, st') → loose h st → loose h st' ∧ ∃ ls', xinv ls' st'.
  Proof using.
    revert st ls rs. induction ops as [|o ops IH]; intros st ls rs H; cbn; [intros [= _ <-]; eauto|]. destruct (step o st) as [[q st1]| |] eqn:E1; [|done|done]. destruct (run step ops st1) as [[qs st2]| |] eqn:E2; [|done|done]. intros [= _ <-] Hl.
    destruct (xstep_inv _ _ _ _ _ H E1) as (_ & ls1 & H1). eapply IH; [exact H1|exact E2|]. eapply step_loose; [exact H|exact E1|exact Hl].
  Qed.
  Lemma linked_loose o ls st r st' v h : xinv ls st → step o st = Ok (r, st') → vcap v st' ≠ vcap v st → linked v h st → loose h st'.
  Proof using.
    intros H E1 Hc (s & d & Hs & Hd & Ea). destruct (xstep_inv _ _ _ _ _ H E1) as [(_ & (ds & Hds) & Hsh1 & Hsh) _]. destruct (Hsh v s Hs) as (s' & Hs' & [[_ E2]|[E2 _]]).
    - destruct Hc. by rewrite (vcap_eq _ _ _ Hs), (vcap_eq _ _ _ Hs'), E2.
    - exists d. split; [rewrite Hds; by apply lookup_app_l_Some|]. destruct (proj2 H h d Hd) as (_ & D2 & _). intros u t Ht. destruct (decide (u = v)) as [->|Hne]; [rewrite Hs' in Ht; injection Ht as <-; lia|].
      destruct (Hsh1 u t Ht) as [(t0 & Ht0 & ->)|Hf]; [|lia]. rewrite Ea. by eapply (proj2 (proj1 H)).
  Qed.
  Lemma loose_separate ls st h : xinv ls st → loose h st → separate zero grow h st.
  Proof using.
    intros [R HD] (d & Hd & Hl). destruct (HD h d Hd) as (D1 & D2 & a & D3 & D4). assert (∀ st u j y, step (XVec (VAt u j)) st = Ok (y, st) ↔ ∃ z, y = XV (VVal z) ∧ v_at u j (x_w st) = Ok (z, x_w st)) as Hat.
    { clear. intros st u j y. cbn [xstep v_step]. unfold xlift, omap_, mbind_. destruct (v_at u j (x_w st)) as [[z w']| |] eqn:E1; [|naive_solver|naive_solver]. pose proof (at_same _ _ _ _ _ E1) as ->. unfold mret_. destruct st. cbn. naive_solver. }
    split.
    - intros i x r st' Est. assert (x_w st' = MkWorld (MkMem (<[s_arr d := <[(s_off d + Z.to_nat i)%nat := x]> a]> (m_arr (w_mem (x_w st)))) (m_next (w_mem (x_w st)))) (w_vecs (x_w st))) as Hw.
      { revert Est. cbn [xstep]. unfold handle, mbind_, xlift, lift, s_set. rewrite Hd. destruct (_ && _); [|done]. cbn [w_mem]. unfold array_of. rewrite D3. cbn [default]. by intros [= _ <-]. }
      intros u j y. rewrite !Hat, Hw.
      destruct (poke_rel _ _ _ (s_off d + Z.to_nat i)%nat x a R D3 D2) as (ls' & R' & E1). rewrite (E1 Hl) in R'. destruct (ls !! u) as [lu|] eqn:Hu.
      + rewrite (v_at_ok zero grow _ _ u lu j R Hu), (v_at_ok zero grow _ _ u lu j R' Hu). destruct (nth_ lu j); naive_solver.
      + unfold v_at, mbind_, data. rewrite (rel_lookup_None zero grow _ _ _ R Hu), (rel_lookup_None zero grow _ _ _ R' Hu). naive_solver.
    - intros o r st' Est. assert (∃ q w', v_step zero grow o (x_w st) = Ok (q, w') ∧ st' = MkX w' (x_ds st)) as (q & w' & E1 & ->).
      { revert Est. cbn [xstep]. unfold xlift. destruct (v_step zero grow o (x_w st)) as [[q w']| |] eqn:E1; [|done|done]. intros [= _ <-]. eauto. }
      intros i y. cbn [xstep]. unfold xlift, handle, mbind_. cbn [x_ds]. rewrite Hd.
      assert (m_arr (w_mem w') !! s_arr d = m_arr (w_mem (x_w st)) !! s_arr d) as Hm.
      { destruct (step_shape o _ _ _ _ R E1) as [(s' & _ & _ & H)|[->|(v & s & s' & Hs & Hv & Hm & Hmv)]]; [rewrite (proj2 (H (S (s_arr d)))) by lia; done|done|]. apply Hm; [|done]. intros E2. by destruct (Hl v s Hs). }
      unfold lift, s_get, array_of. cbn [x_w]. rewrite Hm. destruct (_ && _); [|naive_solver]. rewrite D3. cbn [default]. unfold id. destruct (a !! _); [|naive_solver]. destruct st as [[] ?], w'. cbn. naive_solver.
  Qed.
End proofs.

(** C71, right after Data: the slice has the vector's length and is the vector's elements *)
Theorem vector_data {T} (zero : T) grow st v h st1 : xreach zero grow st → xstep zero grow (XData v) st = Ok (XSlice h, st1) →
  (∃ n, vsize v st1 = Some n ∧ vsize v st = Some n ∧ xstep zero grow (XLen h) st1 = Ok (XV (VInt n), st1)) ∧ shared zero grow v h st1.
Proof.
  intros [ls H]%xreach_inv E1. destruct (data_linked zero grow _ _ _ _ _ H E1) as (Hl & Eh & H1). split; [|by eapply linked_shared].
  revert E1. cbn [xstep]. unfold v_data, data. destruct (w_vecs (x_w st) !! v) as [s|] eqn:Hs; [|done]. intros [= <- <-]. exists (Z.of_nat (s_len s)). unfold vsize, v_size, mbind_, data. cbn [x_w x_ds]. rewrite Hs. split_and!; [done|done|].
  unfold handle. cbn [x_ds]. rewrite list_lookup_middle by done. done.
Qed.
Print Assumptions vector_data.
(** C71, later: whatever the client does, they stay the same elements while Capacity stays the same *)
Theorem vector_data_shared {T} (zero : T) grow st v h st1 ops st2 : xreach zero grow st → xstep zero grow (XData v) st = Ok (XSlice h, st1) → quiet zero grow v st1 ops st2 → shared zero grow v h st2.
Proof.
  intros [ls H]%xreach_inv E1 Hq. destruct (data_linked zero grow _ _ _ _ _ H E1) as (Hl & _ & H1). destruct (quiet_linked zero grow _ _ _ _ _ Hq (ex_intro (λ l, xinv l _) _ H1) Hl) as (Hl2 & ls2 & H2). by eapply linked_shared.
Qed.
Print Assumptions vector_data_shared.
(** C71, after an action that changed Capacity: they have nothing to do with each other any more, for good *)
Theorem vector_data_separate {T} (zero : T) grow st v h st1 ops st2 o r st3 more rs st4 : xreach zero grow st → xstep zero grow (XData v) st = Ok (XSlice h, st1) → quiet zero grow v st1 ops st2 →
  xstep zero grow o st2 = Ok (r, st3) → vcap v st3 ≠ vcap v st2 → run (xstep zero grow) more st3 = Ok (rs, st4) → separate zero grow h st4.
Proof.
  intros [ls H]%xreach_inv E1 Hq E2 Hc E3. destruct (data_linked zero grow _ _ _ _ _ H E1) as (Hl & _ & H1). destruct (quiet_linked zero grow _ _ _ _ _ Hq (ex_intro (λ l, xinv l _) _ H1) Hl) as (Hl2 & ls2 & H2).
  pose proof (linked_loose zero grow _ _ _ _ _ _ _ H2 E2 Hc Hl2) as Hlo. destruct (xstep_inv zero grow _ _ _ _ _ H2 E2) as (_ & ls3 & H3). destruct (run_loose zero grow _ _ _ _ _ _ H3 E3 Hlo) as (Hl4 & ls4 & H4). by eapply loose_separate.
Qed.
Print Assumptions vector_data_separate.
(** two elements in a vector of capacity 3; a slice; writes both ways; the third push keeps the
    capacity, the fourth does not, and then they part *)
Example vdata_demo : match run (xstep 0 (fun _ n => n)) [XVec (VNew 3); XVec (VPushBack 0 5); XVec (VPushBack 0 6); XData 0; XSet 0 1 9; XVec (VAt 0 1); XVec (VSetAt 0 0 4); XGet 0 0; XVec (VPushBack 0 7);
    XSet 0 0 3; XVec (VAt 0 0); XVec (VPushBack 0 8); XSet 0 0 1; XVec (VAt 0 0); XGet 0 0] xst0 with Ok (rs, st) => Some (rs, vcap 0 st) | _ => None end
  = Some ([XV (VVec 0); XV VUnit; XV VUnit; XSlice 0; XV VUnit; XV (VVal 9); XV VUnit; XV (VVal 4); XV VUnit; XV VUnit; XV (VVal 3); XV VUnit; XV VUnit; XV (VVal 3); XV (VVal 1)], Some 8).
Proof. vm_compute. reflexivity. Qed.
