From Verif Require Import Base IterModel IterSpec.
From Verif Require Import GoSliceModel GoSliceProofs VectorModel VectorSpec VectorProofs ArrayModel ArraySpec ArrayProofs SliceModel.
Open Scope Z_scope.

Section iters.
  Context {W T : Type} (csize : nat → M W Z) (cat : nat → Z → M W T) (cset : nat → Z → T → M W unit).
  Context (o : nat) (R : W → list T → Prop) (L : ra_law csize cat cset o R).
  Set Default Proof Using "Type*".
  Definition pos_equal (eq : iter → iter → bool) := ∀ p q, eq (MkIter o p) (MkIter o q) = bool_decide (p = q).
  Lemma it_equal_pos : pos_equal it_equal.
  Proof using. clear L. intros p q. unfold it_equal. simpl. rewrite Nat.eqb_refl. simpl. destruct (Z.eqb_spec q p); case_bool_decide; done || lia. Qed.
  Lemma it_equal_slice_pos : pos_equal it_equal_slice.
  Proof using. clear L. intros p q. unfold it_equal_slice. simpl. destruct (Z.eqb_spec q p); case_bool_decide; done || lia. Qed.

  Lemma next_ok w l p : R w l → it_next csize (MkIter o p) w = Ok (MkIter o (if p <? Z.of_nat (length l) then p + 1 else p), w).
  Proof. intros H. unfold it_next, mbind_. simpl. rewrite (ra_size _ _ _ _ _ L _ _ H). unfold mret_. by destruct (p <? _). Qed.
  Lemma valid_ok w l p : R w l → it_valid csize (MkIter o p) w = Ok (bool_decide (0 <= p < Z.of_nat (length l)), w).
  Proof.
    intros H. unfold it_valid, mbind_. simpl. rewrite (ra_size _ _ _ _ _ L _ _ H). unfold mret_. do 2 f_equal.
    destruct (Z.leb_spec 0 p), (Z.ltb_spec p (Z.of_nat (length l))); case_bool_decide; done || lia.
  Qed.

  Lemma walk_ok eq w l i fuel : pos_equal eq → R w l → (i <= length l)%nat → (length l - i <= fuel)%nat →
    walk csize cat eq fuel (MkIter o (Z.of_nat i)) (MkIter o (Z.of_nat (length l))) w = Ok (drop i l, w).
  Proof.
    intros He H. revert i. induction fuel as [|f IH]; intros i Hi Hf; simpl; rewrite He.
    - rewrite bool_decide_eq_true_2 by lia. by rewrite drop_ge by lia.
    - case_bool_decide as Hb; [by rewrite drop_ge by lia|].
      unfold mbind_. unfold it_value. simpl. rewrite (ra_at _ _ _ _ _ L _ _ _ H).
      destruct (lookup_lt_is_Some_2 l i ltac:(lia)) as [x Hx]. rewrite bool_decide_eq_true_2 by lia.
      rewrite Nat2Z.id, Hx. rewrite (next_ok _ _ _ H).
      destruct (Z.ltb_spec (Z.of_nat i) (Z.of_nat (length l))); [|lia].
      replace (Z.of_nat i + 1) with (Z.of_nat (S i)) by lia. rewrite IH by lia. by rewrite (drop_S l x i).
  Qed.
  Lemma walk_back_ok w l i fuel : R w l → (i <= length l)%nat → (i <= fuel)%nat →
    walk_back csize cat fuel (MkIter o (Z.of_nat i - 1)) w = Ok (rev (take i l), w).
  Proof.
    intros H. revert i. induction fuel as [|f IH]; intros i Hi Hf; simpl; unfold mbind_; rewrite (valid_ok _ _ _ H).
    - rewrite bool_decide_eq_false_2 by lia. by destruct i; [|lia].
    - destruct i as [|i]; [by rewrite bool_decide_eq_false_2 by lia|]. rewrite bool_decide_eq_true_2 by lia.
      unfold it_value. simpl. rewrite (ra_at _ _ _ _ _ L _ _ _ H). rewrite bool_decide_eq_true_2 by lia.
      replace (Z.to_nat (Z.of_nat (S i) - 1)) with i by lia.
      destruct (lookup_lt_is_Some_2 l i ltac:(lia)) as [x Hx]. rewrite Hx.
      unfold it_prev. cbn [it_pos it_obj]. destruct (Z.leb_spec 0 (Z.of_nat (S i) - 1)); [|lia]. unfold mret_.
      replace (Z.of_nat (S i) - 1 - 1) with (Z.of_nat i - 1) by lia. rewrite IH by lia.
      rewrite (take_S_r _ _ _ Hx), rev_app_distr. done.
  Qed.
End iters.
Unset Default Proof Using.

(** instances *)
Section inst.
  Context {T : Type} (zero : T).
  Set Default Proof Using "Type zero".
  (** vectors of a world *)
  Definition vec_holds (v : nat) (w : world T) (l : list T) : Prop := ∃ ls, v_rel w ls ∧ ls !! v = Some l.
  Lemma vector_ra_law v : ra_law v_size v_at v_set_at v (vec_holds v).
  Proof.
    split.
    - intros w l (ls & Rl & Hl). by destruct (v_obs zero gr _ _ _ _ Rl Hl).
    - intros w l i (ls & Rl & Hl). destruct (v_obs zero gr _ _ _ _ Rl Hl) as [_ ->].
      by rewrite (nth_a_nth zero).
    - intros w l i x (ls & Rl & Hl). destruct (v_set_at_ok zero gr _ _ _ _ i x Rl Hl) as (w' & E & R').
      exists w'. split; [done|]. eexists. split; [exact R'|]. rewrite list_lookup_insert by (by eapply lookup_lt_Some).
      f_equal. unfold in_range. case_bool_decide; case_bool_decide; try done; try lia. symmetry. by apply list_insert_ge; lia.
  Qed.
  Lemma array_ra_law v : ra_law (W := world T) a_size a_at a_set v (vec_holds v).
  Proof. exact (vector_ra_law v). Qed.

  (** slice wrappers: any header whose window fits its array *)
  Definition sl_fits (m : mem T) (s : slice) : Prop :=
    ∃ a, m_arr m !! s_arr s = Some a ∧ (s_off s + s_len s <= length a)%nat.
  Definition sw_holds (o : nat) (w : world T) (l : list T) : Prop :=
    ∃ s, w_vecs w !! o = Some s ∧ sl_fits (w_mem w) s ∧ s_vals s (w_mem w) = l.
  Lemma s_vals_length (m : mem T) s : sl_fits m s → length (s_vals s m) = s_len s.
  Proof. intros (a & Ha & ?). unfold s_vals, array_of. rewrite Ha. simpl. rewrite take_length, drop_length. lia. Qed.
  Lemma s_vals_lookup (m : mem T) s a i : m_arr m !! s_arr s = Some a → (i < s_len s)%nat → s_vals s m !! i = a !! (s_off s + i)%nat.
  Proof. intros Ha ?. unfold s_vals, array_of. rewrite Ha. simpl. rewrite lookup_take by done. by rewrite lookup_drop. Qed.
  Lemma s_set_vals (m : mem T) s i x : sl_fits m s → 0 <= i < Z.of_nat (s_len s) →
    ∃ m', s_set s i x m = Ok (tt, m') ∧ sl_fits m' s ∧ s_vals s m' = <[Z.to_nat i := x]> (s_vals s m) ∧
      ∀ t, s_arr t ≠ s_arr s → s_vals t m' = s_vals t m.
  Proof.
    intros Hf Hi. pose proof (s_vals_length _ _ Hf) as Hlen. destruct Hf as (a & Ha & ?).
    unfold s_set. destruct (Z.leb_spec 0 i), (Z.ltb_spec i (Z.of_nat (s_len s))); simpl; try lia.
    eexists. split; [done|]. unfold array_of. rewrite Ha. simpl. split_and!.
    - eexists. simpl. rewrite lookup_insert. split; [done|]. by rewrite insert_length.
    - apply list_eq. intros j. destruct (decide (j < s_len s)%nat) as [Hj|Hj].
      + rewrite (s_vals_lookup _ _ (<[(s_off s + Z.to_nat i)%nat:=x]> a)); [|simpl; by rewrite lookup_insert|done].
        destruct (decide (j = Z.to_nat i)) as [->|].
        * rewrite !list_lookup_insert; [done|lia|lia].
        * rewrite !list_lookup_insert_ne by lia. by rewrite (s_vals_lookup _ _ a).
      + rewrite !lookup_ge_None_2; [done|rewrite insert_length; lia|]. rewrite (s_vals_length _ s); [lia|].
        eexists. simpl. rewrite lookup_insert. split; [done|]. by rewrite insert_length.
    - intros t Ht. unfold s_vals, array_of. simpl. by rewrite lookup_insert_ne.
  Qed.
  Lemma slice_ra_law o : ra_law sw_len sw_at sw_set o (sw_holds o).
  Proof.
    split.
    - intros w l (s & Hs & Hf & <-). unfold sw_len, mbind_, data. rewrite Hs. unfold mret_, len_. by rewrite s_vals_length.
    - intros w l i (s & Hs & Hf & <-). pose proof (s_vals_length _ _ Hf) as Hlen. unfold sw_at, mbind_, data. rewrite Hs. unfold len_, lift.
      destruct (Z.ltb_spec i 0), (Z.leb_spec (Z.of_nat (s_len s)) i); simpl; try (rewrite bool_decide_eq_false_2 by lia; done);
        rewrite bool_decide_eq_true_2 by lia.
      + rewrite lookup_ge_None_2 by lia. done.
      + destruct Hf as (a & Ha & ?). unfold s_get. destruct (Z.leb_spec 0 i), (Z.ltb_spec i (Z.of_nat (s_len s))); simpl; try lia.
        unfold array_of. rewrite Ha. simpl. rewrite (s_vals_lookup _ _ a) by (done || lia).
        destruct (a !! _); by destruct w.
    - intros w l i x (s & Hs & Hf & <-). unfold sw_set, mbind_, data. rewrite Hs. unfold len_.
      pose proof (s_vals_length _ _ Hf) as Hlen.
      destruct (Z.ltb_spec i 0), (Z.leb_spec (Z.of_nat (s_len s)) i); simpl;
        try (exists w; split; [done|]; exists s; split_and!; [done|done|]).
      + by rewrite bool_decide_eq_false_2 by lia.
      + by rewrite bool_decide_eq_false_2 by lia.
      + rewrite bool_decide_eq_true_2 by lia. by rewrite list_insert_ge by lia.
      + unfold lift. destruct (s_set_vals (w_mem w) s i x Hf ltac:(lia)) as (m' & -> & ? & Hv & _).
        eexists. split; [done|]. rewrite bool_decide_eq_true_2 by lia. exists s. done.
  Qed.
End inst.
