(** Ring segments refine lists. *)
From Verif Require Import Base Wp DequeModel.
Open Scope nat_scope.

Notation C := SegmentCapacity.
(** position i of a ring of length n starting at b *)
Definition ri (n b i : nat) : nat := if b + i <? n then b + i else b + i - n.
Definition nx (n k : nat) : nat := if S k <? n then S k else 0.
Definition pv (n k : nat) : nat := if k =? 0 then n - 1 else k - 1.
Ltac ring_lia := unfold ri, nx, pv in *;
  repeat match goal with
  | |- context [?a <? ?b] => destruct (Nat.ltb_spec a b)
  | |- context [?a =? ?b] => destruct (Nat.eqb_spec a b)
  | H : context [?a <? ?b] |- _ => destruct (Nat.ltb_spec a b)
  | H : context [?a =? ?b] |- _ => destruct (Nat.eqb_spec a b)
  end; try lia.

Lemma gomod_ok {S} (a b : nat) (s : S) : 0 < b → gomod (Z.of_nat a) (Z.of_nat b) s = Ok (Z.of_nat (a mod b), s).
Proof.
  intros. unfold gomod. destruct (Z.eqb_spec (Z.of_nat b) 0); [lia|]. unfold mret_. do 2 f_equal.
  rewrite Z.rem_mod_nonneg by lia. by rewrite Nat2Z.inj_mod.
Qed.
Lemma mod_ri n b i : b < n → i <= n → (b + i) mod n = ri n b i.
Proof.
  intros. unfold ri. destruct (Nat.ltb_spec (b + i) n); [by apply Nat.mod_small|].
  replace (b + i) with (b + i - n + 1 * n) at 1 by lia. rewrite Nat.mod_add by lia. apply Nat.mod_small. lia.
Qed.
Lemma gomod_next {S} n k (s : S) : k < n → gomod (Z.of_nat k + 1)%Z (Z.of_nat n) s = Ok (Z.of_nat (nx n k), s).
Proof.
  intros. replace (Z.of_nat k + 1)%Z with (Z.of_nat (k + 1)) by lia. rewrite gomod_ok by lia. rewrite mod_ri by lia.
  do 3 f_equal. ring_lia.
Qed.
Lemma gomod_pre {S} n k (s : S) : k < n → gomod (Z.of_nat k - 1 + Z.of_nat n)%Z (Z.of_nat n) s = Ok (Z.of_nat (pv n k), s).
Proof.
  intros. replace (Z.of_nat k - 1 + Z.of_nat n)%Z with (Z.of_nat (k + (n - 1))) by lia. rewrite gomod_ok by lia. rewrite mod_ri by lia.
  do 3 f_equal. ring_lia.
Qed.
Lemma gomod_ri {S} n b i z (s : S) : b < n → i <= n → z = Z.of_nat (b + i) → gomod z (Z.of_nat n) s = Ok (Z.of_nat (ri n b i), s).
Proof. intros ? ? ->. rewrite gomod_ok by lia. by rewrite mod_ri. Qed.
Lemma ri_lt n b i : b < n → i <= n → ri n b i < n.
Proof. intros. ring_lia. Qed.
Lemma ri_inj n b i j : b < n → i < n → j < n → ri n b i = ri n b j → i = j.
Proof. intros. ring_lia. Qed.

Section seg.
  Context {T : Type} (zero : T).
  Implicit Types (s : segment T) (l : list T).
  (** s holds the items l, starting at ring position b *)
  Record rep_at s (b : nat) l : Prop := {
    rp_data : length (sg_data s) = C;
    rp_b : b < C;
    rp_begin : sg_begin s = Z.of_nat b;
    rp_len : length l <= C;
    rp_size : sg_size s = Z.of_nat (length l);
    rp_end : sg_end s = Z.of_nat (ri C b (length l));
    rp_items : ∀ i, i < length l → sg_data s !! ri C b i = l !! i;
  }.
  Definition rep s l : Prop := ∃ b, rep_at s b l.

  Lemma C_pos : 0 < C. Proof using. unfold C. lia. Qed.
  Lemma rep_new : rep (new_segment zero) [].
  Proof using. exists 0. split; cbn [sg_data sg_begin sg_end sg_size new_segment length]; try done; try (unfold C; lia). Qed.

  Lemma s_next_eq s k : length (sg_data s) = C → k < C → s_next (Z.of_nat k) s = Ok (Z.of_nat (nx C k), s).
  Proof using. intros H1 H2. unfold s_next, s_capacity, mbind_, sget, mret_. rewrite H1. by apply gomod_next. Qed.
  Lemma s_pre_eq s k : length (sg_data s) = C → k < C → s_pre (Z.of_nat k) s = Ok (Z.of_nat (pv C k), s).
  Proof using. intros H1 H2. unfold s_pre, s_capacity, mbind_, sget, mret_. rewrite H1. by apply gomod_pre. Qed.
  Lemma s_read_eq s k x : sg_data s !! k = Some x → s_read (Z.of_nat k) s = Ok (x, s).
  Proof using. intros H. unfold s_read. by rewrite (idx_nat _ _ _ H). Qed.
  Definition with_data s d : segment T := MkSeg d (sg_begin s) (sg_end s) (sg_size s).
  Lemma s_write_eq s k x : k < length (sg_data s) → s_write (Z.of_nat k) x s = Ok (tt, with_data s (<[k := x]> (sg_data s))).
  Proof using. intros H. unfold s_write. by rewrite upd_nat. Qed.

  Lemma push_back_ok s l x : rep s l → length l < C → wp (s_push_back x) (λ _ s', rep s' (l ++ [x])) s.
  Proof using.
    intros [b [D B Be L Sz E I]] Hl. unfold s_push_back. pose proof (ri_lt C b (length l) B L).
    apply wp_bind. eapply wp_eq; [reflexivity|]. rewrite E.
    wp_step (s_write_eq s (ri C b (length l)) x ltac:(lia)).
    wp_step (s_next_eq (with_data s (<[ri C b (length l):=x]> (sg_data s))) (ri C b (length l)) ltac:(cbn; rewrite insert_length; done) ltac:(done)).
    apply wp_bind. eapply wp_eq; [reflexivity|]. eapply wp_eq; [reflexivity|].
    exists b. split; cbn [sg_data sg_begin sg_end sg_size with_data]; try done.
    - by rewrite insert_length.
    - rewrite app_length. cbn. lia.
    - rewrite app_length. cbn. lia.
    - rewrite app_length. cbn. f_equal. ring_lia.
    - intros i Hi. rewrite app_length in Hi. cbn in Hi. destruct (decide (i = length l)) as [->|].
      + rewrite list_lookup_insert by lia. by rewrite list_lookup_middle.
      + rewrite list_lookup_insert_ne. 2:{ intros Hq. apply ri_inj in Hq; lia. } rewrite I by lia. by rewrite lookup_app_l by lia.
  Qed.
  Lemma push_front_ok s l x : rep s l → length l < C → wp (s_push_front x) (λ _ s', rep s' (x :: l)) s.
  Proof using.
    intros [b [D B Be L Sz E I]] Hl. unfold s_push_front.
    apply wp_bind. eapply wp_eq; [reflexivity|]. rewrite Be.
    wp_step (s_pre_eq s b D B). apply wp_bind. eapply wp_eq; [reflexivity|].
    match goal with |- wp _ _ ?s' => wp_step (s_write_eq s' (pv C b) x ltac:(cbn [sg_data]; ring_lia)) end.
    eapply wp_eq; [reflexivity|].
    exists (pv C b). split; cbn [sg_data sg_begin sg_end sg_size with_data length]; try done.
    - by rewrite insert_length.
    - ring_lia.
    - lia.
    - rewrite E. f_equal. ring_lia.
    - intros [|i] Hi.
      + replace (ri C (pv C b) 0) with (pv C b) by ring_lia. rewrite list_lookup_insert by ring_lia. done.
      + replace (ri C (pv C b) (S i)) with (ri C b i) by ring_lia.
        rewrite list_lookup_insert_ne by ring_lia. rewrite I by lia. done.
  Qed.
  Lemma pop_back_ok s l x : rep s (l ++ [x]) → wp s_pop_back (λ y s', y = x ∧ rep s' l) s.
  Proof using.
    intros [b [D B Be L Sz E I]]. rewrite app_length in *. cbn in L, Sz, E, I. unfold s_pop_back.
    apply wp_bind. eapply wp_eq; [reflexivity|]. rewrite E. pose proof (ri_lt C b (length l + 1) B L).
    wp_step (s_pre_eq s (ri C b (length l + 1)) D ltac:(done)). apply wp_bind. eapply wp_eq; [reflexivity|].
    match goal with |- wp _ _ ?s' => apply wp_bind; eapply (wp_eq _ _ _ x); [apply (s_read_eq s' (pv C (ri C b (length l + 1))) x)|] end.
    { cbn [sg_data]. replace (pv C (ri C b (length l + 1))) with (ri C b (length l)) by ring_lia.
      rewrite I by lia. by rewrite list_lookup_middle. }
    apply wp_bind. eapply wp_eq; [reflexivity|]. eapply wp_eq; [reflexivity|]. split; [done|].
    exists b. split; cbn [sg_data sg_begin sg_end sg_size]; try done; try lia.
    - f_equal. ring_lia.
    - intros i Hi. rewrite I by lia. by rewrite lookup_app_l.
  Qed.
  Lemma pop_front_ok s l x : rep s (x :: l) → wp s_pop_front (λ y s', y = x ∧ rep s' l) s.
  Proof using.
    intros [b [D B Be L Sz E I]]. cbn in L, Sz, E, I. unfold s_pop_front.
    apply wp_bind. eapply wp_eq; [reflexivity|]. rewrite Be.
    apply wp_bind; eapply (wp_eq _ _ _ x); [apply (s_read_eq s b x)|]. { specialize (I 0). replace (ri C b 0) with b in I by ring_lia. rewrite I by lia. done. }
    wp_step (s_next_eq s b D B). apply wp_bind. eapply wp_eq; [reflexivity|].
    apply wp_bind. eapply wp_eq; [reflexivity|]. eapply wp_eq; [reflexivity|]. split; [done|].
    exists (nx C b). split; cbn [sg_data sg_begin sg_end sg_size]; try done; try lia.
    - ring_lia.
    - rewrite E. f_equal. ring_lia.
    - intros i Hi. replace (ri C (nx C b) i) with (ri C b (S i)) by ring_lia. rewrite I by lia. done.
  Qed.
  Lemma at_ok s l i x : rep s l → l !! i = Some x → s_at (Z.of_nat i) s = Ok (x, s).
  Proof using.
    intros [b [D B Be L Sz E I]] Hx. pose proof (lookup_lt_Some _ _ _ Hx). unfold s_at, s_capacity, mbind_, sget.
    rewrite Sz. destruct (Z.ltb_spec (Z.of_nat i) 0), (Z.leb_spec (Z.of_nat (length l)) (Z.of_nat i)); cbn [orb]; try lia.
    unfold mret_. rewrite D, Be. rewrite (gomod_ri C b i) by lia. apply s_read_eq. by rewrite I.
  Qed.
  Lemma set_ok s l i x : rep s l → i < length l → wp (s_set (Z.of_nat i) x) (λ _ s', rep s' (<[i := x]> l)) s.
  Proof using.
    intros [b [D B Be L Sz E I]] Hi. unfold s_set. apply wp_bind. eapply wp_eq; [reflexivity|]. rewrite D.
    destruct (Z.ltb_spec (Z.of_nat i) 0), (Z.leb_spec (Z.of_nat C) (Z.of_nat i)); cbn [orb]; try lia.
    apply wp_bind. eapply wp_eq; [reflexivity|]. rewrite D, Be. wp_step (gomod_ri C b i (Z.of_nat i + Z.of_nat b) s B ltac:(lia) ltac:(lia)).
    eapply wp_eq; [apply s_write_eq; rewrite D; apply ri_lt; lia|].
    exists b. split; cbn [sg_data sg_begin sg_end sg_size with_data]; rewrite ?insert_length; try done.
    intros j Hj. destruct (decide (j = i)) as [->|].
    - rewrite !list_lookup_insert; [done|lia|]. rewrite D. apply ri_lt; lia.
    - rewrite !list_lookup_insert_ne; [by apply I|done|]. intros Hq. apply ri_inj in Hq; lia.
  Qed.
  Lemma clear_ok s : rep s [] → wp s_clear (λ _ s', rep s' []) s.
  Proof using.
    intros [b [D B Be L Sz E I]]. eapply wp_eq; [reflexivity|].
    exists 0. split; cbn [sg_data sg_begin sg_end sg_size length]; try done; try lia. 
  Qed.

  (** the shifting loops of insert, with their final data *)
  Lemma shift_back_ok b n : ∀ k s, length (sg_data s) = C → b < C → k + n < C →
    wp (s_shift_back n (Z.of_nat (ri C b k)))
      (λ j s', j = Z.of_nat (ri C b (k + n)) ∧ ∃ d, s' = with_data s d ∧ length d = C ∧
         ∀ i, i < C → d !! ri C b i = if decide (k <= i < k + n) then sg_data s !! ri C b (S i) else sg_data s !! ri C b i) s.
  Proof using.
    induction n as [|n IH]; intros k s D B Hk; cbn [s_shift_back].
    - apply wp_ret. split; [do 2 f_equal; lia|]. exists (sg_data s). split_and!; [by destruct s|done|].
      intros i Hi. by rewrite decide_False by lia.
    - wp_step (s_next_eq s (ri C b k) D ltac:(ring_lia)).
      replace (nx C (ri C b k)) with (ri C b (S k)) by ring_lia.
      assert (is_Some (sg_data s !! ri C b (S k))) as [x Hx]. { apply lookup_lt_is_Some. rewrite D. ring_lia. }
      wp_step (s_read_eq s (ri C b (S k)) x Hx). wp_step (s_write_eq s (ri C b k) x ltac:(rewrite D; ring_lia)).
      eapply wp_mono; [apply IH; [cbn; by rewrite insert_length|done|lia]|]. cbv beta. cbn [with_data sg_data].
      intros j s' (-> & d & -> & Hd & Hi). split; [do 2 f_equal; lia|]. exists d. split_and!; [done|done|].
      intros i Hi'. rewrite Hi by done. destruct (decide (S k <= i < S k + n)).
      + rewrite decide_True by lia. rewrite list_lookup_insert_ne; [done|]. intros Hq. apply ri_inj in Hq; lia.
      + destruct (decide (i = k)) as [->|].
        * rewrite decide_True by lia. rewrite list_lookup_insert; [done|]. rewrite D. ring_lia.
        * rewrite decide_False by lia. rewrite list_lookup_insert_ne; [done|]. intros Hq. apply ri_inj in Hq; lia.
  Qed.
  Lemma shift_forth_ok b n : ∀ k s, length (sg_data s) = C → b < C → n <= k → k < C →
    wp (s_shift_forth n (Z.of_nat (ri C b k)))
      (λ j s', j = Z.of_nat (ri C b (k - n)) ∧ ∃ d, s' = with_data s d ∧ length d = C ∧
         ∀ i, i < C → d !! ri C b i = if decide (k - n < i <= k) then sg_data s !! ri C b (i - 1) else sg_data s !! ri C b i) s.
  Proof using.
    induction n as [|n IH]; intros k s D B Hn Hk; cbn [s_shift_forth].
    - apply wp_ret. split; [do 2 f_equal; lia|]. exists (sg_data s). split_and!; [by destruct s|done|].
      intros i Hi. by rewrite decide_False by lia.
    - wp_step (s_pre_eq s (ri C b k) D ltac:(ring_lia)).
      replace (pv C (ri C b k)) with (ri C b (k - 1)) by ring_lia.
      assert (is_Some (sg_data s !! ri C b (k - 1))) as [x Hx]. { apply lookup_lt_is_Some. rewrite D. ring_lia. }
      wp_step (s_read_eq s (ri C b (k - 1)) x Hx). wp_step (s_write_eq s (ri C b k) x ltac:(rewrite D; ring_lia)).
      eapply wp_mono; [apply IH; [cbn; by rewrite insert_length|done|lia|lia]|]. cbv beta. cbn [with_data sg_data].
      intros j s' (-> & d & -> & Hd & Hi). split; [do 2 f_equal; lia|]. exists d. split_and!; [done|done|].
      intros i Hi'. rewrite Hi by done. destruct (decide (k - 1 - n < i <= k - 1)).
      + rewrite decide_True by lia. rewrite list_lookup_insert_ne; [done|]. intros Hq. apply ri_inj in Hq; lia.
      + destruct (decide (i = k)) as [->|].
        * rewrite decide_True by lia. rewrite list_lookup_insert; [done|]. rewrite D. ring_lia.
        * rewrite decide_False by lia. rewrite list_lookup_insert_ne; [done|]. intros Hq. apply ri_inj in Hq; lia.
  Qed.
  (** inserting at a position beyond the end appends *)
  Lemma insert_ok s l p x : rep s l → length l < C → p < C →
    wp (s_insert (Z.of_nat p) x) (λ _ s', rep s' (take p l ++ x :: drop p l)) s.
  Proof using.
    intros [b [D B Be L Sz E I]] Hl Hp. unfold s_insert. apply wp_bind. eapply wp_eq; [reflexivity|]. rewrite Sz, Be, E.
    assert (length (take p l ++ x :: drop p l) = S (length l)) as Hlen.
    { rewrite app_length, take_length. cbn. rewrite drop_length. lia. }
    destruct (Z.ltb_spec (Z.of_nat p) (Z.of_nat (length l) - Z.of_nat p)) as [Hc|Hc].
    - apply wp_bind. wp_step (s_pre_eq s b D B). rewrite Nat2Z.id.
      set (b' := pv C b). assert (b' < C) by (unfold b'; ring_lia).
      assert (∀ i, i < C - 1 → ri C b' (S i) = ri C b i) as Hs by (intros; unfold b'; ring_lia).
      replace (Z.of_nat b') with (Z.of_nat (ri C b' 0)) by (f_equal; ring_lia).
      apply wp_bind. eapply wp_mono; [apply (shift_back_ok b' p 0); [done|done|lia]|]. cbv beta.
      intros j s' (-> & d & -> & Hd & Hdi). cbn [plus] in *.
      wp_step (s_write_eq (with_data s d) (ri C b' p) x ltac:(cbn; rewrite Hd; ring_lia)).
      wp_step (s_pre_eq (with_data (with_data s d) (<[ri C b' p:=x]> (sg_data (with_data s d)))) b ltac:(cbn; by rewrite insert_length) B).
      eapply wp_eq; [reflexivity|]. eapply wp_eq; [reflexivity|].
      exists b'. split; cbn [with_data sg_data sg_begin sg_end sg_size]; rewrite ?insert_length, ?Hlen; try done; try lia.
      + rewrite E. f_equal. unfold b'. ring_lia.
      + intros i Hi. destruct (decide (i = p)) as [->|].
        * rewrite list_lookup_insert by (rewrite Hd; ring_lia). rewrite lookup_app_r by (rewrite take_length; lia).
          rewrite take_length. by replace (p - _) with 0 by lia.
        * rewrite list_lookup_insert_ne by (intros Hq; apply ri_inj in Hq; lia). rewrite Hdi by lia.
          destruct (decide (0 <= i < p)).
          -- rewrite Hs by lia. rewrite I by lia. rewrite lookup_app_l by (rewrite take_length; lia). by rewrite lookup_take by lia.
          -- destruct i as [|i]; [lia|]. rewrite Hs by lia. rewrite I by lia. rewrite lookup_app_r by (rewrite take_length; lia).
             rewrite take_length. replace (S i - p `min` length l) with (S (i - p)) by lia. rewrite lookup_cons, lookup_drop. f_equal. lia.
    - replace (Z.to_nat (Z.of_nat (length l) - Z.of_nat p)) with (length l - p) by lia.
      apply wp_bind. apply wp_bind. eapply wp_mono; [apply (shift_forth_ok b); [done|done|lia|lia]|]. cbv beta.
      intros j s' (-> & d & -> & Hd & Hdi). set (q := length l - (length l - p)) in *.
      wp_step (s_write_eq (with_data s d) (ri C b q) x ltac:(cbn; rewrite Hd; ring_lia)).
      wp_step (s_next_eq (with_data (with_data s d) (<[ri C b q:=x]> (sg_data (with_data s d)))) (ri C b (length l)) ltac:(cbn; by rewrite insert_length) ltac:(ring_lia)).
      eapply wp_eq; [reflexivity|]. eapply wp_eq; [reflexivity|].
      exists b. split; cbn [with_data sg_data sg_begin sg_end sg_size]; rewrite ?insert_length, ?Hlen; try done; try lia.
      + f_equal. ring_lia.
      + intros i Hi. destruct (decide (i = q)) as [->|].
        * rewrite list_lookup_insert by (rewrite Hd; ring_lia). rewrite lookup_app_r by (rewrite take_length; lia).
          rewrite take_length. by replace (q - _) with 0 by lia.
        * rewrite list_lookup_insert_ne by (intros Hq; apply ri_inj in Hq; lia). rewrite Hdi by lia. fold q.
          destruct (decide (q < i <= length l)).
          -- rewrite I by lia. rewrite lookup_app_r by (rewrite take_length; lia).
             rewrite take_length. replace (i - p `min` length l) with (S (i - q - 1)) by lia. rewrite lookup_cons, lookup_drop. f_equal. lia.
          -- rewrite I by lia. rewrite lookup_app_l by (rewrite take_length; lia). by rewrite lookup_take by lia.
  Qed.

  (** the loops of eraseAt *)
  Lemma erase_down_ok b n : ∀ s, length (sg_data s) = C → b < C → n < C →
    wp (for_down n (Z.of_nat n) (λ i,
         let! c := s_capacity in
         let! k := gomod (i + Z.of_nat b) c in
         let! p := gomod (i - 1 + Z.of_nat b) c in
         let! x := s_read p in s_write k x)%go)
      (λ _ s', ∃ d, s' = with_data s d ∧ length d = C ∧
         ∀ i, i < C → d !! ri C b i = if decide (0 < i <= n) then sg_data s !! ri C b (i - 1) else sg_data s !! ri C b i) s.
  Proof using.
    induction n as [|n IH]; intros s D B Hn; cbn [for_down].
    - apply wp_ret. exists (sg_data s). split_and!; [by destruct s|done|]. intros i Hi. by rewrite decide_False by lia.
    - apply wp_bind. apply wp_bind. eapply wp_eq; [reflexivity|]. rewrite D.
      wp_step (gomod_ri C b (S n) (Z.of_nat (S n) + Z.of_nat b) s B ltac:(lia) ltac:(lia)).
      wp_step (gomod_ri C b n (Z.of_nat (S n) - 1 + Z.of_nat b) s B ltac:(lia) ltac:(lia)).
      assert (is_Some (sg_data s !! ri C b n)) as [x Hx]. { apply lookup_lt_is_Some. rewrite D. ring_lia. }
      wp_step (s_read_eq s _ x Hx). eapply wp_eq; [apply s_write_eq; rewrite D; ring_lia|].
      replace (Z.of_nat (S n) - 1)%Z with (Z.of_nat n) by lia.
      eapply wp_mono; [apply IH; [cbn; by rewrite insert_length|done|lia]|]. cbv beta. cbn [with_data sg_data].
      intros _ s' (d & -> & Hd & Hi). exists d. split_and!; [done|done|].
      intros i Hi'. rewrite Hi by done. destruct (decide (0 < i <= n)).
      + rewrite decide_True by lia. rewrite list_lookup_insert_ne; [done|]. intros Hq. apply ri_inj in Hq; lia.
      + destruct (decide (i = S n)) as [->|].
        * rewrite decide_True by lia. rewrite list_lookup_insert by (rewrite D; ring_lia). rewrite <-Hx. f_equal. f_equal. lia.
        * rewrite decide_False by lia. rewrite list_lookup_insert_ne; [done|]. intros Hq. apply ri_inj in Hq; lia.
  Qed.
  Lemma erase_up_ok b n : ∀ k s, length (sg_data s) = C → b < C → k + n <= C →
    wp (for_up n (Z.of_nat k) (λ i,
         let! c := s_capacity in
         let! k := gomod (i + Z.of_nat b) c in
         let! q := gomod (i + 1 + Z.of_nat b) c in
         let! x := s_read q in s_write k x)%go)
      (λ _ s', ∃ d, s' = with_data s d ∧ length d = C ∧
         ∀ i, i < k + n - 1 → d !! ri C b i = if decide (k <= i) then sg_data s !! ri C b (S i) else sg_data s !! ri C b i) s.
  Proof using.
    induction n as [|n IH]; intros k s D B Hn; cbn [for_up].
    - apply wp_ret. exists (sg_data s). split_and!; [by destruct s|done|]. intros i Hi. by rewrite decide_False by lia.
    - apply wp_bind. apply wp_bind. eapply wp_eq; [reflexivity|]. rewrite D.
      wp_step (gomod_ri C b k (Z.of_nat k + Z.of_nat b) s B ltac:(lia) ltac:(lia)).
      wp_step (gomod_ri C b (S k) (Z.of_nat k + 1 + Z.of_nat b) s B ltac:(lia) ltac:(lia)).
      assert (is_Some (sg_data s !! ri C b (S k))) as [x Hx]. { apply lookup_lt_is_Some. rewrite D. ring_lia. }
      wp_step (s_read_eq s _ x Hx). eapply wp_eq; [apply s_write_eq; rewrite D; ring_lia|].
      replace (Z.of_nat k + 1)%Z with (Z.of_nat (S k)) by lia.
      eapply wp_mono; [apply IH; [cbn; by rewrite insert_length|done|lia]|]. cbv beta. cbn [with_data sg_data].
      intros _ s' (d & -> & Hd & Hi). exists d. split_and!; [done|done|].
      intros i Hi'. rewrite Hi by lia. destruct (decide (S k <= i)).
      + rewrite decide_True by lia. rewrite list_lookup_insert_ne; [done|].
        destruct (decide (S i = C)) as [Hq|]; [|intros Hq'; apply ri_inj in Hq'; lia]. lia.
      + destruct (decide (i = k)) as [->|].
        * rewrite decide_True by lia. by rewrite list_lookup_insert by (rewrite D; ring_lia).
        * rewrite decide_False by lia. rewrite list_lookup_insert_ne; [done|]. intros Hq. apply ri_inj in Hq; lia.
  Qed.
  Lemma erase_ok s l p : rep s l → p < length l →
    wp (s_erase_at (Z.of_nat p)) (λ _ s', rep s' (take p l ++ drop (S p) l)) s.
  Proof using.
    intros [b [D B Be L Sz E I]] Hp. unfold s_erase_at. apply wp_bind. eapply wp_eq; [reflexivity|]. rewrite Sz, Be, E.
    assert (length (take p l ++ drop (S p) l) = length l - 1) as Hlen.
    { rewrite app_length, take_length, drop_length. lia. }
    destruct (Z.ltb_spec (Z.of_nat p) (Z.of_nat (length l) - Z.of_nat p)) as [Hc|Hc].
    - apply wp_bind. apply wp_bind. rewrite Nat2Z.id. eapply wp_mono; [apply (erase_down_ok b p); [done|done|lia]|]. cbv beta.
      intros _ s' (d & -> & Hd & Hdi). wp_step (s_next_eq (with_data s d) b Hd B).
      eapply wp_eq; [reflexivity|]. eapply wp_eq; [reflexivity|].
      exists (nx C b). split; cbn [with_data sg_data sg_begin sg_end sg_size]; rewrite ?Hlen; try done; try lia.
      + ring_lia.
      + rewrite E. f_equal. ring_lia.
      + intros i Hi. replace (ri C (nx C b) i) with (ri C b (S i)) by ring_lia. rewrite Hdi by lia.
        destruct (decide (0 < S i <= p)).
        * rewrite I by lia. rewrite lookup_app_l by (rewrite take_length; lia). rewrite lookup_take by lia. f_equal. lia.
        * rewrite I by lia. rewrite lookup_app_r by (rewrite take_length; lia). rewrite take_length, lookup_drop. f_equal. lia.
    - replace (Z.to_nat (Z.of_nat (length l) - Z.of_nat p)) with (length l - p) by lia.
      apply wp_bind. apply wp_bind. eapply wp_mono; [apply (erase_up_ok b (length l - p) p); [done|done|lia]|]. cbv beta.
      intros _ s' (d & -> & Hd & Hdi). wp_step (s_pre_eq (with_data s d) (ri C b (length l)) Hd ltac:(ring_lia)).
      eapply wp_eq; [reflexivity|]. eapply wp_eq; [reflexivity|].
      exists b. split; cbn [with_data sg_data sg_begin sg_end sg_size]; rewrite ?Hlen; try done; try lia.
      + f_equal. ring_lia.
      + intros i Hi. rewrite Hdi by lia. destruct (decide (p <= i)).
        * rewrite I by lia. rewrite lookup_app_r by (rewrite take_length; lia). rewrite take_length, lookup_drop. f_equal. lia.
        * rewrite I by lia. rewrite lookup_app_l by (rewrite take_length; lia). by rewrite lookup_take by lia.
  Qed.
  Lemma rep_size s l : rep s l → s_size s = Z.of_nat (length l) ∧ length l <= C.
  Proof using. by intros [b []]. Qed.
  Lemma rep_full s l : rep s l → s_full s = bool_decide (length l = C).
  Proof using.
    intros [b [D _ _ _ Sz _ _]]. unfold s_full. rewrite D, Sz.
    destruct (Z.eqb_spec (Z.of_nat (length l)) (Z.of_nat C)); symmetry; [apply bool_decide_eq_true_2; lia|apply bool_decide_eq_false_2; lia].
  Qed.
  Lemma rep_empty s l : rep s l → s_empty s = bool_decide (l = []).
  Proof using. intros [b [_ _ _ _ Sz _ _]]. unfold s_empty. rewrite Sz. by destruct l. Qed.
End seg.
Global Opaque SegmentCapacity.
