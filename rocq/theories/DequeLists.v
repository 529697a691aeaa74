(** Lists of segments: offsets and concatenation. *)
From Verif Require Import Base DequeModel SegmentProofs.
Open Scope nat_scope.
Section lists.
  Context {T : Type}.
  Implicit Types (ls : list (list T)) (l : list T).
  (** number of items before segment j *)
  Definition off ls (j : nat) : nat := length (concat (take j ls)).
  Lemma off_0 ls : off ls 0 = 0.
  Proof. done. Qed.
  Lemma off_S ls j l : ls !! j = Some l → off ls (S j) = off ls j + length l.
  Proof. intros H. unfold off. rewrite (take_S_r _ _ _ H), concat_app, app_length. cbn. rewrite app_nil_r. lia. Qed.
  Lemma off_all ls j : length ls <= j → off ls j = length (concat ls).
  Proof. intros. unfold off. by rewrite take_ge. Qed.
  Lemma off_cons l ls j : off (l :: ls) (S j) = length l + off ls j.
  Proof. unfold off. cbn. by rewrite app_length. Qed.
  Lemma off_nil j : off [] j = 0.
  Proof. unfold off. by rewrite take_nil. Qed.
  Lemma off_mono ls i j : i <= j → off ls i <= off ls j.
  Proof.
    revert i j. induction ls as [|l ls IH]; intros i j H; [by rewrite !off_nil|].
    destruct i as [|i]; [rewrite off_0; lia|]. destruct j as [|j]; [lia|]. rewrite !off_cons. specialize (IH i j ltac:(lia)). lia.
  Qed.
  Lemma off_le ls j : off ls j <= length (concat ls).
  Proof. destruct (decide (length ls <= j)); [rewrite off_all; lia|]. rewrite <-(off_all ls (length ls)) by lia. apply off_mono. lia. Qed.
  Lemma off_insert ls i l l' j : ls !! i = Some l →
    off (<[i := l']> ls) j + (if decide (i < j) then length l else 0) = off ls j + (if decide (i < j) then length l' else 0).
  Proof.
    revert i j. induction ls as [|a ls IH]; intros i j H; [done|].
    destruct j as [|j]; [rewrite !off_0, !decide_False by lia; done|].
    destruct i as [|i].
    - cbn in H. simplify_eq. change (<[0:=l']> (l :: ls)) with (l' :: ls). rewrite !off_cons, !decide_True by lia. lia.
    - change (<[S i:=l']> (a :: ls)) with (a :: <[i := l']> ls). rewrite !off_cons. specialize (IH i j H).
      destruct (decide (i < j)), (decide (S i < S j)); lia.
  Qed.
  Lemma off_app1 ls l j : j <= length ls → off (ls ++ [l]) j = off ls j.
  Proof. intros. unfold off. by rewrite take_app_le by lia. Qed.

  (** segment i holds the items at positions [off i, off (i+1)) *)
  Lemma concat_parts ls i l : ls !! i = Some l →
    concat ls = concat (take i ls) ++ l ++ concat (drop (S i) ls) ∧
    take (off ls i) (concat ls) = concat (take i ls) ∧
    drop (off ls i + length l) (concat ls) = concat (drop (S i) ls).
  Proof.
    intros H. assert (concat ls = concat (take i ls) ++ l ++ concat (drop (S i) ls)) as E.
    { rewrite <-(take_drop_middle ls i l H) at 1. rewrite concat_app. done. }
    split; [done|]. unfold off. rewrite E. split; [by rewrite take_app|].
    rewrite <-app_length, app_assoc. by rewrite drop_app.
  Qed.
  Lemma concat_split ls i l : ls !! i = Some l →
    concat ls = take (off ls i) (concat ls) ++ l ++ drop (off ls i + length l) (concat ls).
  Proof. intros H. destruct (concat_parts ls i l H) as (E & -> & ->). done. Qed.
  Lemma concat_set ls i l l' : ls !! i = Some l →
    concat (<[i := l']> ls) = take (off ls i) (concat ls) ++ l' ++ drop (off ls i + length l) (concat ls).
  Proof.
    intros H. destruct (concat_parts ls i l H) as (E & -> & ->).
    rewrite (insert_take_drop ls i l') by (by eapply lookup_lt_Some). by rewrite concat_app.
  Qed.
  Lemma concat_lookup ls i l p : ls !! i = Some l → p < length l → concat ls !! (off ls i + p) = l !! p.
  Proof.
    intros H Hp. rewrite (concat_split ls i l H).
    assert (length (take (off ls i) (concat ls)) = off ls i) as Hl. { rewrite take_length. pose proof (off_le ls i). lia. }
    rewrite lookup_app_r by lia. rewrite Hl. rewrite lookup_app_l by lia. f_equal. lia.
  Qed.
  Lemma concat_ins ls i l p x : ls !! i = Some l → p <= length l →
    concat (<[i := take p l ++ x :: drop p l]> ls) = take (off ls i + p) (concat ls) ++ x :: drop (off ls i + p) (concat ls).
  Proof.
    intros H Hp. rewrite (concat_set ls i l _ H).
    assert (length (take (off ls i) (concat ls)) = off ls i) as Hl. { rewrite take_length. pose proof (off_le ls i). lia. }
    pose proof (concat_split ls i l H) as E. set (A := take (off ls i) (concat ls)) in *. set (B := drop (off ls i + length l) (concat ls)) in *.
    rewrite E. rewrite <-Hl. rewrite take_add_app, drop_add_app by done.
    rewrite take_app_le by done. rewrite drop_app_le by done. rewrite <-?app_assoc. cbn. by rewrite <-?app_assoc.
  Qed.
  Lemma concat_del ls i l p : ls !! i = Some l → p < length l →
    concat (<[i := take p l ++ drop (S p) l]> ls) = take (off ls i + p) (concat ls) ++ drop (S (off ls i + p)) (concat ls).
  Proof.
    intros H Hp. rewrite (concat_set ls i l _ H).
    assert (length (take (off ls i) (concat ls)) = off ls i) as Hl. { rewrite take_length. pose proof (off_le ls i). lia. }
    pose proof (concat_split ls i l H) as E. set (A := take (off ls i) (concat ls)) in *. set (B := drop (off ls i + length l) (concat ls)) in *.
    rewrite E. rewrite <-Hl. replace (S (length A + p)) with (length A + S p) by lia. rewrite take_add_app, drop_add_app by done.
    rewrite take_app_le by lia. rewrite drop_app_le by lia. by rewrite <-!app_assoc.
  Qed.
  Lemma concat_upd ls i l p x : ls !! i = Some l → p < length l →
    concat (<[i := <[p := x]> l]> ls) = <[off ls i + p := x]> (concat ls).
  Proof.
    intros H Hp. rewrite (concat_set ls i l _ H).
    assert (length (take (off ls i) (concat ls)) = off ls i) as Hl. { rewrite take_length. pose proof (off_le ls i). lia. }
    pose proof (concat_split ls i l H) as E. set (A := take (off ls i) (concat ls)) in *. set (B := drop (off ls i + length l) (concat ls)) in *.
    rewrite E. rewrite <-Hl. rewrite insert_app_r. by rewrite insert_app_l.
  Qed.
  (** moving the first item of segment i+1 to the end of segment i *)
  Lemma concat_pull ls i a x c : ls !! i = Some a → ls !! S i = Some (x :: c) →
    concat (<[i := a ++ [x]]> (<[S i := c]> ls)) = concat ls ∧
    ∀ j, off (<[i := a ++ [x]]> (<[S i := c]> ls)) j = off ls j + (if decide (i < j <= S i) then 1 else 0).
  Proof.
    intros Ha Hc. split.
    - revert i Ha Hc. induction ls as [|b ls IH]; intros i Ha Hc; [done|]. destruct i as [|i].
      + destruct ls as [|b' ls]; [done|]. cbn in Ha, Hc. simplify_eq. cbn. by rewrite <-app_assoc.
      + cbn in *. f_equal. by apply IH.
    - intros j. assert (<[S i := c]> ls !! i = Some a) as Ha' by (by rewrite list_lookup_insert_ne by lia).
      pose proof (off_insert _ i a (a ++ [x]) j Ha') as H1. pose proof (off_insert ls (S i) (x :: c) c j Hc) as H2.
      rewrite app_length in H1. cbn in H1, H2. destruct (decide (i < j)), (decide (S i < j)), (decide (i < j <= S i)); lia.
  Qed.
  (** moving the last item of segment i to the front of segment i+1 *)
  Lemma concat_pull_back ls i a x c : ls !! i = Some (a ++ [x]) → ls !! S i = Some c →
    concat (<[S i := x :: c]> (<[i := a]> ls)) = concat ls ∧
    ∀ j, off (<[S i := x :: c]> (<[i := a]> ls)) j + (if decide (i < j <= S i) then 1 else 0) = off ls j.
  Proof.
    intros Ha Hc. split.
    - revert i Ha Hc. induction ls as [|b ls IH]; intros i Ha Hc; [done|]. destruct i as [|i].
      + destruct ls as [|b' ls]; [done|]. cbn in Ha, Hc. simplify_eq. cbn. by rewrite <-app_assoc.
      + cbn in *. f_equal. by apply IH.
    - intros j. assert (<[i := a]> ls !! S i = Some c) as Hc' by (by rewrite list_lookup_insert_ne by lia).
      pose proof (off_insert _ (S i) c (x :: c) j Hc') as H1. pose proof (off_insert ls i (a ++ [x]) a j Ha) as H2.
      rewrite app_length in H2. cbn in H1, H2. destruct (decide (i < j)), (decide (S i < j)), (decide (i < j <= S i)); lia.
  Qed.

  (** every segment has between 1 and C items; all but the first and the last have C *)
  Definition shape ls : Prop :=
    (∀ j, j < length ls → off ls j < off ls (S j) <= off ls j + C) ∧
    (∀ j, 0 < j → S j < length ls → off ls (S j) = off ls j + C).
End lists.
