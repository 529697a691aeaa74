(** With a comparison function that answers like cmp, the algorithms of CrashAlgModel.v do what those
    of SortModel.v and HeapModel.v do, or end in a panic of the comparison function. *)
From Verif Require Import Base IterModel SortModel HeapModel CrashModel CrashSpec CrashProofs CrashAlgModel.
Open Scope Z_scope.
Notation tt_ := (λ _, True).

Ltac cstep Hu := lazymatch goal with
  | |- cr _ _ (xret _) (mret_ _) _ => apply cr_ret
  | |- cr _ _ _ mfuel _ => apply cr_fuel
  | |- cr _ _ (xrun _) _ _ => by apply cr_run
  | |- cr _ _ (xbind (xrun _) _) _ _ => apply cr_runb; [done|intros ? ? _; cbv beta]
  | |- cr _ _ (xbind (xcmp _ _ _) _) _ _ => eapply cr_cmp; [exact Hu|done|exact I|cbv beta]
  | |- cr _ _ (if ?b then _ else _) _ _ => destruct b
  | |- cr _ _ (match ?b with _ => _ end) _ _ => destruct b
  end.
Section sort.
  Context {W T C : Type}.
  Context (csize : nat → M W Z) (cat : nat → Z → M W T) (cset : nat → Z → T → M W unit).
  Context (u : user_cmp T C) (cmp : T → T → Z) (Hu : agrees_with u cmp).
  Notation Q := (can_panic u).
  Set Default Proof Using "Hu".
  Lemma s_swap_if a b w : cr tt_ Q (x_swap_if_gt cat cset u a b) (swap_if_gt cat cset cmp a b) w.
  Proof. unfold x_swap_if_gt, swap_if_gt. repeat cstep Hu. Qed.
  Lemma s_pivot a b d w : cr tt_ Q (x_do_pivot cat cset u a b d) (do_pivot cat cset cmp a b d) w.
  Proof. unfold x_do_pivot, do_pivot. apply cr_bind; [apply s_swap_if|]. intros ? ? _. apply cr_bind; [apply s_swap_if|]. intros ? ? _. apply s_swap_if. Qed.
  Lemma s_part f a b d w : cr tt_ Q (x_part_loop csize cat cset u f a b d) (part_loop csize cat cset cmp f a b d) w.
  Proof. revert a b w. induction f as [|f IH]; intros a b w; cbn [x_part_loop part_loop]; repeat cstep Hu; apply IH. Qed.
  Lemma s_partition a b w : cr tt_ Q (x_partition csize cat cset u a b) (partition csize cat cset cmp a b) w.
  Proof. unfold x_partition, partition. apply cr_bind; [apply s_part|]. intros ? ? _. repeat cstep Hu. Qed.
  Lemma s_quick f a b w : cr tt_ Q (x_quick_sort csize cat cset u f a b) (quick_sort csize cat cset cmp f a b) w.
  Proof.
    revert a b w. induction f as [|f IH]; intros a b w; cbn [x_quick_sort quick_sort]; (cstep Hu; [cstep Hu|]); cbv zeta; (cstep Hu; [apply s_swap_if|]); (apply cr_bind; [apply s_pivot|]); intros ? ? _; cstep Hu; (cstep Hu; [cstep Hu|]); (apply cr_bind; [apply s_partition|]); intros ? ? _.
    - cstep Hu.
    - apply cr_bind; [apply IH|]. intros ? ? _. cstep Hu. apply IH.
  Qed.
  Lemma s_sort a b w : cr tt_ Q (x_sort_range csize cat cset u a b) (sort_range csize cat cset cmp a b) w.
  Proof. apply s_quick. Qed.
  Lemma s_nth_ f a b n w : cr tt_ Q (x_nth_element_ csize cat cset u f a b n) (nth_element_ csize cat cset cmp f a b n) w.
  Proof.
    revert a b n w. induction f as [|f IH]; intros a b n w; cbn [x_nth_element_ nth_element_]; (cstep Hu; [cstep Hu|]); cbv zeta; (cstep Hu; [apply s_swap_if|]); (apply cr_bind; [apply s_pivot|]); intros ? ? _; cstep Hu; (cstep Hu; [cstep Hu|]); (apply cr_bind; [apply s_partition|]); intros ? ? _.
    - cstep Hu.
    - cstep Hu; [apply IH|]. cstep Hu. apply IH.
  Qed.
  Lemma s_nth a b n w : cr tt_ Q (x_nth_element csize cat cset u a b n) (nth_element csize cat cset cmp a b n) w.
  Proof. unfold x_nth_element, nth_element. cstep Hu; [cstep Hu|]. apply s_nth_. Qed.
  Lemma s_merge_loop f fi si mid end_ pos tmp w : cr tt_ Q (x_merge_loop csize cat u f fi si mid end_ pos tmp) (merge_loop csize cat cmp f fi si mid end_ pos tmp) w.
  Proof. revert fi si pos tmp w. induction f as [|f IH]; intros fi si pos tmp w; cbn [x_merge_loop merge_loop]; repeat cstep Hu; apply IH. Qed.
  Lemma s_merge a m b tmp w : cr tt_ Q (x_merge csize cat cset u a m b tmp) (merge csize cat cset cmp a m b tmp) w.
  Proof. unfold x_merge, merge. apply cr_bind; [apply s_merge_loop|]. intros [[[? ?] ?] ?] ? _. cstep Hu. Qed.
  Lemma s_merge_sort f a b tmp w : cr tt_ Q (x_merge_sort csize cat cset u f a b tmp) (merge_sort csize cat cset cmp f a b tmp) w.
  Proof.
    revert a b tmp w. induction f as [|f IH]; intros a b tmp w; cbn [x_merge_sort merge_sort]; (cstep Hu; [cstep Hu|]); [cstep Hu|]. cbv zeta.
    apply cr_bind; [apply IH|]. intros ? ? _. apply cr_bind; [apply IH|]. intros ? ? _. apply s_merge.
  Qed.
  Lemma s_stable f zero a b w : cr tt_ Q (x_stable csize cat cset u f zero a b) (stable csize cat cset cmp f zero a b) w.
  Proof. unfold x_stable, stable. cbv zeta. cstep Hu; [cstep Hu|]. apply cr_bind; [apply s_merge_sort|]. intros ? ? _. cstep Hu. Qed.
  Lemma s_np_scan f a p c w : cr tt_ Q (x_np_scan cat u f a p c) (np_scan cat cmp f a p c) w.
  Proof. revert p c w. induction f as [|f IH]; intros p c w; cbn [x_np_scan np_scan]; repeat cstep Hu; apply IH. Qed.
  Lemma s_np_find f a p c w : cr tt_ Q (x_np_find cat u f a p c) (np_find cat cmp f a p c) w.
  Proof. revert c w. induction f as [|f IH]; intros c w; cbn [x_np_find np_find]; repeat cstep Hu; apply IH. Qed.
  Lemma s_np a b w : cr tt_ Q (x_next_permutation csize cat cset u a b) (next_permutation csize cat cset cmp a b) w.
  Proof.
    unfold x_next_permutation, next_permutation. cbv zeta. apply cr_bind; [apply s_np_scan|]. intros [? ?] ? _. cbv beta iota. cstep Hu; [cstep Hu|]. apply cr_bind; [apply s_np_find|]. intros ? ? _. cstep Hu.
  Qed.
End sort.
Section heap.
  Context {T C : Type} (u : user_cmp T C) (cmp : T → T → Z) (Hu : agrees_with u cmp).
  Notation Q := (can_panic u).
  Implicit Types l : list T.
  Set Default Proof Using "Hu".
  Lemma s_less i j l : cr tt_ Q (x_less u i j) (h_less cmp i j) l.
  Proof.
    intros c. unfold h_less, x_less, h_at, xbind, xrun, xcmp. cbn [fst snd]. destruct (idx l i) as [x| |]; [|by eexists _, _|done]. cbn [fst snd]. destruct (idx l j) as [y| |]; [|by eexists _, _|done]. cbn [fst snd].
    destruct (u x y c) as [[z|] c'] eqn:E; [left; rewrite (Hu _ _ _ _ _ E); by exists c'|right]. split; [by exists x, y, c, c'|by exists l, c'].
  Qed.
  Lemma s_up f j l : cr tt_ Q (x_up u f j) (up cmp f j) l.
  Proof. revert j l. induction f as [|f IH]; intros j l; cbn [x_up up]; cbv zeta; (cstep Hu; [cstep Hu|]); (apply cr_bind; [apply s_less|]); intros ? ? _; repeat cstep Hu; apply IH. Qed.
  Lemma s_down_loop f i n l : cr tt_ Q (x_down_loop u f i n) (down_loop cmp f i n) l.
  Proof.
    revert i l. induction f as [|f IH]; intros i l; cbn [x_down_loop down_loop]; cbv zeta; (cstep Hu; [cstep Hu|]); (apply cr_bind; [cstep Hu; [apply s_less|cstep Hu]|]); intros ? ? _; (apply cr_bind; [apply s_less|]); intros ? ? _; repeat cstep Hu; apply IH.
  Qed.
  Lemma s_down f i n l : cr tt_ Q (x_down u f i n) (down cmp f i n) l.
  Proof. unfold x_down, down. apply cr_bind; [apply s_down_loop|]. intros ? ? _. cstep Hu. Qed.
  Lemma s_init_loop f c n l : cr tt_ Q (x_init_loop u f c n) (init_loop cmp f c n) l.
  Proof. revert l. induction c as [|c IH]; intros l; cbn [x_init_loop init_loop]; [cstep Hu|]. apply cr_bind; [apply s_down|]. intros ? ? _. apply IH. Qed.
  Lemma s_init l : cr tt_ Q (x_init u) (h_init cmp) l.
  Proof.
    intros c. assert (x_init u (l, c) = x_init_loop u (length l) (length l / 2)%nat (Z.of_nat (length l)) (l, c)) as ->.
    { unfold x_init. rewrite (xb_run h_len _ l c (Z.of_nat (length l)) l eq_refl). by rewrite !Nat2Z.id. }
    exact (s_init_loop (length l) (length l / 2)%nat (Z.of_nat (length l)) l c).
  Qed.
  Lemma s_push x l : cr tt_ Q (x_push u x) (heap_push cmp x) l.
  Proof. unfold x_push, heap_push. do 2 cstep Hu. apply s_up. Qed.
  Lemma s_pop l : cr tt_ Q (x_pop u) (heap_pop cmp) l.
  Proof. unfold x_pop, heap_pop. cstep Hu. cbv zeta. cstep Hu. apply cr_bind; [apply s_down|]. intros ? ? _. cstep Hu. Qed.
  Lemma s_remove i l : cr tt_ Q (x_remove u i) (heap_remove cmp i) l.
  Proof.
    unfold x_remove, heap_remove. cstep Hu. cbv zeta. cstep Hu; [|cstep Hu]. cstep Hu. apply cr_bind; [apply s_down|]. intros ? ? _. apply cr_bind; [cstep Hu; [cstep Hu|apply s_up]|]. intros ? ? _. cstep Hu.
  Qed.
  Lemma s_fix i l : cr tt_ Q (x_fix u i) (heap_fix cmp i) l.
  Proof. unfold x_fix, heap_fix. cstep Hu. apply cr_bind; [apply s_down|]. intros ? ? _. cstep Hu; [cstep Hu|apply s_up]. Qed.
  Lemma s_pq o l : cr tt_ Q (x_pq_step u o) (pq_step cmp o) l.
  Proof. destruct o; cbn [x_pq_step pq_step]; try cstep Hu; apply cr_bind; try apply s_push; try apply s_pop; intros ? ? _; cstep Hu. Qed.
End heap.
