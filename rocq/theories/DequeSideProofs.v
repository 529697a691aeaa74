(** Which segments Insert and EraseAt write (C111). *)
From Verif Require Import Base Wp DequeModel SegmentProofs DequeLists DequeProofs DequeOps DequeOps2 DequeOps3 DequeOps4 DequeSideSpec.
Open Scope nat_scope.

(** partial correctness *)
Definition po {S A} (m : M S A) (Q : A → S → Prop) (s : S) : Prop := ∀ a s', m s = Ok (a, s') → Q a s'.
Section po.
  Context {S : Type}.
  Lemma po_bind {A B} (m : M S A) (f : A → M S B) Q s : po m (λ a s', po (f a) Q s') s → po (mbind_ m f) Q s.
  Proof. unfold po, mbind_. intros H a s'. destruct (m s) as [[b t]| |]; [|done|done]. by apply H. Qed.
  Lemma po_ret {A} (a : A) (Q : A → S → Prop) s : Q a s → po (mret_ a) Q s.
  Proof. unfold po, mret_. intros H b s' [= <- <-]. done. Qed.
  Lemma po_mono {A} (m : M S A) (Q Q' : A → S → Prop) s : po m Q s → (∀ a s', Q a s' → Q' a s') → po m Q' s.
  Proof. unfold po. intros H1 H2 a s' E. by apply H2, H1. Qed.
  Lemma po_eq {A} (m : M S A) (Q : A → S → Prop) s a s' : m s = Ok (a, s') → Q a s' → po m Q s.
  Proof. unfold po. intros E H b t E'. rewrite E in E'. injection E' as <- <-. done. Qed.
  Lemma po_wp {A} (m : M S A) (Q Q' : A → S → Prop) s : wp m Q s → po m Q' s → po m (λ a s', Q a s' ∧ Q' a s') s.
  Proof. intros H1 H2 a s' E. split; [exact (wp_elim _ _ _ _ _ H1 E)|by apply H2]. Qed.
End po.
Ltac po_step H := apply po_bind; eapply po_eq; [exact H|].
Ltac po_go := apply po_bind; eapply po_eq; [reflexivity|].

Section side.
  Context {T : Type} (zero : T).
  Implicit Types (d : deque T) (ls : list (list T)) (ps A : list nat) (s : segment T).
  Notation ring d ps := (ring_ok (dq_segs d) (dq_begin d) (dq_end d) ps).
  Notation store d ps ls := (store_ok (dq_heap d) (dq_pool d) ps ls).
  Definition same d d' : Prop := dq_segs d' = dq_segs d ∧ dq_begin d' = dq_begin d ∧ dq_end d' = dq_end d ∧ dq_size d' = dq_size d.
  Lemma same_refl d : same d d. Proof using. done. Qed.
  Lemma same_trans d1 d2 d3 : same d1 d2 → same d2 d3 → same d1 d3.
  Proof using. unfold same. intros (?&?&?&?) (?&?&?&?). split_and!; congruence. Qed.
  Lemma same_ring d d' ps : same d d' → ring d ps → ring d' ps.
  Proof using. intros (-> & -> & -> & _). done. Qed.
  Lemma ww_refl A d : writes_within A d d. Proof using. done. Qed.
  Lemma ww_heap A d d' : dq_heap d' = dq_heap d → writes_within A d d'. Proof using. by intros E a _; rewrite E. Qed.
  Lemma ww_trans A d1 d2 d3 : writes_within A d1 d2 → writes_within A d2 d3 → writes_within A d1 d3.
  Proof using. intros H1 H2 a Ha. by rewrite (H2 a Ha), (H1 a Ha). Qed.
  Lemma ww_sub A B d d' : (∀ a, a ∈ A → a ∈ B) → writes_within A d d' → writes_within B d d'.
  Proof using. intros H1 H2 a Ha. apply H2. intros H. by apply Ha, H1. Qed.

  Lemma call_po {X} (m : M (segment T) X) p d :
    po (call (Some p) m) (λ r d', same d d' ∧ dq_pool d' = dq_pool d ∧ writes_within [p] d d' ∧ ∃ s s', dq_heap d !! p = Some s ∧ m s = Ok (r, s') ∧ dq_heap d' !! p = Some s') d.
  Proof using.
    intros r d' E. unfold call in E. destruct (dq_heap d !! p) as [s|] eqn:Es; [|done]. destruct (m s) as [[r' s']| |] eqn:Em; [|done|done]. injection E as <- <-.
    split_and!; try done.
    - intros a Ha. cbn [dq_heap]. rewrite list_lookup_insert_ne; [done|]. set_solver.
    - exists s, s'. split_and!; try done. cbn [dq_heap]. apply list_lookup_insert. by eapply lookup_lt_Some.
  Qed.
  Lemma ask_po {X} (f : segment T → X) p d : po (ask p f) (λ _ d', d' = d) d.
  Proof using. intros r d' E. unfold ask in E. destruct p as [p|]; [|done]. destruct (dq_heap d !! p); [|done]. by injection E as _ <-. Qed.
  Lemma segment_at_po i d : po (segment_at i) (λ _ d', d' = d) d.
  Proof using.
    intros r d' E. unfold segment_at, mbind_, dget, d_len, gomod, mret_, mpanic, seg_get, mbind_ in E. cbn in E. destruct (_ =? 0)%Z in E; [done|]. destruct (idx _ _); [|done|done]. by injection E as _ <-.
  Qed.

  (** the loops write the segments they walk over *)
  Lemma pull_front_po d ps i p q : ring d ps → ps !! i = Some p → ps !! S i = Some q →
    po (pull_front (Z.of_nat i)) (λ _ d', same d d' ∧ writes_within [p; q] d d') d.
  Proof using.
    intros Hr Hp Hq. unfold pull_front. po_step (segment_at_ok d ps i p Hr Hp). replace (Z.of_nat i + 1)%Z with (Z.of_nat (S i)) by lia.
    po_step (segment_at_ok d ps (S i) q Hr Hq). apply po_bind. eapply po_mono; [apply call_po|]. cbv beta. intros x d1 (S1 & _ & W1 & _).
    eapply po_mono; [apply call_po|]. cbv beta. intros _ d2 (S2 & _ & W2 & _). split; [by eapply same_trans|].
    eapply ww_trans; [eapply ww_sub; [|exact W1]|eapply ww_sub; [|exact W2]]; set_solver.
  Qed.
  Lemma pull_front_writes n : ∀ d ps i, ring d ps → i + n < length ps →
    po (for_up n (Z.of_nat i) pull_front) (λ _ d', same d d' ∧ writes_within (take (S (i + n)) ps) d d') d.
  Proof using.
    induction n as [|n IH]; intros d ps i Hr Hn; cbn [for_up]; [apply po_ret; split; [done|apply ww_refl]|].
    destruct (lookup_lt_is_Some_2 ps i) as [p Hp]; [lia|]. destruct (lookup_lt_is_Some_2 ps (S i)) as [q Hq]; [lia|].
    apply po_bind. eapply po_mono; [by eapply pull_front_po|]. cbv beta. intros _ d1 [S1 W1]. replace (Z.of_nat i + 1)%Z with (Z.of_nat (S i)) by lia.
    eapply po_mono; [apply (IH d1 ps (S i)); [by eapply same_ring|lia]|]. cbv beta. intros _ d2 [S2 W2]. split; [by eapply same_trans|].
    replace (S (i + S n)) with (S (S i + n)) by lia. eapply ww_trans; [|exact W2]. eapply ww_sub; [|exact W1].
    intros a Ha. apply elem_of_list_In in Ha. destruct Ha as [<-|[<-|[]]]; [apply (elem_of_list_lookup_2 _ i)|apply (elem_of_list_lookup_2 _ (S i))]; rewrite lookup_take by lia; done.
  Qed.
  Lemma pull_back_po d ps i p q : ring d ps → ps !! i = Some p → ps !! S i = Some q →
    po (pull_back (Z.of_nat (S i))) (λ _ d', same d d' ∧ writes_within [p; q] d d' ∧
      ∃ d1 x, (call (Some p) s_pop_back d = Ok (x, d1)) ∧ call (Some q) (s_push_front x) d1 = Ok (tt, d')) d.
  Proof using.
    intros Hr Hp Hq. unfold pull_back. po_step (segment_at_ok d ps (S i) q Hr Hq). replace (Z.of_nat (S i) - 1)%Z with (Z.of_nat i) by lia.
    po_step (segment_at_ok d ps i p Hr Hp). apply po_bind. intros x d1 E1. pose proof (call_po _ _ _ _ _ E1) as (S1 & _ & W1 & _).
    intros [] d2 E2. pose proof (call_po _ _ _ _ _ E2) as (S2 & _ & W2 & _). split_and!; [by eapply same_trans| |by exists d1, x].
    eapply ww_trans; [eapply ww_sub; [|exact W1]|eapply ww_sub; [|exact W2]]; set_solver.
  Qed.
  (** from segment [i] down to [i - n] *)
  Lemma pull_back_writes n : ∀ d ps i, ring d ps → n <= i → i < length ps →
    po (for_down n (Z.of_nat i) pull_back) (λ _ d', same d d' ∧ writes_within (drop (i - n) ps) d d' ∧ writes_within (take (S i) ps) d d') d.
  Proof using.
    induction n as [|n IH]; intros d ps i Hr Hn Hi; cbn [for_down]; [apply po_ret; split_and!; [done|apply ww_refl|apply ww_refl]|].
    destruct i as [|i]; [lia|]. destruct (lookup_lt_is_Some_2 ps i) as [p Hp]; [lia|]. destruct (lookup_lt_is_Some_2 ps (S i)) as [q Hq]; [lia|].
    apply po_bind. eapply po_mono; [by eapply pull_back_po|]. cbv beta. intros _ d1 (S1 & W1 & _). replace (Z.of_nat (S i) - 1)%Z with (Z.of_nat i) by lia.
    eapply po_mono; [apply (IH d1 ps i); [by eapply same_ring|lia|lia]|]. cbv beta. intros _ d2 (S2 & W2 & W3). split_and!; [by eapply same_trans| |].
    - replace (S i - S n) with (i - n) by lia. eapply ww_trans; [|exact W2]. eapply ww_sub; [|exact W1].
      intros a Ha. apply elem_of_list_In in Ha. destruct Ha as [<-|[<-|[]]]; [apply (elem_of_list_lookup_2 _ n)|apply (elem_of_list_lookup_2 _ (S n))]; rewrite lookup_drop; [replace (i - n + n) with i by lia|replace (i - n + S n) with (S i) by lia]; done.
    - eapply ww_trans; [eapply ww_sub; [|exact W1]|eapply ww_sub; [|exact W3]].
      + intros a Ha. apply elem_of_list_In in Ha. destruct Ha as [<-|[<-|[]]]; [apply (elem_of_list_lookup_2 _ i)|apply (elem_of_list_lookup_2 _ (S i))]; rewrite lookup_take by lia; done.
      + intros a (j & Hj)%elem_of_list_lookup. apply lookup_lt_Some in Hj as Hl. rewrite take_length in Hl. rewrite lookup_take in Hj by lia. apply (elem_of_list_lookup_2 _ j). by rewrite lookup_take by lia.
  Qed.

  (** making room *)
  Lemma copy_po n : ∀ i m fresh d, po (copy_segs n i m fresh) (λ _ d', d' = d) d.
  Proof using.
    induction n as [|n IH]; intros i m fresh d; cbn [copy_segs]; [by apply po_ret|]. po_go. apply po_bind. intros k d1 E1. assert (d1 = d) as ->. { unfold gomod, mpanic, mret_ in E1. destruct (_ =? 0)%Z; [done|]. by injection E1 as _ <-. }
    apply po_bind. intros p d2 E2. assert (d2 = d) as ->. { unfold seg_get in E2. destruct (idx _ _); [|done|done]. by injection E2 as _ <-. }
    destruct (upd fresh i p); [apply IH|done|done].
  Qed.
  Lemma expand_if_full_heap d : po expand_if_full (λ _ d', dq_heap d' = dq_heap d) d.
  Proof using.
    unfold expand_if_full. po_go. po_go. destruct (_ <=? _)%Z; [|by apply po_ret]. unfold expand. po_go.
    apply po_bind. eapply po_mono; [apply copy_po|]. cbv beta. intros fresh d' ->. po_go. po_go. eapply po_eq; [reflexivity|]. done.
  Qed.
  Lemma shrink_heap d : po shrink_if_needed (λ _ d', dq_heap d' = dq_heap d) d.
  Proof using.
    unfold shrink_if_needed. po_go. po_go. destruct (_ <? _)%Z; [|by apply po_ret].
    apply po_bind. eapply po_mono; [apply copy_po|]. cbv beta. intros fresh d' ->. po_go. po_go. eapply po_eq; [reflexivity|]. done.
  Qed.
  Lemma pool_get_po d : po (pool_get zero) (λ r d', ∃ p, r = Some p ∧ writes_within [p] d d') d.
  Proof using.
    unfold pool_get. po_go. destruct (last (dq_pool d)) as [a|].
    - po_go. apply po_ret. exists a. split; [done|]. by apply ww_heap.
    - po_go. apply po_ret. eexists. split; [done|]. intros a Ha. cbn [dq_heap]. assert (a ≠ length (dq_heap d)) as Hn by set_solver.
      destruct (decide (a < length (dq_heap d))); [by rewrite lookup_app_l|]. rewrite !lookup_ge_None_2; [done|lia|rewrite app_length; cbn; lia].
  Qed.
  Lemma seg_put_heap i p d : po (seg_put i p) (λ _ d', dq_heap d' = dq_heap d) d.
  Proof using. intros r d' E. unfold seg_put in E. destruct (upd _ _ _); [|done|done]. injection E as <- <-. done. Qed.
  Lemma d_pre_po i d : po (d_pre i) (λ _ d', d' = d) d.
  Proof using. intros r d' E. unfold d_pre, d_len, mbind_, dget, mret_, gomod, mpanic in E. destruct (_ =? 0)%Z; [done|]. by injection E as _ <-. Qed.
  Lemma d_next_po i d : po (d_next i) (λ _ d', d' = d) d.
  Proof using. intros r d' E. unfold d_next, d_len, mbind_, dget, mret_, gomod, mpanic in E. destruct (_ =? 0)%Z; [done|]. by injection E as _ <-. Qed.
  Lemma grow_front_po d : po (grow_front zero) (λ r d', ∃ p, r = Some p ∧ writes_within [p] d d') d.
  Proof using.
    unfold grow_front. po_go. apply po_bind. eapply po_mono; [apply d_pre_po|]. cbv beta. intros b d' ->. po_go. apply po_bind. eapply po_mono; [apply pool_get_po|]. cbv beta.
    intros r d1 (p & -> & W1). apply po_bind. eapply po_mono; [apply seg_put_heap|]. cbv beta. intros _ d2 E2. apply po_ret. exists p. split; [done|].
    intros a Ha. rewrite E2. by rewrite (W1 a Ha).
  Qed.
  Lemma grow_back_po d : po (grow_back zero) (λ r d', ∃ p, r = Some p ∧ writes_within [p] d d') d.
  Proof using.
    unfold grow_back. apply po_bind. eapply po_mono; [apply pool_get_po|]. cbv beta. intros r d1 (p & -> & W1). po_go.
    apply po_bind. eapply po_mono; [apply seg_put_heap|]. cbv beta. intros _ d2 E2. apply po_bind. eapply po_mono; [apply d_next_po|]. cbv beta. intros e d' ->. po_go. apply po_ret. exists p. split; [done|].
    intros a Ha. cbn [dq_heap]. rewrite E2. by rewrite (W1 a Ha).
  Qed.

  (** the ends *)
  Lemma first_segment_po d : po first_segment (λ _ d', d' = d) d.
  Proof using. intros r d' E. unfold first_segment, d_len, mbind_, dget, mret_, seg_get in E. destruct (_ =? 0)%Z; [by injection E as _ <-|]. destruct (idx _ _); [|done|done]. by injection E as _ <-. Qed.
  Lemma last_segment_po d : po last_segment (λ _ d', d' = d) d.
  Proof using.
    intros r d' E. unfold last_segment, d_len, mbind_, dget, mret_ in E. destruct (_ =? 0)%Z; [by injection E as _ <-|]. destruct (d_pre _ d) as [[k d1]| |] eqn:E1; [|done|done]. pose proof (d_pre_po _ _ _ _ E1) as ->.
    unfold seg_get in E. destruct (idx _ _); [|done|done]. by injection E as _ <-.
  Qed.
  Definition one_of (r : option nat) : list nat := match r with Some p => [p] | None => [] end.
  Lemma first_available_po d : po (first_available zero) (λ r d', writes_within (one_of r) d d') d.
  Proof using.
    unfold first_available. apply po_bind. eapply po_mono; [apply first_segment_po|]. cbv beta. intros f d' ->.
    apply po_bind. apply (po_mono _ (λ _ d', d' = d)). { destruct f; [|by apply po_ret]. apply po_bind. eapply po_mono; [apply ask_po|]. cbv beta. intros b d' ->. by apply po_ret. }
    cbv beta. intros ok d' ->. destruct ok. { eapply po_mono; [apply first_segment_po|]. cbv beta. intros r d' ->. apply ww_refl. }
    apply po_bind. eapply po_mono; [apply expand_if_full_heap|]. cbv beta. intros _ d1 E1. apply po_bind. eapply po_mono; [apply first_segment_po|]. cbv beta. intros f1 d' ->.
    apply po_bind. apply (po_mono _ (λ _ d', d' = d1)). { destruct f1; [|by apply po_ret]. apply ask_po. }
    cbv beta. intros need d' ->. destruct need.
    - eapply po_mono; [apply grow_front_po|]. cbv beta. intros r d2 (p & -> & W). eapply ww_trans; [by apply ww_heap|exact W].
    - eapply po_mono; [apply first_segment_po|]. cbv beta. intros r d' ->. by apply ww_heap.
  Qed.
  Lemma last_available_po d : po (last_available zero) (λ r d', writes_within (one_of r) d d') d.
  Proof using.
    unfold last_available. apply po_bind. eapply po_mono; [apply last_segment_po|]. cbv beta. intros f d' ->.
    apply po_bind. apply (po_mono _ (λ _ d', d' = d)). { destruct f; [|by apply po_ret]. apply po_bind. eapply po_mono; [apply ask_po|]. cbv beta. intros b d' ->. by apply po_ret. }
    cbv beta. intros ok d' ->. destruct ok. { eapply po_mono; [apply last_segment_po|]. cbv beta. intros r d' ->. apply ww_refl. }
    apply po_bind. eapply po_mono; [apply expand_if_full_heap|]. cbv beta. intros _ d1 E1. apply po_bind. eapply po_mono; [apply last_segment_po|]. cbv beta. intros f1 d' ->.
    apply po_bind. apply (po_mono _ (λ _ d', d' = d1)). { destruct f1; [|by apply po_ret]. apply ask_po. }
    cbv beta. intros need d' ->. destruct need.
    - eapply po_mono; [apply grow_back_po|]. cbv beta. intros r d2 (p & -> & W). eapply ww_trans; [by apply ww_heap|exact W].
    - eapply po_mono; [apply last_segment_po|]. cbv beta. intros r d' ->. by apply ww_heap.
  Qed.
  Lemma push_tail p (m : M (segment T) unit) d : po (call p m ;; size_add 1 ;; expand_if_full)%go (λ _ d', writes_within (one_of p) d d') d.
  Proof using.
    apply po_bind. destruct p as [p|]; [|done]. eapply po_mono; [apply call_po|]. cbv beta. intros _ d1 (_ & _ & W & _). po_go. eapply po_mono; [apply expand_if_full_heap|]. cbv beta. intros _ d2 E2.
    eapply ww_trans; [exact W|]. by apply ww_heap.
  Qed.
  Lemma push_front_writes x d : po (dq_push_front zero x) (λ _ d', writes_at_most 1 d d') d.
  Proof using.
    unfold dq_push_front. apply po_bind. eapply po_mono; [apply first_available_po|]. cbv beta. intros r d1 W1. eapply po_mono; [apply push_tail|]. cbv beta. intros _ d2 W2.
    exists (one_of r). split; [destruct r; cbn; lia|]. by eapply ww_trans.
  Qed.
  Lemma push_back_writes x d : po (dq_push_back zero x) (λ _ d', writes_at_most 1 d d') d.
  Proof using.
    unfold dq_push_back. apply po_bind. eapply po_mono; [apply last_available_po|]. cbv beta. intros r d1 W1. eapply po_mono; [apply push_tail|]. cbv beta. intros _ d2 W2.
    exists (one_of r). split; [destruct r; cbn; lia|]. by eapply ww_trans.
  Qed.

  (** the segment of a position *)
  Lemma seg_bounds ls i p a k : shape ls → ls !! i = Some a → p < length a → k = off ls i + p → length a <= C →
    i <= k / 128 + 1 ∧ k / 128 <= i ∧ length ls - i <= (length (concat ls) - k) / 128 + 2.
  Proof using.
    intros Hsh Ha Hp Hk Hac. pose proof (lookup_lt_Some _ _ _ Ha) as Hi. pose proof (off_S _ _ _ Ha) as HS. assert (C = 128) as HC by done.
    pose proof Hsh as [Hs1 Hs2]. pose proof (Hs1 0 ltac:(lia)) as H0. rewrite off_0 in H0.
    assert (i = 0 ∨ 1 <= i) as [->|H1] by lia.
    - rewrite off_0 in *. split_and!; [lia| |].
      + apply Nat.lt_succ_r, Nat.div_lt_upper_bound; lia.
      + destruct (decide (length ls <= 2)); [lia|]. pose proof (off_interior ls (length ls - 1) Hsh ltac:(lia) ltac:(lia)) as Ho. pose proof (Hs1 (length ls - 1) ltac:(lia)) as Hl. replace (S (length ls - 1)) with (length ls) in Hl by lia.
        rewrite (off_all ls (length ls)) in Hl by lia. assert (length ls - 2 <= (length (concat ls) - k) / 128); [|lia]. apply Nat.div_le_lower_bound; [lia|]. rewrite HC in *. replace (length ls - 1 - 1) with (length ls - 2) in Ho by lia. lia.
    - pose proof (off_interior ls i Hsh H1 Hi) as Ho. rewrite HC in *. split_and!.
      + assert (i - 1 <= k / 128); [|lia]. apply Nat.div_le_lower_bound; lia.
      + apply Nat.lt_succ_r, Nat.div_lt_upper_bound; lia.
      + destruct (decide (length ls <= i + 2)); [lia|]. pose proof (off_interior ls (length ls - 1) Hsh ltac:(lia) ltac:(lia)) as Ho2. pose proof (Hs1 (length ls - 1) ltac:(lia)) as Hl. replace (S (length ls - 1)) with (length ls) in Hl by lia.
        rewrite (off_all ls (length ls)) in Hl by lia. assert (length ls - i - 2 <= (length (concat ls) - k) / 128); [|lia]. apply Nat.div_le_lower_bound; [lia|]. rewrite HC in *. lia.
  Qed.

  (** inserting in the middle *)
  Lemma call_at_writes ps d i p (m : M (segment T) unit) : ring d ps → ps !! i = Some p →
    po (let! t := segment_at (Z.of_nat i) in call t m)%go (λ _ d', same d d' ∧ writes_within [p] d d') d.
  Proof using. intros Hr Hp. po_step (segment_at_ok d ps i p Hr Hp). eapply po_mono; [apply call_po|]. cbv beta. intros _ d' (H1 & _ & H2 & _). done. Qed.
  Lemma front_tail ps d i q x : ring d ps → i < length ps →
    po (for_up (Z.to_nat (Z.of_nat i)) 0 pull_front ;; let! t := segment_at (Z.of_nat i) in call t (s_insert q x))%go (λ _ d', writes_within (take (S i) ps) d d') d.
  Proof using.
    intros Hr Hi. rewrite Nat2Z.id. apply po_bind. eapply po_mono; [apply (pull_front_writes i d ps 0 Hr); lia|]. cbv beta. intros _ d1 [S1 W1]. destruct (lookup_lt_is_Some_2 ps i Hi) as [p Hp].
    eapply po_mono; [eapply (call_at_writes ps d1 i p); [by eapply same_ring|done]|]. cbv beta. intros _ d2 [_ W2]. eapply ww_trans; [exact W1|]. eapply ww_sub; [|exact W2].
    intros a Ha. apply elem_of_list_singleton in Ha as ->. apply (elem_of_list_lookup_2 _ i). by rewrite lookup_take by lia.
  Qed.
  Lemma back_tail ps d i q x : ring d ps → dq_size d ≠ 0%Z → i < length ps →
    po (let! u := seg_used in for_down (Z.to_nat (u - 1 - Z.of_nat i)) (u - 1) pull_back ;; let! t := segment_at (Z.of_nat i) in call t (s_insert q x))%go (λ _ d', writes_within (drop i ps) d d') d.
  Proof using.
    intros Hr Hz Hi. assert (ps ≠ []) as Hps by (destruct ps; [cbn in Hi; lia|done]). po_step (seg_used_ok d ps Hr Hz Hps).
    replace (Z.of_nat (length ps) - 1 - Z.of_nat i)%Z with (Z.of_nat (length ps - 1 - i)) by lia. replace (Z.of_nat (length ps) - 1)%Z with (Z.of_nat (length ps - 1)) by lia. rewrite Nat2Z.id.
    apply po_bind. eapply po_mono; [apply (pull_back_writes (length ps - 1 - i) d ps (length ps - 1) Hr); lia|]. cbv beta. intros _ d1 (S1 & W1 & _). destruct (lookup_lt_is_Some_2 ps i Hi) as [p Hp].
    eapply po_mono; [eapply (call_at_writes ps d1 i p); [by eapply same_ring|done]|]. cbv beta. intros _ d2 [_ W2]. replace (length ps - 1 - (length ps - 1 - i)) with i in W1 by lia. eapply ww_trans; [exact W1|]. eapply ww_sub; [|exact W2].
    intros a Ha. apply elem_of_list_singleton in Ha as ->. apply (elem_of_list_lookup_2 _ 0). rewrite lookup_drop. by rewrite Nat.add_0_r.
  Qed.
  Lemma insert_writes d l k x : dinv d l → k <= length l →
    po (dq_insert zero (Z.of_nat k) x) (λ _ d', writes_at_most (k `min` (length l - k) / 128 + 3) d d') d.
  Proof using.
    intros (ps & ls & Hinv) Hk. pose proof (dinv_pos _ _ _ _ Hinv) as Hpos. destruct Hinv as [Hr Hs Hsh Hc Hsz Hg Hroom Hpl].
    pose proof (store_ok_len _ _ _ _ Hs) as Hlen.
    assert (∀ d', writes_at_most 1 d d' → writes_at_most (k `min` (length l - k) / 128 + 3) d d') as H1. { intros d' (A & HA & HW). exists A. split; [lia|done]. }
    unfold dq_insert. po_go. rewrite Hsz. destruct (Z.ltb_spec (Z.of_nat k) 0), (Z.ltb_spec (Z.of_nat (length l)) (Z.of_nat k)); cbn [orb]; try lia.
    destruct (Z.eqb_spec (Z.of_nat k) 0) as [|Hk0]; [eapply po_mono; [apply push_front_writes|]; auto|].
    destruct (Z.eqb_spec (Z.of_nat k) (Z.of_nat (length l))) as [|Hn]; [eapply po_mono; [apply push_back_writes|]; auto|]. clear H1.
    assert (ps ≠ []) as Hps. { intros ->. destruct ls; [|done]. cbn in Hc. subst l. cbn in Hk. lia. }
    destruct (Hpos Hps) as (Hz & Hlt & Hls). clear Hpos.
    destruct (d_pos_ok d ps ls k Hr Hs Hsh ltac:(rewrite Hc; lia)) as (i & p & a & Ed & Ha & Hp & Hki). po_step Ed. cbn [fst snd].
    po_step (seg_used_ok d ps Hr Hz Hps). pose proof (lookup_lt_Some _ _ _ Ha) as Hi. pose proof (store_ok_room _ _ _ _ _ _ Hs Ha) as Hac.
    destruct (seg_bounds ls i p a k Hsh Ha Hp Hki Hac) as (B1 & _ & B2). rewrite Hc in B2. rewrite <-Hlen in *.
    assert ((k `min` (length l - k)) / 128 = (k / 128) `min` ((length l - k) / 128)) as Hmin.
    { clear. destruct (Nat.le_ge_cases k (length l - k)) as [Hle|Hle]; pose proof (Nat.div_le_mono _ _ 128 ltac:(lia) Hle) as Hd; [rewrite (Nat.min_l k _ Hle), (Nat.min_l _ _ Hd)|rewrite (Nat.min_r k _ Hle), (Nat.min_r _ _ Hd)]; done. }
    rewrite Hmin. clear Hmin. set (b1 := k / 128) in *. set (b2 := (length l - k) / 128) in *. clearbody b1 b2.
    destruct (Z.ltb_spec (Z.of_nat i) (Z.of_nat (length ps) - Z.of_nat i)) as [Hb|Hb].
    - apply po_bind. apply (po_mono _ (λ _ d', writes_at_most (i + 2) d d')).
      2: { cbv beta. intros _ d1 (A & HA & W). po_go. eapply po_mono; [apply expand_if_full_heap|]. cbv beta. intros _ d2 E2. exists A. split; [lia|]. eapply ww_trans; [exact W|]. by apply ww_heap. }
      unfold move_front_insert. po_step (first_segment_ok d ps Hr). apply po_bind. eapply po_mono; [apply ask_po|]. cbv beta. intros full d' ->. destruct full.
      + apply po_bind. apply po_bind. eapply po_eq; [apply (expand_if_room d ps Hr Hz Hps Hlt)|]. apply po_bind.
        eapply po_mono; [apply (po_wp _ _ _ _ (grow_front_ok zero d ps ls Hr Hs Hlt) (grow_front_po d))|]. cbv beta. intros r d1 ((q & -> & Hr1 & _) & (q' & [= <-] & W1)).
        apply po_ret.
        assert (∀ j e, j <= S i → po (for_up (Z.to_nat (Z.of_nat j)) 0 pull_front ;; let! t := segment_at (Z.of_nat j) in call t (s_insert e x))%go (λ _ d', writes_at_most (i + 2) d d') d1) as Hgo.
        { intros j e Hj. eapply po_mono; [apply (front_tail (q :: ps) d1 j e x Hr1); cbn [length]; lia|]. cbv beta. intros _ d2 W2. exists (take (S j) (q :: ps)). split; [rewrite take_length; cbn [length]; lia|].
          eapply ww_trans; [|exact W2]. eapply ww_sub; [|exact W1]. intros b Hbq. cbn [take]. set_solver. }
        destruct (Z.of_nat p =? 0)%Z; cbn [fst snd]; [apply Hgo; lia|]. replace (Z.of_nat i + 1)%Z with (Z.of_nat (S i)) by lia. apply Hgo. lia.
      + apply po_bind, po_ret.
        assert (∀ j e, j <= i → po (for_up (Z.to_nat (Z.of_nat j)) 0 pull_front ;; let! t := segment_at (Z.of_nat j) in call t (s_insert e x))%go (λ _ d', writes_at_most (i + 2) d d') d) as Hgo.
        { intros j e Hj. eapply po_mono; [apply (front_tail ps d j e x Hr); lia|]. cbv beta. intros _ d2 W2. exists (take (S j) ps). split; [rewrite take_length; lia|done]. }
        destruct (Z.eqb_spec (Z.of_nat p) 0) as [Hp0|Hp0]; cbn [fst snd].
        * assert (i ≠ 0). { intros ->. rewrite off_0 in Hki. lia. } replace (Z.of_nat i - 1)%Z with (Z.of_nat (i - 1)) by lia. apply Hgo. lia.
        * destruct (negb _); cbn [fst snd]; apply Hgo; lia.
    - apply po_bind. apply (po_mono _ (λ _ d', writes_at_most (length ps - i + 1) d d')).
      2: { cbv beta. intros _ d1 (A & HA & W). po_go. eapply po_mono; [apply expand_if_full_heap|]. cbv beta. intros _ d2 E2. exists A. split; [lia|]. eapply ww_trans; [exact W|]. by apply ww_heap. }
      unfold move_back_insert. po_step (last_segment_ok d ps Hr). apply po_bind. eapply po_mono; [apply ask_po|]. cbv beta. intros full d' ->. destruct full.
      + apply po_bind. apply po_bind. eapply po_eq; [apply (expand_if_room d ps Hr Hz Hps Hlt)|]. apply po_bind.
        eapply po_mono; [apply (po_wp _ _ _ _ (grow_back_ok zero d ps ls Hr Hs Hlt) (grow_back_po d))|]. cbv beta. intros r d1 ((q & -> & Hr1 & _ & _ & _ & Hz1) & (q' & [= <-] & W1)).
        apply po_ret. eapply po_mono; [apply (back_tail (ps ++ [q]) d1 i _ x Hr1); [congruence|rewrite app_length; cbn; lia]|]. cbv beta. intros _ d2 W2.
        exists (drop i (ps ++ [q])). split; [rewrite drop_length, app_length; cbn; lia|]. eapply ww_trans; [|exact W2]. eapply ww_sub; [|exact W1]. intros b Hbq. rewrite drop_app_le by lia. set_solver.
      + apply po_bind, po_ret. eapply po_mono; [apply (back_tail ps d i _ x Hr Hz); lia|]. cbv beta. intros _ d2 W2. exists (drop i ps). split; [rewrite drop_length; lia|done].
  Qed.

  (** erasing *)
  Lemma put_to_pool_po p d : po (put_to_pool (Some p)) (λ _ d', writes_within [p] d d' ∧ ∃ t, dq_heap d' !! p = Some t ∧ sg_size t = 0%Z) d.
  Proof using.
    unfold put_to_pool. apply po_bind. eapply po_mono; [apply call_po|]. cbv beta. intros u d1 (_ & _ & W & t & t' & _ & Et & Ht). po_go. po_go. po_go.
    apply (po_mono _ (λ _ d', dq_heap d' = dq_heap d1)).
    - destruct (_ <? _)%Z; [|by apply po_ret]. unfold pool_shrink. po_go. destruct (_ <? _)%Z; [|by apply po_ret]. by eapply po_eq.
    - cbv beta. intros _ d2 E2. split; [eapply ww_trans; [exact W|by apply ww_heap]|]. exists t'. rewrite E2. split; [done|]. unfold s_clear, mbind_, set_begin, set_end, set_size in Et. injection Et as _ Et. by rewrite <-Et.
  Qed.
  (** [sg_end] of the segments a walk to the front pops from *)
  Definition endat d (a : nat) : option Z := sg_end <$> dq_heap d !! a.
  Definition fine d (a : nat) : Prop := ∀ t, dq_heap d !! a = Some t → length (sg_data t) = 128 ∧ (0 <= sg_end t < 128)%Z.
  Lemma pop_back_end (t : segment T) x t' : s_pop_back t = Ok (x, t') → length (sg_data t) = 128 → (0 <= sg_end t < 128)%Z → sg_end t' ≠ sg_end t.
  Proof using.
    intros E Hd He. unfold s_pop_back, s_pre, s_capacity, gomod, mbind_, sget, mret_, set_end, set_size, s_read, mpanic in E. rewrite Hd in E. cbn [sg_data sg_end sg_begin sg_size] in E.
    change (Z.of_nat 128 =? 0)%Z with false in E. cbv iota beta in E. cbn [sg_data sg_end sg_begin sg_size] in E. destruct (idx _ _) in E; [|done|done]. injection E as _ <-. cbn [sg_end].
    rewrite Z.rem_mod_nonneg by lia. change (Z.of_nat 128) with 128%Z. destruct (decide (sg_end t = 0%Z)) as [->|]; [by vm_compute|].
    replace (sg_end t - 1 + 128)%Z with (sg_end t - 1 + 1 * 128)%Z by lia. rewrite Z.mod_add by lia. rewrite Z.mod_small by lia. lia.
  Qed.
  Lemma push_front_end x (t t' : segment T) : s_push_front x t = Ok (tt, t') → sg_end t' = sg_end t.
  Proof using.
    intros E. unfold s_push_front, s_pre, s_capacity, gomod, mbind_, sget, mret_, set_begin, set_size, s_write, mpanic in E. destruct (_ =? 0)%Z in E; [done|]. cbv iota beta in E. cbn [sg_data sg_end sg_begin sg_size] in E.
    destruct (upd _ _ _) in E; [|done|done]. by injection E as <-.
  Qed.
  Lemma pull_back_ends n : ∀ d ps, ring d ps → NoDup ps → n < length ps → (∀ j p, j < n → ps !! j = Some p → fine d p) →
    po (for_down n (Z.of_nat n) pull_back) (λ _ d', (∀ j p, j < n → ps !! j = Some p → endat d' p ≠ endat d p) ∧ (∀ a, a ∉ take n ps → endat d' a = endat d a)) d.
  Proof using.
    induction n as [|n IH]; intros d ps Hr Hnd Hn Hf; cbn [for_down]; [apply po_ret; split; [lia|done]|].
    destruct (lookup_lt_is_Some_2 ps n) as [p Hp]; [lia|]. destruct (lookup_lt_is_Some_2 ps (S n)) as [q Hq]; [lia|].
    assert (p ≠ q) as Hpq. { intros ->. pose proof (NoDup_lookup ps n (S n) q Hnd Hp Hq). lia. }
    apply po_bind. eapply po_mono; [by eapply (pull_back_po d ps n p q)|]. cbv beta. intros _ d2 (S2 & W & d1 & x & E1 & E2). replace (Z.of_nat (S n) - 1)%Z with (Z.of_nat n) by lia.
    destruct (call_po _ _ _ _ _ E1) as (_ & _ & W1 & t & t1 & Ht & Et & Ht1). destruct (call_po _ _ _ _ _ E2) as (_ & _ & W2 & u & u1 & Hu & Eu & Hu1).
    destruct (Hf n p ltac:(lia) Hp t Ht) as [F1 F2]. pose proof (pop_back_end _ _ _ Et F1 F2) as Hne. pose proof (push_front_end _ _ _ Eu) as Heq.
    assert (endat d2 p ≠ endat d p) as Hp2. { unfold endat. rewrite (W2 p) by set_solver. rewrite Ht1, Ht. cbn. congruence. }
    assert (∀ a, a ≠ p → endat d2 a = endat d a) as Ho.
    { intros a Ha. unfold endat. destruct (decide (a = q)) as [->|Haq].
      - rewrite Hu1. cbn. rewrite Heq. rewrite <-(W1 q) by set_solver. by rewrite Hu.
      - by rewrite (W2 a), (W1 a) by set_solver. }
    assert (∀ j r, j < n → ps !! j = Some r → r ≠ p ∧ r ≠ q) as Hoth.
    { intros j r Hj Hjr. split; intros ->; [pose proof (NoDup_lookup ps j n p Hnd Hjr Hp)|pose proof (NoDup_lookup ps j (S n) q Hnd Hjr Hq)]; lia. }
    eapply po_mono; [apply (IH d2 ps); [by eapply same_ring|done|lia|]|].
    - intros j r Hj Hjr t' Ht'. destruct (Hoth j r Hj Hjr). rewrite (W r) in Ht' by set_solver. by apply (Hf j r ltac:(lia) Hjr).
    - cbv beta. intros _ d3 [H1 H2]. split.
      + intros j r Hj Hjr. destruct (decide (j = n)) as [->|].
        * assert (r = p) as -> by congruence. rewrite (H2 p); [done|]. intros (j & Hj')%elem_of_list_lookup. apply lookup_lt_Some in Hj' as Hl. rewrite take_length in Hl. rewrite lookup_take in Hj' by lia. destruct (Hoth j p ltac:(lia) Hj') as [? _]. done.
        * destruct (Hoth j r ltac:(lia) Hjr) as [? _]. rewrite <-(Ho r) by done. apply (H1 j r); [lia|done].
      + intros a Ha. rewrite (take_S_r ps n p Hp) in Ha. rewrite H2 by set_solver. apply Ho. set_solver.
  Qed.
  Lemma take_in ps n j p : j < n → ps !! j = Some p → p ∈ take n ps.
  Proof using. intros Hj Hp. apply (elem_of_list_lookup_2 _ j). by rewrite lookup_take by lia. Qed.
  Lemma erase_at_writes d l k : dinv d l → k < length l →
    po (dq_erase_at (Z.of_nat k)) (λ _ d', writes_at_most (k / 128 + 2) d d' ∧ writes_at_least (k / 128) d d') d.
  Proof using.
    intros (ps & ls & Hinv) Hk. pose proof (dinv_pos _ _ _ _ Hinv) as Hpos. destruct Hinv as [Hr Hs Hsh Hc Hsz Hg Hroom Hpl].
    pose proof (store_ok_len _ _ _ _ Hs) as Hlen.
    assert (ps ≠ []) as Hps. { intros ->. destruct ls; [|done]. cbn in Hc. subst l. cbn in Hk. lia. }
    destruct (Hpos Hps) as (Hz & Hlt & Hls). clear Hpos. unfold dq_erase_at. po_go. rewrite Hsz.
    destruct (Z.ltb_spec (Z.of_nat k) 0), (Z.leb_spec (Z.of_nat (length l)) (Z.of_nat k)); cbn [orb]; try lia.
    destruct (d_pos_ok d ps ls k Hr Hs Hsh ltac:(by rewrite Hc)) as (i & p & a & Ed & Ha & Hp & Hki). po_step Ed. cbn [fst snd].
    pose proof (lookup_lt_Some _ _ _ Ha) as Hi. destruct (lookup_lt_is_Some_2 ps i) as [q Hq]; [lia|]. pose proof (store_ok_room _ _ _ _ _ _ Hs Ha) as Hac.
    destruct (seg_bounds ls i p a k Hsh Ha Hp Hki Hac) as (B1 & B2 & B3). rewrite Hc in B3.
    assert (NoDup ps) as Hnd. { pose proof (so_nodup _ _ _ _ Hs) as N. by apply NoDup_app in N as (? & _ & _). }
    po_step (segment_at_ok d ps i q Hr Hq). apply po_bind. eapply po_mono; [apply call_po|]. cbv beta. intros _ d1 (S1 & Pl1 & W1 & _).
    pose proof (same_ring _ _ _ S1 Hr) as Hr1.
    assert (∀ j r, j < i → ps !! j = Some r → r ≠ q) as Hother. { intros j r Hj Hjr ->. pose proof (NoDup_lookup ps j i q Hnd Hjr Hq). lia. }
    assert (∀ j r, ps !! j = Some r → ∃ t b, ls !! j = Some b ∧ dq_heap d !! r = Some t ∧ rep t b) as Hheap.
    { intros j r Hjr. destruct (lookup_lt_is_Some_2 ls j) as [b Hb]. { rewrite <-Hlen. by eapply lookup_lt_Some. } destruct (store_ok_get _ _ _ _ _ _ _ Hs Hjr Hb) as (t & Ht & Hrep). eauto. }
    apply po_bind.
    destruct (Z.ltb_spec (Z.of_nat i) (Z.of_nat (length l) - Z.of_nat i - 1)) as [Hb|Hb].
    - (* walking to the front *)
      apply (po_mono _ (λ _ d', writes_within (take (S i) ps) d1 d' ∧ ∀ j r, j < i → ps !! j = Some r → dq_heap d' !! r ≠ dq_heap d1 !! r)).
      2: { cbv beta. intros _ d2 [W2 H2]. eapply po_eq; [reflexivity|]. split.
        - exists (take (S i) ps). split; [rewrite take_length; lia|]. intros b Hbn. cbn [dq_heap]. rewrite (W2 b Hbn). apply W1. intros ->%elem_of_list_singleton. apply Hbn. apply (take_in _ _ i); [lia|done].
        - exists (take i ps). split_and!; [rewrite take_length; lia|rewrite <-(take_drop i ps) in Hnd; by apply NoDup_app in Hnd as [? _]|]. intros b (j & Hj)%elem_of_list_lookup. apply lookup_lt_Some in Hj as Hl. rewrite take_length in Hl. rewrite lookup_take in Hj by lia.
          cbn [dq_heap]. rewrite <-(W1 b); [apply (H2 j b); [lia|done]|]. intros ->%elem_of_list_singleton. by apply (Hother j q); [lia|done|]. }
      rewrite Nat2Z.id. apply po_bind.
      assert (∀ j r, j < i → ps !! j = Some r → dq_heap d1 !! r = dq_heap d !! r) as Hd1. { intros j r Hj Hjr. apply W1. intros ->%elem_of_list_singleton. by apply (Hother j q). }
      intros [] d2 E2. pose proof (pull_back_writes i d1 ps i Hr1 ltac:(lia) ltac:(lia) _ _ E2) as (S2 & _ & W2).
      assert (∀ j r, j < i → ps !! j = Some r → endat d2 r ≠ endat d1 r) as H2.
      { refine (proj1 (pull_back_ends i d1 ps Hr1 Hnd ltac:(lia) _ _ _ E2)). intros j r Hj Hjr t Ht. rewrite (Hd1 j r Hj Hjr) in Ht. destruct (Hheap j r Hjr) as (t' & b & _ & Ht' & [b0 [R1 R2 R3 R4 R5 R6 _]]). assert (t' = t) as -> by congruence.
        split; [exact R1|]. rewrite R6. assert (ri C b0 (length b) < 128); [|lia]. apply ri_lt; [exact R2|exact R4]. }
      assert (∀ j r, j < i → ps !! j = Some r → dq_heap d2 !! r ≠ dq_heap d1 !! r) as H2'. { intros j r Hj Hjr Heq. apply (H2 j r Hj Hjr). unfold endat. by rewrite Heq. }
      pose proof (same_ring _ _ _ S2 Hr1) as Hr2. destruct (lookup_lt_is_Some_2 ps 0) as [p0 Hp0]; [lia|].
      apply po_bind. eapply po_eq; [apply (first_segment_ok d2 ps Hr2)|]. rewrite Hp0. apply po_bind. eapply po_mono; [apply ask_po|]. cbv beta. intros e d' ->. destruct e; [|by apply po_ret].
      apply po_bind. eapply po_mono; [apply put_to_pool_po|]. cbv beta. intros _ d3 (W3 & t3 & Ht3 & Hz3). po_go. apply po_bind. eapply po_mono; [apply seg_put_heap|]. cbv beta. intros _ d4 E4.
      apply po_bind. eapply po_mono; [apply d_next_po|]. cbv beta. intros b d' ->. po_go. eapply po_mono; [apply shrink_heap|]. cbv beta. intros _ d5 E5. cbn [dq_heap] in E5. rewrite E4 in E5. split.
      + intros c Hcn. rewrite E5, (W3 c), (W2 c); [done|done|]. intros ->%elem_of_list_singleton. apply Hcn. apply (take_in _ _ 0); [lia|done].
      + intros j r Hj Hjr. rewrite E5. destruct (decide (r = p0)) as [->|Hr0].
        * rewrite Ht3, (Hd1 j p0 Hj Hjr). destruct (Hheap 0 p0 Hp0) as (t & b0 & Hb0 & Ht & [bb [_ _ _ _ R5 _ _]]). rewrite Ht. intros [= ->]. rewrite Hz3 in R5.
          pose proof (proj1 Hsh 0 ltac:(lia)) as Hne. pose proof (off_S _ _ _ Hb0) as Ho. lia.
        * rewrite (W3 r) by set_solver. by apply (H2' j r).
    - (* a deque of at most three elements *)
      assert (length ps - i <= k / 128 + 2 ∧ k / 128 = 0) as [Hsm Hk0].
      { assert (k <= 3) as Hk3.
        { destruct (decide (i = 0)) as [->|]; [lia|]. pose proof (off_interior ls i Hsh ltac:(lia) Hi) as Ho. pose proof (proj1 Hsh 0 ltac:(lia)) as Ho1. rewrite off_0 in Ho1. assert (C = 128) as HC by done. rewrite HC in Ho. lia. }
        split; [|apply Nat.div_small; lia]. assert ((length l - k) / 128 = 0) as Hd0; [|lia]. apply Nat.div_small.
        destruct (decide (i = 0)) as [->|]; [lia|]. pose proof (off_interior ls i Hsh ltac:(lia) Hi) as Ho. pose proof (proj1 Hsh 0 ltac:(lia)) as Ho1. rewrite off_0 in Ho1. assert (C = 128) as HC by done. rewrite HC in Ho. lia. }
      apply (po_mono _ (λ _ d', writes_within (drop i ps) d1 d')).
      2: { cbv beta. intros _ d2 W2. eapply po_eq; [reflexivity|]. split.
        - exists (drop i ps). split; [rewrite drop_length; lia|]. intros b Hbn. cbn [dq_heap]. rewrite (W2 b Hbn). apply W1. intros ->%elem_of_list_singleton. apply Hbn. apply (elem_of_list_lookup_2 _ 0). rewrite lookup_drop. by rewrite Nat.add_0_r.
        - exists []. split_and!; [rewrite Hk0; apply Nat.le_0_l|constructor|set_solver]. }
      assert (dq_size d1 ≠ 0%Z) as Hz1. { destruct S1 as (_ & _ & _ & ->). done. }
      apply po_bind. eapply po_eq; [apply (seg_used_ok d1 ps Hr1 Hz1 Hps)|]. replace (Z.of_nat (length ps) - 1 - Z.of_nat i)%Z with (Z.of_nat (length ps - 1 - i)) by lia. rewrite Nat2Z.id.
      apply po_bind.
      assert (∀ n j d', ring d' ps → i <= j → j + n < length ps → po (for_up n (Z.of_nat j) pull_front) (λ _ d'', same d' d'' ∧ writes_within (drop i ps) d' d'') d') as Hloop.
      { induction n as [|n IH]; intros j d' Hr' Hj Hjn; cbn [for_up]; [apply po_ret; split; [done|apply ww_refl]|].
        destruct (lookup_lt_is_Some_2 ps j) as [r Hjr]; [lia|]. destruct (lookup_lt_is_Some_2 ps (S j)) as [r' Hjr']; [lia|].
        apply po_bind. eapply po_mono; [by eapply pull_front_po|]. cbv beta. intros _ d'' [S' W']. replace (Z.of_nat j + 1)%Z with (Z.of_nat (S j)) by lia.
        eapply po_mono; [apply (IH (S j) d''); [by eapply same_ring|lia|lia]|]. cbv beta. intros _ d3 [S3 W3]. split; [by eapply same_trans|]. eapply ww_trans; [|exact W3]. eapply ww_sub; [|exact W'].
        intros b Hbr. apply elem_of_list_In in Hbr. destruct Hbr as [<-|[<-|[]]]; [apply (elem_of_list_lookup_2 _ (j - i))|apply (elem_of_list_lookup_2 _ (S j - i))]; rewrite lookup_drop; [replace (i + (j - i)) with j by lia|replace (i + (S j - i)) with (S j) by lia]; done. }
      eapply po_mono; [apply (Hloop (length ps - 1 - i) i d1 Hr1); lia|]. cbv beta. intros _ d2 [S2 W2]. pose proof (same_ring _ _ _ S2 Hr1) as Hr2.
      apply po_bind. eapply po_eq; [apply (last_segment_ok d2 ps Hr2)|]. destruct (last ps) as [pl|] eqn:Elast; [|by apply last_None in Elast].
      apply po_bind. eapply po_mono; [apply ask_po|]. cbv beta. intros e d' ->. destruct e; [|by apply po_ret].
      apply po_bind. eapply po_mono; [apply put_to_pool_po|]. cbv beta. intros _ d3 (W3 & _). po_go. apply po_bind. eapply po_mono; [apply d_pre_po|]. cbv beta. intros kk d' ->. apply po_bind. eapply po_mono; [apply seg_put_heap|]. cbv beta. intros _ d4 E4.
      apply po_bind. eapply po_mono; [apply d_pre_po|]. cbv beta. intros b d' ->. po_go. eapply po_mono; [apply shrink_heap|]. cbv beta. intros _ d5 E5. cbn [dq_heap] in E5. rewrite E4 in E5.
      eapply ww_trans; [exact W2|]. intros c Hcn. rewrite E5. apply W3. intros ->%elem_of_list_singleton. apply Hcn. rewrite last_lookup in Elast. apply (elem_of_list_lookup_2 _ (pred (length ps) - i)). rewrite lookup_drop. replace (i + (pred (length ps) - i)) with (pred (length ps)) by lia. done.
  Qed.
End side.
