(** Circular doubly linked structures: linking and unlinking a node. *)
From Verif Require Import Base Wp BidlistModel BidlistSpec.
Open Scope nat_scope.

Section cyc.
  Context {T : Type}.
  Implicit Types (ns : list (bnode T)) (w : bworld T).
  Definition nxt ns (a : nat) : option (option nat) := b_next <$> ns !! a.
  Definition prv ns (a : nat) : option (option nat) := b_prev <$> ns !! a.
  Definition own ns (a : nat) : option (option nat) := b_owner <$> ns !! a.
  Definition lk ns a b : Prop := nxt ns a = Some (Some b) ∧ prv ns b = Some (Some a).
  Fixpoint linked ns (l : list nat) : Prop :=
    match l with
    | [] => True
    | a :: t => match t with [] => True | b :: _ => lk ns a b ∧ linked ns t end
    end.
  Definition cyc ns (ps : list nat) : Prop := match ps with [] => True | a :: _ => linked ns (ps ++ [a]) end.

  Lemma linked_cons ns a b t : linked ns (a :: b :: t) ↔ lk ns a b ∧ linked ns (b :: t).
  Proof using. done. Qed.
  Lemma linked_app ns p x q : linked ns (p ++ x :: q) ↔ linked ns (p ++ [x]) ∧ linked ns (x :: q).
  Proof using.
    induction p as [|a p IH]; cbn [app].
    - cbn. tauto.
    - destruct p as [|b p]; cbn [app] in *; rewrite !linked_cons.
      + cbn. tauto.
      + rewrite IH. tauto.
  Qed.
  Lemma cyc_rot ns p q : cyc ns (p ++ q) → cyc ns (q ++ p).
  Proof using.
    destruct p as [|a p]; [by rewrite app_nil_r|]. destruct q as [|b q]; [by rewrite app_nil_r|]. cbn [cyc app].
    rewrite <-!app_assoc. cbn [app]. change (a :: p ++ b :: q ++ [a]) with ((a :: p) ++ b :: (q ++ [a])).
    change (b :: q ++ a :: p ++ [b]) with ((b :: q) ++ a :: (p ++ [b])). 
    rewrite (linked_app ns (a :: p) b), (linked_app ns (b :: q) a). cbn [app]. tauto.
  Qed.
  Lemma linked_frame ns ns' q x : linked ns (q ++ [x]) → (∀ a, a ∈ q → nxt ns' a = nxt ns a) →
    (∀ a, a ∈ tail (q ++ [x]) → prv ns' a = prv ns a) → linked ns' (q ++ [x]).
  Proof using.
    induction q as [|a q IH]; [done|]. intros H Hn Hp. destruct q as [|b q]; cbn [app] in *; rewrite linked_cons in *; destruct H as [[H1 H2] H3]; (split; [split|]).
    - rewrite Hn by set_solver. done.
    - rewrite Hp by (cbn; set_solver). done.
    - done.
    - rewrite Hn by set_solver. done.
    - rewrite Hp by (cbn; set_solver). done.
    - apply IH; [done| |]; [set_solver|]. intros c Hc. apply Hp. cbn in *. set_solver.
  Qed.
  Lemma cyc_frame ns ns' ps : cyc ns ps → (∀ a, a ∈ ps → nxt ns' a = nxt ns a ∧ prv ns' a = prv ns a) → cyc ns' ps.
  Proof using.
    destruct ps as [|a ps]; [done|]. cbn [cyc]. intros H Hf. apply (linked_frame ns); [done| |].
    - intros b Hb. by apply Hf.
    - intros b Hb. apply Hf. cbn in Hb. set_solver.
  Qed.
  (** neighbours *)
  Lemma cyc_last ns q x : cyc ns (q ++ [x]) → ∃ h, head (q ++ [x]) = Some h ∧ lk ns x h ∧ linked ns (q ++ [x]).
  Proof using.
    intros H. destruct q as [|h q]; cbn [app cyc head] in *.
    - exists x. split; [done|]. split; [apply H|done].
    - exists h. split; [done|]. rewrite <-app_assoc in H. cbn [app] in H.
      change (h :: q ++ [x; h]) with ((h :: q) ++ x :: [h]) in H. apply linked_app in H as [H1 H2]. split; [apply H2|done].
  Qed.
  Lemma cyc_close ns q x h : head (q ++ [x]) = Some h → linked ns (q ++ [x]) → lk ns x h → cyc ns (q ++ [x]).
  Proof using.
    intros Hh H1 H2. destruct q as [|h' q]; cbn in Hh; simplify_eq; cbn [cyc app].
    - split; [done|done].
    - rewrite <-app_assoc. cbn [app]. change (h :: q ++ [x; h]) with ((h :: q) ++ x :: [h]). apply linked_app. done.
  Qed.
  Lemma lk_alloc ns a b : lk ns a b → a < length ns ∧ b < length ns.
  Proof using.
    unfold lk, nxt, prv. intros [H1 H2]. apply fmap_Some in H1 as (x & H1 & _). apply fmap_Some in H2 as (y & H2 & _).
    split; by eapply lookup_lt_Some.
  Qed.

  (** memory updates *)
  Lemma nd_ok w a x : b_nodes w !! a = Some x → nd (Some a) w = Ok (x, w).
  Proof using. intros H. unfold nd. by rewrite H. Qed.
  Lemma ls_ok w l x : b_lists w !! l = Some x → ls l w = Ok (x, w).
  Proof using. intros H. unfold ls. by rewrite H. Qed.
  Definition wnodes w ns : bworld T := MkBWorld ns (b_lists w).
  (** what two memories share: size, values, owners *)
  Definition same ns ns' : Prop := length ns' = length ns ∧ (b_val <$> ns') = (b_val <$> ns) ∧ ∀ c, own ns' c = own ns c.
  Lemma same_refl ns : same ns ns.
  Proof using. done. Qed.
  Lemma same_trans ns1 ns2 ns3 : same ns1 ns2 → same ns2 ns3 → same ns1 ns3.
  Proof using. intros (H1 & H2 & H3) (H4 & H5 & H6). split_and!; [congruence|congruence|]. intros c. by rewrite H6, H3. Qed.
  Lemma upd_same ns a x f : ns !! a = Some x → b_val (f x) = b_val x → b_owner (f x) = b_owner x → same ns (<[a := f x]> ns).
  Proof using.
    intros H Hv Ho. split_and!; [by rewrite insert_length| |].
    - rewrite list_fmap_insert, Hv. apply list_insert_id. rewrite list_lookup_fmap, H. done.
    - intros c. unfold own. destruct (decide (c = a)) as [->|]; [|by rewrite list_lookup_insert_ne].
      rewrite list_lookup_insert by (by eapply lookup_lt_Some). rewrite H. cbn. by f_equal.
  Qed.
  Lemma set_next_ok w a v : a < length (b_nodes w) → wp (set_next (Some a) v) (λ _ w', ∃ ns', w' = wnodes w ns' ∧ same (b_nodes w) ns' ∧
    (∀ c, nxt ns' c = if decide (c = a) then Some v else nxt (b_nodes w) c) ∧ (∀ c, prv ns' c = prv (b_nodes w) c)) w.
  Proof using.
    intros Ha. destruct (lookup_lt_is_Some_2 _ _ Ha) as [x Hx]. eapply wp_eq. { unfold set_next, nd_upd. by rewrite Hx. }
    eexists. split; [done|]. split; [by apply (upd_same _ _ x (λ n, MkBNode (b_prev n) v (b_val n) (b_owner n)))|].
    unfold nxt, prv. split; intros c; destruct (decide (c = a)) as [->|]; rewrite ?list_lookup_insert, ?list_lookup_insert_ne by done; try done. by rewrite Hx.
  Qed.
  Lemma set_prev_ok w a v : a < length (b_nodes w) → wp (set_prev (Some a) v) (λ _ w', ∃ ns', w' = wnodes w ns' ∧ same (b_nodes w) ns' ∧
    (∀ c, prv ns' c = if decide (c = a) then Some v else prv (b_nodes w) c) ∧ (∀ c, nxt ns' c = nxt (b_nodes w) c)) w.
  Proof using.
    intros Ha. destruct (lookup_lt_is_Some_2 _ _ Ha) as [x Hx]. eapply wp_eq. { unfold set_prev, nd_upd. by rewrite Hx. }
    eexists. split; [done|]. split; [by apply (upd_same _ _ x (λ n, MkBNode v (b_next n) (b_val n) (b_owner n)))|].
    unfold nxt, prv. split; intros c; destruct (decide (c = a)) as [->|]; rewrite ?list_lookup_insert, ?list_lookup_insert_ne by done; try done. by rewrite Hx.
  Qed.
  (** reading a field *)
  Lemma nd_next w a v : nxt (b_nodes w) a = Some v → ∃ x, nd (Some a) w = Ok (x, w) ∧ b_next x = v.
  Proof using. unfold nxt. intros H. apply fmap_Some in H as (x & H & ->). exists x. split; [by apply nd_ok|done]. Qed.
  Lemma nd_prev w a v : prv (b_nodes w) a = Some v → ∃ x, nd (Some a) w = Ok (x, w) ∧ b_prev x = v.
  Proof using. unfold prv. intros H. apply fmap_Some in H as (x & H & ->). exists x. split; [by apply nd_ok|done]. Qed.

  (** the four assignments that put n after the last node x of a cycle *)
  Lemma link_last {A} w q x n (K : M (bworld T) A) Q : cyc (b_nodes w) (q ++ [x]) → NoDup (q ++ [x]) → n ∉ q ++ [x] → n < length (b_nodes w) →
    (∀ ns', same (b_nodes w) ns' → cyc ns' (q ++ [x; n]) →
       (∀ c, c ∉ q ++ [x; n] → nxt ns' c = nxt (b_nodes w) c ∧ prv ns' c = prv (b_nodes w) c) → wp K Q (wnodes w ns')) →
    wp (let! a := nd (Some x) in set_next (Some n) (b_next a) ;;
        set_prev (Some n) (Some x) ;;
        let! a := nd (Some x) in set_prev (b_next a) (Some n) ;;
        set_next (Some x) (Some n) ;; K)%go Q w.
  Proof using.
    intros Hc Hnd Hn Hal HK. destruct (cyc_last _ _ _ Hc) as (h & Hh & Hxh & Hl). destruct (lk_alloc _ _ _ Hxh) as [Hax Hah]. destruct Hxh as [Hx1 Hx2].
    assert (n ≠ x) by set_solver. assert (h ∈ q ++ [x]) as Hhin. { destruct q; cbn in *; simplify_eq; set_solver. } assert (n ≠ h) by set_solver.
    destruct (nd_next w x _ Hx1) as (a & Ea & Ha). wp_step Ea. rewrite Ha.
    apply wp_bind. eapply wp_mono; [by apply set_next_ok|]. cbv beta. intros _ w1 (ns1 & -> & S1 & N1 & P1).
    apply wp_bind. eapply wp_mono; [apply set_prev_ok; cbn; destruct S1 as [-> _]; done|]. cbv beta. cbn [wnodes b_nodes b_lists].
    intros _ w2 (ns2 & -> & S2 & P2 & N2).
    assert (nxt ns2 x = Some (Some h)) as Hx'. { by rewrite N2, N1, decide_False. }
    destruct (nd_next (wnodes (wnodes w ns1) ns2) x _ Hx') as (a' & Ea' & Ha'). wp_step Ea'. rewrite Ha'.
    pose proof (same_trans _ _ _ S1 S2) as S12.
    apply wp_bind. eapply wp_mono; [apply set_prev_ok; cbn; destruct S12 as [-> _]; done|]. cbv beta. cbn [wnodes b_nodes b_lists].
    intros _ w3 (ns3 & -> & S3 & P3 & N3). pose proof (same_trans _ _ _ S12 S3) as S13.
    apply wp_bind. eapply wp_mono; [apply set_next_ok; cbn; destruct S13 as [-> _]; done|]. cbv beta. cbn [wnodes b_nodes b_lists].
    intros _ w4 (ns4 & -> & S4 & N4 & P4). pose proof (same_trans _ _ _ S13 S4) as S14.
    change (wnodes (wnodes (wnodes (wnodes w ns1) ns2) ns3) ns4) with (wnodes w ns4).
    assert (∀ c, nxt ns4 c = if decide (c = x) then Some (Some n) else if decide (c = n) then Some (Some h) else nxt (b_nodes w) c) as N.
    { intros c. rewrite N4, N3, N2, N1. done. }
    assert (∀ c, prv ns4 c = if decide (c = h) then Some (Some n) else if decide (c = n) then Some (Some x) else prv (b_nodes w) c) as P.
    { intros c. rewrite P4, P3, P2, P1. done. }
    apply HK; [done| |].
    - replace (q ++ [x; n]) with ((q ++ [x]) ++ [n]) by (by rewrite <-app_assoc). apply (cyc_close _ _ _ h).
      + destruct q; done.
      + rewrite <-app_assoc. cbn [app]. apply linked_app. split.
        * apply (linked_frame (b_nodes w)); [done| |].
          -- intros c Hcq. rewrite N. apply NoDup_app in Hnd as (_ & Hd & _). rewrite !decide_False; [done|set_solver|set_solver].
          -- intros c Hcq. rewrite P. rewrite decide_False, decide_False; [done| |].
             ++ intros ->. apply Hn. destruct q; cbn in *; set_solver.
             ++ intros ->. destruct q as [|h' q]; cbn in *; [set_solver|]. simplify_eq. by apply NoDup_cons in Hnd as [? _].
        * split; [|done]. split; [by rewrite N, decide_True|]. rewrite P, decide_False, decide_True by done. done.
      + split; [by rewrite N, decide_False, decide_True by done|by rewrite P, decide_True].
    - intros c Hcn. rewrite N, P. rewrite !decide_False by set_solver. done.
  Qed.
  (** the two assignments that take the last node n out of a cycle; n keeps its fields *)
  Lemma unlink_last {A} w q n (K : M (bworld T) A) Q : cyc (b_nodes w) (q ++ [n]) → NoDup (q ++ [n]) →
    (∀ ns', same (b_nodes w) ns' → cyc ns' q →
       (∀ c, c ∉ q → nxt ns' c = nxt (b_nodes w) c ∧ prv ns' c = prv (b_nodes w) c) → wp K Q (wnodes w ns')) →
    wp (let! x := nd (Some n) in set_next (b_prev x) (b_next x) ;;
        let! x := nd (Some n) in set_prev (b_next x) (b_prev x) ;; K)%go Q w.
  Proof using.
    intros Hc Hnd HK. destruct (cyc_last _ _ _ Hc) as (h & Hh & Hnh & Hl). destruct (lk_alloc _ _ _ Hnh) as [Han Hah].
    assert (∃ y, prv (b_nodes w) n = Some (Some y) ∧ nxt (b_nodes w) y = Some (Some n) ∧ y < length (b_nodes w) ∧ (q = [] → y = n) ∧ (∀ r z, q = r ++ [z] → y = z)) as (y & Hy & Hyn & Hay & Hq0 & Hq1).
    { destruct q as [|z r _] using rev_ind.
      - cbn in Hh. simplify_eq. destruct Hnh as [? ?]. exists h. split_and!; try done. by intros [] ?.
      - rewrite <-app_assoc in Hl. cbn [app] in Hl. apply linked_app in Hl as [_ [Hl _]]. destruct (lk_alloc _ _ _ Hl). destruct Hl as [? ?]. exists z. split_and!; try done.
        + by destruct r. + intros r' z' E. by apply app_inj_tail in E as [_ ->]. }
    destruct Hnh as [Hn1 Hn2].
    destruct (nd_next w n _ Hn1) as (x & Ex & Hx). wp_step Ex. rewrite Hx.
    assert (b_prev x = Some y) as ->. { unfold prv in Hy. unfold nd in Ex. destruct (b_nodes w !! n) as [x'|]; [|done]. simplify_eq. cbn in Hy. congruence. }
    apply wp_bind. eapply wp_mono; [by apply set_next_ok|]. cbv beta. intros _ w1 (ns1 & -> & S1 & N1 & P1).
    assert (nxt ns1 n = Some (Some h)) as Hn'. { rewrite N1. by destruct (decide _). }
    assert (prv ns1 n = Some (Some y)) as Hy'. { by rewrite P1. }
    destruct (nd_next (wnodes w ns1) n _ Hn') as (x' & Ex' & Hx'). wp_step Ex'. rewrite Hx'.
    assert (b_prev x' = Some y) as ->. { unfold prv in Hy'. unfold nd in Ex'. cbn in Ex'. destruct (ns1 !! n) as [x''|]; [|done]. simplify_eq. cbn in Hy'. congruence. }
    apply wp_bind. eapply wp_mono; [apply set_prev_ok; cbn; destruct S1 as [-> _]; done|]. cbv beta. cbn [wnodes b_nodes b_lists].
    intros _ w2 (ns2 & -> & S2 & P2 & N2). change (wnodes (wnodes w ns1) ns2) with (wnodes w ns2).
    pose proof (same_trans _ _ _ S1 S2) as S12.
    assert (∀ c, nxt ns2 c = if decide (c = y) then Some (Some h) else nxt (b_nodes w) c) as N. { intros c. by rewrite N2, N1. }
    assert (∀ c, prv ns2 c = if decide (c = h) then Some (Some y) else prv (b_nodes w) c) as P. { intros c. by rewrite P2, P1. }
    apply HK; [done| |].
    - destruct q as [|z r _] using rev_ind; [done|]. specialize (Hq1 r z eq_refl) as ->.
      assert (head (r ++ [z]) = Some h) as Hh'. { destruct r; cbn in *; done. }
      apply (cyc_close _ _ _ h Hh').
      + rewrite <-app_assoc in Hl. cbn [app] in Hl. apply linked_app in Hl as [Hl _]. apply NoDup_app in Hnd as (Hnd & _ & _).
        apply (linked_frame (b_nodes w)); [done| |].
        * intros c Hcr. rewrite N, decide_False; [done|]. apply NoDup_app in Hnd as (_ & Hd & _). set_solver.
        * intros c Hcr. rewrite P, decide_False; [done|]. intros ->. destruct r as [|h' r]; cbn in *; [set_solver|]. simplify_eq. by apply NoDup_cons in Hnd as [? _].
      + split; [by rewrite N, decide_True|by rewrite P, decide_True].
    - intros c Hcq. rewrite N, P. destruct q as [|z r _] using rev_ind.
      + cbn in Hh. simplify_eq. split; (destruct (decide _) as [->|]; [congruence|done]).
      + specialize (Hq1 r z eq_refl) as ->. rewrite !decide_False; [done| |set_solver].
        intros ->. apply Hcq. destruct r; cbn in *; simplify_eq; set_solver.
  Qed.
End cyc.
