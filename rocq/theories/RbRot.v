(** The two rotations on a heap holding a tree. *)
From Verif Require Import Base Wp RbModel RbTree.
(** consequences of NoDup: disjointness of the parts *)
Lemma disj_parts (c A B D : list nat) x y : NoDup (c ++ A ++ x :: B ++ y :: D) →
  NoDup c ∧ NoDup A ∧ NoDup B ∧ NoDup D ∧ x ≠ y ∧ (x ∉ c ∧ x ∉ A ∧ x ∉ B ∧ x ∉ D) ∧ (y ∉ c ∧ y ∉ A ∧ y ∉ B ∧ y ∉ D)
      ∧ (∀ e, e ∈ c → e ∉ A ∧ e ∉ B ∧ e ∉ D) ∧ (∀ e, e ∈ B → e ∉ c ∧ e ∉ A ∧ e ∉ D).
Proof.
  intros H. apply NoDup_app in H as (Nc & Xc & H). apply NoDup_app in H as (NA & XA & H). apply NoDup_cons in H as (Nx & H). apply NoDup_app in H as (NB & XB & H). apply NoDup_cons in H as (Ny & ND).
  repeat setoid_rewrite not_elem_of_app in Xc. repeat setoid_rewrite not_elem_of_cons in Xc. repeat setoid_rewrite not_elem_of_app in Xc. repeat setoid_rewrite not_elem_of_cons in Xc.
  repeat setoid_rewrite not_elem_of_cons in XA. repeat setoid_rewrite not_elem_of_app in XA. repeat setoid_rewrite not_elem_of_cons in XA.
  apply not_elem_of_app in Nx as [Nx1 Nx2]. apply not_elem_of_cons in Nx2 as [Nx2 Nx3]. setoid_rewrite not_elem_of_cons in XB.
  split_and!; try done.
  - intros Hi. apply Xc in Hi. tauto. - intros Hi. apply XA in Hi. tauto. - intros Hi. apply Xc in Hi. tauto. - intros Hi. apply XA in Hi. tauto. - intros Hi. apply XB in Hi. tauto.
  - intros e Hi. apply Xc in Hi. tauto.
  - intros e Hi. split_and!; [intros Hj; apply Xc in Hj; tauto|intros Hj; apply XA in Hj; tauto|apply XB in Hi; tauto].
Qed.
Section rot.
  Context {K V : Type}.
  Implicit Types (s : rb K V).
  Lemma left_rotate_ok s ctx ta x cx kx vx tb y cy ky vy td :
    rbrep s (plug ctx (N ta x cx kx vx (N tb y cy ky vy td))) →
    wp (left_rotate (Some x)) (λ _ s', rbrep s' (plug ctx (N (N ta x cx kx vx tb) y cy ky vy td)) ∧ same s s') s.
  Proof using.
    intros ((Hx & Ha & Hy & Hb & Hd) & Hc & Hnd & Hlt)%foc_split. rewrite !ads_N in Hnd, Hlt.
    assert (NoDup (cads ctx) ∧ NoDup (ads ta) ∧ NoDup (ads tb) ∧ NoDup (ads td) ∧ x ≠ y ∧ (x ∉ cads ctx ∧ x ∉ ads ta ∧ x ∉ ads tb ∧ x ∉ ads td) ∧ (y ∉ cads ctx ∧ y ∉ ads ta ∧ y ∉ ads tb ∧ y ∉ ads td)
      ∧ (∀ e, e ∈ cads ctx → e ∉ ads ta ∧ e ∉ ads tb ∧ e ∉ ads td) ∧ (∀ e, e ∈ ads tb → e ∉ cads ctx ∧ e ∉ ads ta ∧ e ∉ ads td)) as (D1 & D2 & D3 & D4 & Dxy & (X1 & X2 & X3 & X4) & (Y1 & Y2 & Y3 & Y4) & Dc & Db).
    { by apply disj_parts. }
    change (left_rotate (Some x)) with (mbind_ (right (K := K) (V := V) (Some x)) (λ y, mbind_ (left y) (λ yl, mbind_ (put (Some x) (with_right yl)) (λ _, mbind_ (reparent yl (Some x)) (λ _,
      mbind_ (parent (Some x)) (λ xp, mbind_ (put y (with_parent xp)) (λ _, mbind_ (relink_l xp (Some x) y) (λ _, mbind_ (put y (with_left (Some x))) (λ _, put (Some x) (with_parent y)))))))))).
    apply wp_bind. eapply wp_eq. { unfold right, mbind_, get. rewrite Hx. reflexivity. } cbn [n_right rootp].
    apply wp_bind. eapply wp_eq. { unfold left, mbind_, get. rewrite Hy. reflexivity. } cbn [n_left].
    apply wp_bind. eapply wp_eq. { unfold put. rewrite Hx. reflexivity. } cbn [with_right n_parent n_left n_color n_key n_val].
    set (s1 := MkRb (<[x := _]> _) _ _ _). apply wp_bind. eapply wp_mono.
    { apply (reparent_ok s1 tb (Some y)); [by apply rep_insert|done]. } intros _ s2 (Hb2 & F2 & S2 & R2).
    assert (rb_heap s2 !! x = Some (MkNode (cpar ctx) (rootp ta) (rootp tb) cx kx vx)) as Hx2. { rewrite F2 by done. apply lookup_insert. }
    assert (rb_heap s2 !! y = Some (MkNode (Some x) (rootp tb) (rootp td) cy ky vy)) as Hy2. { rewrite F2 by done. cbn. by rewrite lookup_insert_ne. }
    assert (∀ e, e ∉ ads tb → e ≠ x → rb_heap s2 !! e = rb_heap s !! e) as G2. { intros e ? ?. rewrite F2 by done. cbn. by rewrite lookup_insert_ne. }
    apply wp_bind. eapply wp_eq. { unfold parent, mbind_, get. rewrite Hx2. reflexivity. } cbn [n_parent].
    apply wp_bind. eapply wp_eq. { unfold put. rewrite Hy2. reflexivity. } cbn [with_parent n_parent n_left n_right n_color n_key n_val].
    set (s3 := MkRb (<[y := _]> _) _ _ _). apply wp_bind. eapply wp_mono.
    { apply (relink_l_ok s3 ctx x (Some y)); [|done|done]. cbn. rewrite R2. cbn. apply repc_insert; [done|]. eapply repc_frame; [|exact Hc]. intros e He. apply G2; [|intros ->; done]. apply (Dc e He). }
    intros _ s4 (Hc4 & F4 & S4).
    assert (rb_heap s4 !! x = Some (MkNode (cpar ctx) (rootp ta) (rootp tb) cx kx vx)) as Hx4. { rewrite F4 by done. cbn. by rewrite lookup_insert_ne. }
    assert (rb_heap s4 !! y = Some (MkNode (cpar ctx) (rootp tb) (rootp td) cy ky vy)) as Hy4. { rewrite F4 by done. cbn. by rewrite lookup_insert. }
    apply wp_bind. eapply wp_eq. { unfold put. rewrite Hy4. reflexivity. } cbn [with_left n_parent n_left n_right n_color n_key n_val].
    eapply wp_eq. { unfold put. cbn [rb_heap rb_next rb_root rb_size]. rewrite lookup_insert_ne by done. rewrite Hx4. reflexivity. } cbn [with_parent n_parent n_left n_right n_color n_key n_val].
    split. 2:{ unfold same in *. cbn in *. destruct S2, S4. cbn in *. split; congruence. }
    assert (∀ e, e ≠ x → e ≠ y → e ∉ ads tb → e ∉ cads ctx → rb_heap s4 !! e = rb_heap s !! e) as G4.
    { intros e ????. rewrite F4 by done. cbn. rewrite lookup_insert_ne by done. by apply G2. }
    apply foc_split. cbn. split_and!.
    - rewrite lookup_insert_ne, lookup_insert by done. done.
    - by rewrite lookup_insert.
    - apply rep_insert; [done|]. apply rep_insert; [done|]. eapply rep_frame; [|exact Ha]. intros e He. apply G4; [intros ->; done|intros ->; done|intros ?%Db; tauto|intros ?%Dc; tauto].
    - apply rep_insert; [done|]. apply rep_insert; [done|]. eapply rep_frame; [|exact Hb2]. intros e He. rewrite F4 by (by apply Db). cbn. rewrite lookup_insert_ne; [done|]. intros ->; done.
    - apply rep_insert; [done|]. apply rep_insert; [done|]. eapply rep_frame; [|exact Hd]. intros e He. apply G4; [intros ->; done|intros ->; done|intros ?%Db; tauto|intros ?%Dc; tauto].
    - apply repc_insert; [done|]. by apply repc_insert.
    - rewrite !ads_N, <-app_assoc. cbn. done.
    - rewrite !ads_N, <-app_assoc. cbn. unfold same in *. destruct S2, S4. cbn in *. eapply Forall_impl; [exact Hlt|]. cbn. intros. congruence.
  Qed.
  Lemma right_rotate_ok s ctx ta x cx kx vx tb y cy ky vy td :
    rbrep s (plug ctx (N (N td y cy ky vy tb) x cx kx vx ta)) →
    wp (right_rotate (Some x)) (λ _ s', rbrep s' (plug ctx (N td y cy ky vy (N tb x cx kx vx ta))) ∧ same s s') s.
  Proof using.
    intros ((Hx & (Hy & Hd & Hb) & Ha) & Hc & Hnd & Hlt)%foc_split. rewrite !ads_N in Hnd, Hlt.
    assert (NoDup (cads ctx) ∧ NoDup (ads ta) ∧ NoDup (ads tb) ∧ NoDup (ads td) ∧ x ≠ y ∧ (x ∉ cads ctx ∧ x ∉ ads ta ∧ x ∉ ads tb ∧ x ∉ ads td) ∧ (y ∉ cads ctx ∧ y ∉ ads ta ∧ y ∉ ads tb ∧ y ∉ ads td)
      ∧ (∀ e, e ∈ cads ctx → e ∉ ads ta ∧ e ∉ ads tb ∧ e ∉ ads td) ∧ (∀ e, e ∈ ads tb → e ∉ cads ctx ∧ e ∉ ads ta ∧ e ∉ ads td)) as (D1 & D2 & D3 & D4 & Dxy & (X1 & X2 & X3 & X4) & (Y1 & Y2 & Y3 & Y4) & Dc & Db).
    { apply disj_parts. assert (cads ctx ++ (ads td ++ y :: ads tb) ++ x :: ads ta ≡ₚ cads ctx ++ ads ta ++ x :: ads tb ++ y :: ads td) as HP by solve_Permutation. by rewrite <-HP. }
    change (right_rotate (Some x)) with (mbind_ (left (K := K) (V := V) (Some x)) (λ y, mbind_ (right y) (λ yl, mbind_ (put (Some x) (with_left yl)) (λ _, mbind_ (reparent yl (Some x)) (λ _,
      mbind_ (parent (Some x)) (λ xp, mbind_ (put y (with_parent xp)) (λ _, mbind_ (relink_r xp (Some x) y) (λ _, mbind_ (put y (with_right (Some x))) (λ _, put (Some x) (with_parent y)))))))))).
    apply wp_bind. eapply wp_eq. { unfold left, mbind_, get. rewrite Hx. reflexivity. } cbn [n_left rootp].
    apply wp_bind. eapply wp_eq. { unfold right, mbind_, get. rewrite Hy. reflexivity. } cbn [n_right].
    apply wp_bind. eapply wp_eq. { unfold put. rewrite Hx. reflexivity. } cbn [with_left n_parent n_right n_color n_key n_val].
    set (s1 := MkRb (<[x := _]> _) _ _ _). apply wp_bind. eapply wp_mono.
    { apply (reparent_ok s1 tb (Some y)); [by apply rep_insert|done]. } intros _ s2 (Hb2 & F2 & S2 & R2).
    assert (rb_heap s2 !! x = Some (MkNode (cpar ctx) (rootp tb) (rootp ta) cx kx vx)) as Hx2. { rewrite F2 by done. apply lookup_insert. }
    assert (rb_heap s2 !! y = Some (MkNode (Some x) (rootp td) (rootp tb) cy ky vy)) as Hy2. { rewrite F2 by done. cbn. by rewrite lookup_insert_ne. }
    assert (∀ e, e ∉ ads tb → e ≠ x → rb_heap s2 !! e = rb_heap s !! e) as G2. { intros e ? ?. rewrite F2 by done. cbn. by rewrite lookup_insert_ne. }
    apply wp_bind. eapply wp_eq. { unfold parent, mbind_, get. rewrite Hx2. reflexivity. } cbn [n_parent].
    apply wp_bind. eapply wp_eq. { unfold put. rewrite Hy2. reflexivity. } cbn [with_parent n_parent n_left n_right n_color n_key n_val].
    set (s3 := MkRb (<[y := _]> _) _ _ _). apply wp_bind. eapply wp_mono.
    { apply (relink_r_ok s3 ctx x (Some y)); [|done|done]. cbn. rewrite R2. cbn. apply repc_insert; [done|]. eapply repc_frame; [|exact Hc]. intros e He. apply G2; [|intros ->; done]. apply (Dc e He). }
    intros _ s4 (Hc4 & F4 & S4).
    assert (rb_heap s4 !! x = Some (MkNode (cpar ctx) (rootp tb) (rootp ta) cx kx vx)) as Hx4. { rewrite F4 by done. cbn. by rewrite lookup_insert_ne. }
    assert (rb_heap s4 !! y = Some (MkNode (cpar ctx) (rootp td) (rootp tb) cy ky vy)) as Hy4. { rewrite F4 by done. cbn. by rewrite lookup_insert. }
    apply wp_bind. eapply wp_eq. { unfold put. rewrite Hy4. reflexivity. } cbn [with_right n_parent n_left n_right n_color n_key n_val].
    eapply wp_eq. { unfold put. cbn [rb_heap rb_next rb_root rb_size]. rewrite lookup_insert_ne by done. rewrite Hx4. reflexivity. } cbn [with_parent n_parent n_left n_right n_color n_key n_val].
    split. 2:{ unfold same in *. cbn in *. destruct S2, S4. cbn in *. split; congruence. }
    assert (∀ e, e ≠ x → e ≠ y → e ∉ ads tb → e ∉ cads ctx → rb_heap s4 !! e = rb_heap s !! e) as G4.
    { intros e ????. rewrite F4 by done. cbn. rewrite lookup_insert_ne by done. by apply G2. }
    apply foc_split. cbn. split_and!.
    - rewrite lookup_insert_ne, lookup_insert by done. done.
    - apply rep_insert; [done|]. apply rep_insert; [done|]. eapply rep_frame; [|exact Hd]. intros e He. apply G4; [intros ->; done|intros ->; done|intros ?%Db; tauto|intros ?%Dc; tauto].
    - by rewrite lookup_insert.
    - apply rep_insert; [done|]. apply rep_insert; [done|]. eapply rep_frame; [|exact Hb2]. intros e He. rewrite F4 by (by apply Db). cbn. rewrite lookup_insert_ne; [done|]. intros ->; done.
    - apply rep_insert; [done|]. apply rep_insert; [done|]. eapply rep_frame; [|exact Ha]. intros e He. apply G4; [intros ->; done|intros ->; done|intros ?%Db; tauto|intros ?%Dc; tauto].
    - apply repc_insert; [done|]. by apply repc_insert.
    - rewrite !ads_N. rewrite <-app_assoc in Hnd. done.
    - rewrite !ads_N. rewrite <-app_assoc in Hlt. unfold same in *. destruct S2, S4. cbn in *. eapply Forall_impl; [exact Hlt|]. cbn. intros. congruence.
  Qed.
End rot.
