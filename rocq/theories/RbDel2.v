(** Delete as a whole. *)
From Verif Require Import Base Wp RbModel RbTree RbRot RbIns RbIns2 RbDel RbNav.
Open Scope go_scope.

Section delete.
  Context {K V : Type}.
  Implicit Types (s : rb K V) (t : tree K V) (ctx : list (frame K V)).
  (** the unlinking of y, which has at most one child x *)
  Lemma splice_ok ctx yl y cy ky vy yr x s : rbrep s (plug ctx (N yl y cy ky vy yr)) → (yl = E ∧ x = yr) ∨ (yr = E ∧ x = yl) →
    wp (reparent (rootp x) (cpar ctx) ;; let! yp := parent (Some y) in relink_l yp (Some y) (rootp x))
      (λ _ s', rbrep s' (plug ctx x) ∧ same s s' ∧ rb_heap s' !! y = Some (MkNode (cpar ctx) (rootp yl) (rootp yr) cy ky vy)) s.
  Proof using.
    intros ((Hy & Hyl & Hyr) & Hc & Hnd & Hlt)%foc_split Hx. rewrite ads_N in Hnd, Hlt.
    assert (rep (rb_heap s) (Some y) x ∧ NoDup (cads ctx ++ ads x) ∧ y ∉ cads ctx ∧ y ∉ ads x ∧ Forall (λ a, a < rb_next s)%nat (cads ctx ++ ads x)) as (Hrx & Hnx & Hyc & Hyx & Hlx).
    { apply NoDup_app in Hnd as (N1 & N2 & N3). apply Forall_app in Hlt as [F1 F2]. destruct Hx as [[-> ->]|[-> ->]].
      - change (ads E) with (@nil nat) in *. cbn [app] in *. apply NoDup_cons in N3 as [N3 N4]. apply Forall_cons in F2 as [_ F2].
        split_and!; [done|apply NoDup_app; split_and!; [done|intros e He Hi; apply (N2 e He); by right|done]|intros Hi; apply (N2 y Hi); by left|done|by apply Forall_app].
      - change (ads E) with (@nil nat) in *. apply NoDup_app in N3 as (N3 & N4 & N5). apply Forall_app in F2 as [F2 _].
        split_and!; [done|apply NoDup_app; split_and!; [done|intros e He Hi; apply (N2 e He), elem_of_app; by left|done]|intros Hi; apply (N2 y Hi), elem_of_app; right; by left|intros Hi; apply (N4 y Hi); by left|by apply Forall_app]. }
    apply NoDup_app in Hnx as (N1 & N2 & N3). apply wp_bind. eapply wp_mono; [by eapply reparent_ok|]. cbv beta. intros _ s1 (Hrx1 & F1 & S1 & R1).
    assert (rb_heap s1 !! y = Some (MkNode (cpar ctx) (rootp yl) (rootp yr) cy ky vy)) as Hy1 by by rewrite F1.
    apply wp_bind. eapply wp_eq. { unfold parent, mbind_, get. rewrite Hy1. reflexivity. } cbn [n_parent].
    eapply wp_mono. { apply (relink_l_ok s1 ctx y (rootp x)); [|done|done]. rewrite R1. eapply repc_frame; [|exact Hc]. intros e He. apply F1. intros Hi. by apply (N2 e). }
    cbv beta. intros _ s2 (Hc2 & F2 & S2). split_and!.
    - apply foc_split. split_and!; [|done|apply NoDup_app; done|].
      + eapply rep_frame; [|exact Hrx1]. intros e He. apply F2. intros Hi. by apply (N2 e).
      + destruct S1 as [Q1 _], S2 as [Q2 _]. rewrite Q2, Q1. done.
    - sames.
    - by rewrite F2.
  Qed.
  (** the colours: unlinking y and rebalancing if y was black *)
  Lemma unlink_fix_ok ctx yl y cy ky vy yr x s m : rbrep s (plug ctx x) → rbt m BLACK (plug ctx (N yl y cy ky vy yr)) → (yl = E ∧ x = yr) ∨ (yr = E ∧ x = yl) →
    wp (if cy then delete_fixup (rootp x) (cpar ctx) else mret_ tt) (λ _ s', same s s' ∧ ∃ T m, rbrep s' T ∧ rbt m BLACK T ∧ io T = io (plug ctx x)) s.
  Proof using.
    intros H Hm Hx. destruct (unplug_ok _ _ _ Hm) as (n & b & c & Hc & Hn & Hb). inversion Hn; subst.
    - match goal with H1 : rbt n BLACK yl, H2 : rbt n BLACK yr |- _ => rename H1 into Hl, H2 into Hr end.
      assert (x = E ∧ n = O) as [-> ->].
      { destruct Hx as [[-> ->]|[-> ->]].
        - inversion Hl; subst. split; [|done]. inversion Hr; done.
        - inversion Hr; subst. split; [|done]. inversion Hl; done. }
      apply wp_ret. split; [done|]. destruct (plug_ok ctx 0 b BLACK E Hc ltac:(constructor) ltac:(done)) as [m' Hm']. exists (plug ctx E), m'. done.
    - assert (n0 = O ∧ short 0 x) as [-> Hs].
      { destruct Hx as [[-> ->]|[-> ->]]; match goal with Hq : rbt _ _ E |- _ => inversion Hq; subst end; (split; [done|]).
        - destruct cr; [by left|]. right. split; [by eapply rbt_col|]. match goal with Hq : rbt 0 false _ |- _ => inversion Hq; subst end. by eapply rbt_B.
        - destruct cl; [by left|]. right. split; [by eapply rbt_col|]. match goal with Hq : rbt 0 false _ |- _ => inversion Hq; subst end. by eapply rbt_B. }
      eapply delete_fixup_ok; done.
  Qed.
  (** Delete after the choice of y *)
  Definition del_rest (z y : ptr) : M (rb K V) unit :=
    let! yl := left y in
    let! x := (match yl with None => right y | _ => mret_ yl end) in
    let! xparent := parent y in
    (match x with None => mret_ tt | _ => put x (with_parent xparent) end) ;;
    let! yp := parent y in
    (match yp with
     | None => set_root x
     | _ => let! ypl := left yp in if peq y ypl then put yp (with_left x) else put yp (with_right x)
     end) ;;
    (if peq y z then mret_ tt
     else let! yk := key y in put z (with_key yk) ;; let! yv := value y in put z (with_val yv)) ;;
    let! yc := color y in
    (if yc then delete_fixup x xparent else mret_ tt) ;;
    let! n := get_size in set_size (n - 1).
  (** the first half of it: y is unlinked *)
  Lemma del_rest_ok z ctx yl y cy ky vy yr x s Q : rbrep s (plug ctx (N yl y cy ky vy yr)) → (yl = E ∧ x = yr) ∨ (yr = E ∧ x = yl) →
    (∀ s', rbrep s' (plug ctx x) → same s s' → rb_heap s' !! y = Some (MkNode (cpar ctx) (rootp yl) (rootp yr) cy ky vy) →
      wp ((if peq (Some y) z then mret_ tt
           else let! yk := key (Some y) in put z (with_key yk) ;; let! yv := value (Some y) in put z (with_val yv)) ;;
          let! yc := color (Some y) in
          (if yc then delete_fixup (rootp x) (cpar ctx) else mret_ tt) ;;
          let! n := get_size in set_size (n - 1)) Q s') →
    wp (del_rest z (Some y)) Q s.
  Proof using.
    intros H Hx HQ. unfold del_rest. apply wp_bind. eapply wp_eq; [by eapply rd_left|]. apply wp_bind. apply (wp_eq _ _ _ (rootp x) s).
    { destruct Hx as [[-> ->]|[-> ->]]; cbn [rootp]; [by eapply rd_right|]. destruct yl; cbn [rootp]; [|done]. by rewrite (rd_right _ _ _ _ _ _ _ _ H). }
    apply wp_bind. eapply wp_eq; [by eapply rd_parent|].
    pose proof (splice_ok _ _ _ _ _ _ _ _ _ H Hx) as Hsp. apply wp_Ok in Hsp as ([] & s1 & E1 & H1 & S1 & Hz1). unfold mbind_ in E1.
    apply wp_bind. destruct (reparent (rootp x) (cpar ctx) s) as [[[] s0]| |] eqn:E2; [|done|done]. eapply wp_eq; [exact E2|].
    apply wp_bind. destruct (parent (Some y) s0) as [[yp s0']| |] eqn:E3; [|done|done]. eapply wp_eq; [exact E3|]. apply wp_bind. eapply wp_eq; [exact E1|].
    by apply HQ.
  Qed.
  Lemma finish_ok s1 s ctx yl y cy ky vy yr x m T0 : rbrep s1 (plug ctx x) → same s s1 → rb_size s = Z.of_nat (length T0) + 1 → io (plug ctx x) = T0 → rbt m BLACK (plug ctx (N yl y cy ky vy yr)) → (yl = E ∧ x = yr) ∨ (yr = E ∧ x = yl) →
    rb_heap s1 !! y = Some (MkNode (cpar ctx) (rootp yl) (rootp yr) cy ky vy) →
    wp (let! yc := color (Some y) in (if yc then delete_fixup (rootp x) (cpar ctx) else mret_ tt) ;; let! n := get_size in set_size (n - 1))
      (λ _ s', ∃ t', rbinv s' t' ∧ rb_next s' = rb_next s ∧ io t' = T0) s1.
  Proof using.
    intros H1 S1 Hz E0 Hm Hx Hy. apply wp_bind. eapply wp_eq. { unfold color, mbind_, get. rewrite Hy. reflexivity. } cbn [n_color].
    apply wp_bind. eapply wp_mono; [eapply unlink_fix_ok; [exact H1|exact Hm|done]|]. cbv beta. intros _ s2 (S2 & T & m' & H2 & Hm' & Hio). wp_go. eapply wp_eq; [reflexivity|].
    destruct S1 as [P1 P2], S2 as [Q1 Q2]. exists T. split_and!; [|cbn; congruence|congruence]. split; [|by exists m'|].
    - destruct H2 as [A1 A2 A3 A4]. split; done.
    - cbn. rewrite Q2, P2, Hz, Hio, E0. lia.
  Qed.
  (** the node has two children *)
  Definition forked (s : rb K V) (a : nat) : Prop := ∃ n, rb_heap s !! a = Some n ∧ n_left n ≠ None ∧ n_right n ≠ None.
  Lemma delete_exact s t L R z k v : rbinv s t → io t = L ++ (z, (k, v)) :: R →
    wp (rb_Delete (Some z)) (λ _ s', ∃ t', rbinv s' t' ∧ rb_next s' = rb_next s ∧
      (¬ forked s z ∧ io t' = L ++ R ∨ forked s z ∧ ∃ y ky vy R', R = (y, (ky, vy)) :: R' ∧ io t' = L ++ (z, (ky, vy)) :: R')) s.
  Proof using.
    intros [H [m Hm] Hz] E1. destruct (locate _ _ _ _ _ _ E1) as (ctx & l & c & r & -> & -> & ->). rewrite E1, !app_length in Hz. cbn [length] in Hz. clear E1.
    change (rb_Delete (Some z)) with (let! zl := left (K := K) (V := V) (Some z) in
      let! y := (match zl with None => mret_ (Some z) | _ => let! zr := right (Some z) in match zr with None => mret_ (Some z) | _ => successor (Some z) end end) in del_rest (Some z) y).
    apply wp_bind. eapply wp_eq; [by eapply rd_left|].
    assert (l = E ∨ r = E → wp (del_rest (Some z) (Some z)) (λ _ s', ∃ t', rbinv s' t' ∧ rb_next s' = rb_next s ∧
      (¬ forked s z ∧ io t' = (lic ctx ++ io l) ++ io r ++ ric ctx ∨ forked s z ∧ ∃ y ky vy R', io r ++ ric ctx = (y, (ky, vy)) :: R' ∧ io t' = (lic ctx ++ io l) ++ (z, (ky, vy)) :: R')) s) as Hone.
    { intros Hlr. assert (∃ x, (l = E ∧ x = r) ∨ (r = E ∧ x = l)) as [x Hx] by naive_solver. eapply del_rest_ok; [exact H|exact Hx|]. intros s1 H1 S1 Hz1.
      unfold peq. rewrite bool_decide_eq_true_2 by done. wp_go.
      eapply wp_mono; [eapply (finish_ok s1 s ctx l z c k v r x m ((lic ctx ++ io l) ++ io r ++ ric ctx)); try done|].
      - rewrite Hz, !app_length. lia.
      - rewrite io_plug. destruct Hx as [[-> ->]|[-> ->]]; cbn [io app]; rewrite ?app_nil_r; [done|]. by rewrite app_assoc.
      - cbv beta. intros _ s' (t' & ? & ? & ?). exists t'. split_and!; [done|done|]. left. split; [|done]. intros (n & En & F1 & F2). pose proof (proj1 (foc_split _ _ _) H) as ((Hz0 & _) & _). rewrite Hz0 in En. injection En as <-. cbn in F1, F2. destruct Hlr as [-> | ->]; by cbn in *. }
    destruct l as [|ll la lc lk lv lr] eqn:El; cbn [rootp]. { wp_go. apply Hone. by left. }
    rewrite <-El in *. apply wp_bind. apply wp_bind. eapply wp_eq; [by eapply rd_right|].
    destruct r as [|rl ra rc rk rv rr] eqn:Er; cbn [rootp]. { apply wp_ret. apply Hone. by right. }
    rewrite <-Er in *. clear Hone.
    destruct (minimum_ok (FR l z c k v :: ctx) r s H ltac:(by rewrite Er)) as (fs & y & cy & ky & vy & yr & E2 & E3 & E4 & E5).
    assert (rootp r = Some ra) as Hra by by rewrite Er.
    apply (wp_eq _ _ _ (Some y) s). { unfold successor, mbind_. rewrite (rd_right _ _ _ _ _ _ _ _ H). rewrite Hra. rewrite Hra in E2. exact E2. }
    set (ctx' := fs ++ FR l z c k v :: ctx).
    assert (∀ T, plug ctx' T = plug ctx (N l z c k v (plug fs T))) as Hpl. { intros T. unfold ctx'. by rewrite plug_app. }
    assert (rbrep s (plug ctx' (N E y cy ky vy yr))) as H'. { by rewrite Hpl, <-E3. }
    assert (z ≠ y) as Hzy.
    { pose proof (rr_nodup _ _ H) as N1. rewrite ads_plug, ads_N in N1. apply NoDup_app in N1 as (_ & _ & N1). apply NoDup_app in N1 as (_ & _ & N1). apply NoDup_cons in N1 as [N1 _]. unfold ads in N1. rewrite E5 in N1. set_solver. }
    eapply (del_rest_ok _ ctx' E y cy ky vy yr yr); [exact H'|by left|]. intros s1 H1 S1 Hy1. unfold peq. rewrite bool_decide_eq_false_2 by congruence.
    rewrite Hpl in H1. apply wp_bind. apply wp_bind. eapply wp_eq. { unfold key, mbind_, get. rewrite Hy1. reflexivity. } cbn [n_key].
    pose proof (proj1 (foc_split _ _ _) H1) as ((Hz1 & _) & _).
    apply wp_bind. eapply wp_eq. { unfold put. rewrite Hz1. reflexivity. }
    assert (put (Some z) (with_key ky) s1 = Ok (tt, MkRb (<[z := with_key ky (MkNode (cpar ctx) (rootp l) (rootp (plug fs yr)) c k v)]> (rb_heap s1)) (rb_next s1) (rb_root s1) (rb_size s1))) as Ep. { unfold put. by rewrite Hz1. }
    pose proof (wp_elim _ _ _ _ _ (foc_put s1 ctx _ _ _ _ _ _ (with_key ky) c ky v H1 ltac:(done)) Ep) as [H2 S2]. clear Ep.
    set (s2 := MkRb (<[z := _]> _) _ _ _) in *. assert (rb_heap s2 !! y = Some (MkNode (cpar ctx') None (rootp yr) cy ky vy)) as Hy2. { cbn. rewrite lookup_insert_ne by done. exact Hy1. }
    apply wp_bind. eapply wp_eq. { unfold value, mbind_, get. rewrite Hy2. reflexivity. } cbn [n_val].
    pose proof (proj1 (foc_split _ _ _) H2) as ((Hz2 & _) & _). eapply wp_eq. { unfold put. rewrite Hz2. reflexivity. }
    assert (put (Some z) (with_val vy) s2 = Ok (tt, MkRb (<[z := with_val vy (MkNode (cpar ctx) (rootp l) (rootp (plug fs yr)) c ky v)]> (rb_heap s2)) (rb_next s2) (rb_root s2) (rb_size s2))) as Ep. { unfold put. by rewrite Hz2. }
    pose proof (wp_elim _ _ _ _ _ (foc_put s2 ctx _ _ _ _ _ _ (with_val vy) c ky vy H2 ltac:(done)) Ep) as [H3 S3]. clear Ep.
    set (s3 := MkRb (<[z := with_val _ _]> _) _ _ _) in *. assert (rb_heap s3 !! y = Some (MkNode (cpar ctx') None (rootp yr) cy ky vy)) as Hy3. { etrans; [apply lookup_insert_ne; done|exact Hy2]. }
    set (ctx2 := fs ++ FR l z c ky vy :: ctx).
    assert (∀ T, plug ctx2 T = plug ctx (N l z c ky vy (plug fs T))) as Hpl2. { intros T. unfold ctx2. by rewrite plug_app. }
    assert (cpar ctx2 = cpar ctx') as Hcp. { unfold ctx2, ctx'. destruct fs; done. }
    rewrite <-Hcp in Hy3 |- *. rewrite <-Hpl2 in H3.
    assert (∃ m', rbt m' BLACK (plug ctx2 (N E y cy ky vy yr))) as [m' Hm'].
    { rewrite Hpl2, <-E3. destruct (unplug_ok _ _ _ Hm) as (n & b & c' & Hc & Hn & Hb). eapply plug_ok; [exact Hc| |exact Hb]. inversion Hn; subst; by econstructor. }
    eapply wp_mono; [eapply (finish_ok s3 s ctx2 E y cy ky vy yr yr m' ((lic ctx ++ io l) ++ (z, (ky, vy)) :: io yr ++ ric fs ++ ric ctx)); try done|].
    - rewrite Hz, E5. cbn [length app]. rewrite !app_length. cbn [length]. rewrite !app_length. lia.
    - rewrite Hpl2, io_plug. cbn [io]. rewrite io_plug, E4. cbn [app]. repeat (rewrite <-app_assoc; cbn [app]). done.
    - by left.
    - cbv beta. intros _ s' (t' & Ht' & Hn' & Hio). exists t'. split_and!; [done|done|]. right. split. { pose proof (proj1 (foc_split _ _ _) H) as ((Hz0 & _) & _). eexists. split; [exact Hz0|]. cbn. subst l r. done. } exists y, ky, vy, (io yr ++ ric fs ++ ric ctx). split; [|done]. rewrite E5. cbn. by rewrite <-app_assoc.
  Qed.
  Lemma delete_ok s t L R z k v : rbinv s t → io t = L ++ (z, (k, v)) :: R →
    wp (rb_Delete (Some z)) (λ _ s', ∃ t', rbinv s' t' ∧ rb_next s' = rb_next s ∧
      (io t' = L ++ R ∨ ∃ y ky vy R', R = (y, (ky, vy)) :: R' ∧ io t' = L ++ (z, (ky, vy)) :: R')) s.
  Proof using. intros H1 H2. eapply wp_mono; [by eapply delete_exact|]. cbv beta. intros _ s' (t' & ? & ? & Hd). exists t'. split_and!; [done|done|]. destruct Hd as [[_ Hd]|[_ Hd]]; auto. Qed.
End delete.
