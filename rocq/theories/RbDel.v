(** Delete: the rebalancing loop. *)
From Verif Require Import Base Wp RbModel RbTree RbRot RbIns RbIns2.
Open Scope go_scope.

Section delfix.
  Context {K V : Type}.
  Implicit Types (s : rb K V) (t : tree K V).
  Definition blacken t : tree K V := match t with E => E | N l a _ k v r => N l a BLACK k v r end.
  (** the part of rbFixupLeft after its first if: the sibling w is black *)
  Definition tail_left (par w : ptr) : M (rb K V) ptr :=
    let! wl := left w in let! wlc := get_color wl in
    let! wr := right w in let! wrc := get_color wr in
    if wlc && wrc then put w (with_color RED) ;; mret_ par
    else
      let! w := (if wrc then
                   (match wl with None => mret_ tt | _ => put wl (with_color BLACK) end) ;;
                   put w (with_color RED) ;; right_rotate w ;; right par
                 else mret_ w) in
      let! pc := color par in
      put w (with_color pc) ;; put par (with_color BLACK) ;;
      let! wr := right w in
      (match wr with None => mret_ tt | _ => put wr (with_color BLACK) end) ;;
      left_rotate par ;; get_root.
  Definition tail_right (par w : ptr) : M (rb K V) ptr :=
    let! wl := left w in let! wlc := get_color wl in
    let! wr := right w in let! wrc := get_color wr in
    if wlc && wrc then put w (with_color RED) ;; mret_ par
    else
      let! w := (if wlc then
                   (match wr with None => mret_ tt | _ => put wr (with_color BLACK) end) ;;
                   put w (with_color RED) ;; left_rotate w ;; left par
                 else mret_ w) in
      let! pc := color par in
      put w (with_color pc) ;; put par (with_color BLACK) ;;
      let! wl := left w in
      (match wl with None => mret_ tt | _ => put wl (with_color BLACK) end) ;;
      right_rotate par ;; get_root.
  Lemma fixup_left_eq par : fixup_left par = (let! w := right par in let! wc := color w in
    let! w := (if negb wc then put w (with_color BLACK) ;; put par (with_color RED) ;; left_rotate par ;; right par else mret_ w) in tail_left par w).
  Proof using. reflexivity. Qed.
  Lemma fixup_right_eq par : fixup_right par = (let! w := left par in let! wc := color w in
    let! w := (if negb wc then put w (with_color BLACK) ;; put par (with_color RED) ;; right_rotate par ;; left par else mret_ w) in tail_right par w).
  Proof using. reflexivity. Qed.
  Definition lvl (c : bool) (n : nat) : nat := if c then S (S n) else S n.
  Lemma rbt_lvl c n l a k v r : rbt (S n) BLACK l → rbt (S n) BLACK r → rbt (lvl c n) c (N l a c k v r : tree K V).
  Proof using. destruct c; intros; [by eapply rbt_B|by eapply rbt_R]. Qed.
  Lemma tail_left_ok ctx n cl cr t p cp kp vp wl wa kw vw wr s :
    rbrep s (plug ctx (N t p cp kp vp (N wl wa BLACK kw vw wr))) → rbt n BLACK t → rbt n cl wl → rbt n cr wr →
    (∀ T, rbt (lvl cp n) cp T → ∃ m, rbt m BLACK (plug ctx T)) →
    wp (tail_left (Some p) (Some wa)) (λ x s', same s s' ∧
      ((x = Some p ∧ cl = BLACK ∧ cr = BLACK ∧ rbrep s' (plug ctx (N t p cp kp vp (N wl wa RED kw vw wr)))) ∨
       (∃ T m, x = rootp T ∧ rbrep s' T ∧ rbt m BLACK T ∧ io T = io (plug ctx (N t p cp kp vp (N wl wa BLACK kw vw wr)))))) s.
  Proof using.
    intros H Ht Hwl Hwr Hplug. opn H. unfold tail_left.
    rd. apply wp_bind. eapply wp_eq; [by eapply tcol_get|]. rd. apply wp_bind. eapply wp_eq; [by eapply tcol_get|].
    rewrite (rbt_col _ _ _ Hwl), (rbt_col _ _ _ Hwr).
    destruct cr; [destruct cl|].
    - cbn [andb]. recol H (FR _ _ _ _ _ :: ctx) RED. apply wp_ret. split; [done|]. left. done.
    - cbn [andb]. destruct wl as [|wll wla wlc wlk wlv wlr]; [by inversion Hwl|]. pose proof (rbt_col _ _ _ Hwl) as Ec. cbn in Ec. subst wlc. inversion Hwl; subst. cbn [rootp].
      apply wp_bind. recol H (FL _ _ _ _ _ :: FR _ _ _ _ _ :: ctx) BLACK. recol H (FR _ _ _ _ _ :: ctx) RED. rotr H (FR _ _ _ _ _ :: ctx). opn H.
      eapply wp_eq. { unfold right, mbind_, get. match goal with Hq : rb_heap _ !! p = Some _ |- _ => rewrite Hq end. reflexivity. } flds.
      rd. recol H (FR _ _ _ _ _ :: ctx) cp. recol H ctx BLACK. opn H. rd. recol H (FR _ _ _ _ _ :: FR _ _ _ _ _ :: ctx) BLACK. rotl H ctx.
      eapply wp_eq; [reflexivity|]. split; [sames|]. right.
      destruct (Hplug (N (N t p BLACK kp vp wll) wla cp wlk wlv (N wlr wa BLACK kw vw wr))) as [m Hm]. { apply rbt_lvl; by eapply rbt_B. }
      eexists _, m. split_and!; [apply (rr_root _ _ H)|exact H|exact Hm|ionorm].
    - rewrite andb_false_r. destruct wr as [|wrl wra wrc wrk wrv wrr]; [by inversion Hwr|]. pose proof (rbt_col _ _ _ Hwr) as Ec. cbn in Ec. subst wrc. inversion Hwr; subst. cbn [rootp].
      wp_go. rd. recol H (FR _ _ _ _ _ :: ctx) cp. recol H ctx BLACK. opn H. rd. recol H (FR _ _ _ _ _ :: FR _ _ _ _ _ :: ctx) BLACK. rotl H ctx.
      eapply wp_eq; [reflexivity|]. split; [sames|]. right.
      destruct (Hplug (N (N t p BLACK kp vp wl) wa cp kw vw (N wrl wra BLACK wrk wrv wrr))) as [m Hm]. { apply rbt_lvl; by eapply rbt_B. }
      eexists _, m. split_and!; [apply (rr_root _ _ H)|exact H|exact Hm|ionorm].
  Qed.
  Lemma tail_right_ok ctx n cl cr t p cp kp vp wl wa kw vw wr s :
    rbrep s (plug ctx (N (N wl wa BLACK kw vw wr) p cp kp vp t)) → rbt n BLACK t → rbt n cl wl → rbt n cr wr →
    (∀ T, rbt (lvl cp n) cp T → ∃ m, rbt m BLACK (plug ctx T)) →
    wp (tail_right (Some p) (Some wa)) (λ x s', same s s' ∧
      ((x = Some p ∧ cl = BLACK ∧ cr = BLACK ∧ rbrep s' (plug ctx (N (N wl wa RED kw vw wr) p cp kp vp t))) ∨
       (∃ T m, x = rootp T ∧ rbrep s' T ∧ rbt m BLACK T ∧ io T = io (plug ctx (N (N wl wa BLACK kw vw wr) p cp kp vp t))))) s.
  Proof using.
    intros H Ht Hwl Hwr Hplug. opn H. unfold tail_right.
    rd. apply wp_bind. eapply wp_eq; [by eapply tcol_get|]. rd. apply wp_bind. eapply wp_eq; [by eapply tcol_get|].
    rewrite (rbt_col _ _ _ Hwl), (rbt_col _ _ _ Hwr).
    destruct cl; [destruct cr|].
    - cbn [andb]. recol H (FL _ _ _ _ _ :: ctx) RED. apply wp_ret. split; [done|]. left. done.
    - cbn [andb]. destruct wr as [|wrl wra wrc wrk wrv wrr]; [by inversion Hwr|]. pose proof (rbt_col _ _ _ Hwr) as Ec. cbn in Ec. subst wrc. inversion Hwr; subst. cbn [rootp].
      apply wp_bind. recol H (FR _ _ _ _ _ :: FL _ _ _ _ _ :: ctx) BLACK. recol H (FL _ _ _ _ _ :: ctx) RED. rotl H (FL _ _ _ _ _ :: ctx). opn H.
      eapply wp_eq. { unfold left, mbind_, get. match goal with Hq : rb_heap _ !! p = Some _ |- _ => rewrite Hq end. reflexivity. } flds.
      rd. recol H (FL _ _ _ _ _ :: ctx) cp. recol H ctx BLACK. opn H. rd. recol H (FL _ _ _ _ _ :: FL _ _ _ _ _ :: ctx) BLACK. rotr H ctx.
      eapply wp_eq; [reflexivity|]. split; [sames|]. right.
      destruct (Hplug (N (N wl wa BLACK kw vw wrl) wra cp wrk wrv (N wrr p BLACK kp vp t))) as [m Hm]. { apply rbt_lvl; by eapply rbt_B. }
      eexists _, m. split_and!; [apply (rr_root _ _ H)|exact H|exact Hm|ionorm].
    - cbn [andb]. destruct wl as [|wll wla wlc wlk wlv wlr]; [by inversion Hwl|]. pose proof (rbt_col _ _ _ Hwl) as Ec. cbn in Ec. subst wlc. inversion Hwl; subst. cbn [rootp].
      wp_go. rd. recol H (FL _ _ _ _ _ :: ctx) cp. recol H ctx BLACK. opn H. rd. recol H (FL _ _ _ _ _ :: FL _ _ _ _ _ :: ctx) BLACK. rotr H ctx.
      eapply wp_eq; [reflexivity|]. split; [sames|]. right.
      destruct (Hplug (N (N wll wla BLACK wlk wlv wlr) wa cp kw vw (N wr p BLACK kp vp t))) as [m Hm]. { apply rbt_lvl; by eapply rbt_B. }
      eexists _, m. split_and!; [apply (rr_root _ _ H)|exact H|exact Hm|ionorm].
  Qed.
  (** what the loop needs of the subtree it works on: it is one black node short, or red *)
  Definition short (n : nat) t : Prop := rbt n BLACK t ∨ (tcol t = RED ∧ rbt (S n) BLACK (blacken t)).
  Definition fixed s0 s' (x : ptr) t0 : Prop := ∃ ctx t, x = rootp t ∧ rbrep s' (plug ctx t) ∧ io (plug ctx t) = io t0 ∧ same s0 s' ∧ ∃ m, rbt m BLACK (plug ctx (blacken t)).
  Lemma exit_red f s ctx t par : rbrep s (plug ctx t) → tcol t = RED → delete_fixup_loop (S f) (rootp t) par s = Ok (rootp t, s).
  Proof using.
    intros H Hr. destruct t as [|l a c k v r]; [done|]. cbn in Hr. subst c. cbn [delete_fixup_loop rootp]. unfold get_root, mbind_. destruct (peq _ _); [done|].
    unfold get_color, color, mbind_. by rewrite (foc_get _ _ _ _ _ _ _ _ H).
  Qed.
  Lemma exit_root f s par p : rb_root s = p → delete_fixup_loop (S f) p par s = Ok (p, s).
  Proof using. intros <-. cbn [delete_fixup_loop]. unfold get_root, mbind_, peq. by rewrite bool_decide_eq_true_2. Qed.
  Lemma blacken_id m t : rbt m BLACK t → blacken t = t. Proof using. by inversion 1. Qed.
  Lemma root_not_sub s f ctx t : rbrep s (plug (f :: ctx) t) → peq (rootp t) (rb_root s) = false.
  Proof using.
    intros H. unfold peq. apply bool_decide_eq_false_2. rewrite (rr_root _ _ H). intros E1.
    assert (∀ (ctx : list (frame K V)) T, ∃ a, (T = E → ctx ≠ []) → rootp (plug ctx T) = Some a ∧ (a ∈ cads ctx ∨ rootp T = Some a ∧ ctx = [])) as Hroot.
    { clear. intros ctx. induction ctx as [|g ctx IH]; intros T; cbn [plug].
      - destruct T as [|l a c k v r]; [exists 0%nat; intros Hq; by destruct (Hq eq_refl)|]. exists a. intros _. split; [done|]. by right.
      - destruct (IH (plug1 g T)) as [a Ha]. exists a. intros _. destruct Ha as [E1 Hd]; [by destruct g|]. split; [done|]. left.
        destruct g as [b c k v r|l b c k v]; [rewrite cads_FL|rewrite cads_FR]; destruct Hd as [Hd|[E2 _]]; [set_solver|cbn in E2; simplify_eq; set_solver|set_solver|cbn in E2; simplify_eq; set_solver]. }
    destruct (Hroot (f :: ctx) t) as [a Ha]. destruct Ha as [E2 Hd]; [done|]. rewrite E2 in E1. apply rootp_in in E1. destruct Hd as [Hd|[_ ?]]; [|done].
    pose proof (proj1 (foc_split _ _ _) H) as (_ & _ & Hnd & _). apply NoDup_app in Hnd as (_ & Hnd & _). by apply (Hnd a).
  Qed.
  Lemma del_loop_ok f ctx n b t par s : rbrep s (plug ctx t) → short n t → ctxok ctx (S n) b → (t = E → par = cpar ctx) → (length ctx < f)%nat →
    wp (delete_fixup_loop f (rootp t) par) (λ x s', fixed s s' x (plug ctx t)) s.
  Proof using.
    revert ctx n b t par s. induction f as [|f IH]; intros ctx n b t par s H Ht Hc Hpar Hf; [lia|].
    destruct Ht as [Ht|[Hr Ht]].
    2:{ eapply wp_eq; [by eapply exit_red|]. exists ctx, t. split_and!; try done. eapply plug_ok; [exact Hc|exact Ht|done]. }
    destruct ctx as [|fr ctx].
    { eapply wp_eq; [apply exit_root; apply (rr_root _ _ H)|]. exists [], t. split_and!; try done. exists n. cbn. by rewrite (blacken_id n). }
    assert (∃ p, cpar (fr :: ctx) = Some p) as [p Hp] by eauto.
    cbn [delete_fixup_loop]. wp_go. rewrite (root_not_sub _ _ _ _ H).
    apply wp_bind. eapply wp_eq. { eapply tcol_get. apply (proj1 (foc_split _ _ _) H). } rewrite (rbt_col _ _ _ Ht). cbn [negb].
    apply wp_bind. apply (wp_eq _ _ _ (Some p) s). { destruct t as [|l a c k v r]; cbn [rootp]; [by rewrite Hpar, Hp|]. unfold parent, mbind_. by rewrite (foc_get _ _ _ _ _ _ _ _ H), <-Hp. }
    (* the sibling *)
    destruct fr as [p' cp kp vp w|w p' cp kp vp]; cbn in Hp; injection Hp as ->.
    - opn H. rd. pk. rewrite fixup_left_eq.
      assert (∃ cw, rbt (S n) cw w ∧ (cp = RED → cw = BLACK) ∧ ∀ T, rbt (lvl cp n) cp T → ∃ m, rbt m BLACK (plug ctx T)) as (cw & Hw & Hcw & Hplug).
      { inversion Hc; subst.
        - exists cr. split; [done|]. split; [done|]. intros T HT. eapply plug_ok; [done|exact HT|done].
        - exists BLACK. split; [done|]. split; [done|]. intros T HT. eapply plug_ok; [done|exact HT|done]. }
      destruct w as [|wl wa wc kw vw wr]; [by inversion Hw|]. cbn [plug plug1 rootp rep repc] in *. destruct_and?. apply wp_bind. rd. rd.
      pose proof (rbt_col _ _ _ Hw) as Ec. cbn in Ec. subst wc. destruct cw; cbn [negb].
      + wp_go. inversion Hw; subst. forget. eapply wp_mono; [by eapply tail_left_ok|]. cbv beta. intros x s1 (Hs1 & [(-> & -> & -> & H1)|(T & m & -> & H1 & Hm & Hio)]).
        * destruct cp.
          -- inversion Hc; subst. eapply wp_mono; [eapply (IH ctx (S n) b0 (N t p BLACK kp vp (N wl wa RED kw vw wr))); [exact H1| |done|done|cbn in *; lia]|].
             { left. eapply rbt_B; [done|by constructor]. }
             cbv beta. intros x s2 (ctx2 & t2 & ? & ? & Hio & ? & ?). exists ctx2, t2. split_and!; try done; [rewrite Hio; ionorm|sames].
          -- destruct f as [|f]; [cbn in *; lia|]. eapply wp_eq; [eapply (exit_red f s1 ctx (N t p RED kp vp (N wl wa RED kw vw wr))); done|].
             eexists ctx, _. split; [done|]. split; [exact H1|]. split; [ionorm|]. split; [done|]. inversion Hc; subst. eapply (plug_ok ctx (S n) true BLACK); [done| |done]. cbn. eapply rbt_B; [done|by constructor].
        * destruct f as [|f]; [cbn in *; lia|]. eapply wp_eq; [eapply exit_root, (rr_root _ _ H1)|]. exists [], T. split_and!; try done. exists m. cbn. by rewrite (blacken_id m).
      + (* red sibling: the parent is black *)
        destruct cp; [|by specialize (Hcw eq_refl)]. inversion Hw; subst.
        match goal with Ha : rbt (S n) BLACK wl |- _ => rename Ha into Hwl end. match goal with Ha : rbt (S n) BLACK wr |- _ => rename Ha into Hwr end.
        apply wp_bind. recol H (FR _ _ _ _ _ :: ctx) BLACK. recol H ctx RED. rotl H ctx. opn H.
        destruct wl as [|wll wla wlc wlk wlv wlr]; [by inversion Hwl|]. pose proof (rbt_col _ _ _ Hwl) as Ec. cbn in Ec. subst wlc. cbn [rootp] in *.
        eapply wp_eq. { unfold right, mbind_, get. match goal with Hq : rb_heap _ !! p = Some _ |- _ => rewrite Hq end. reflexivity. } flds. forget. inversion Hwl; subst.
        eapply wp_mono; [eapply (tail_left_ok (FL wa BLACK kw vw wr :: ctx) n); [exact H|done|done|done|]|].
        { intros T HT. cbn. apply Hplug. cbn. eapply rbt_B; done. }
        destruct f as [|f]; [cbn in *; lia|].
        cbv beta. intros x s3 (Hs3 & [(-> & -> & -> & H3)|(T & m & -> & H3 & Hm & Hio)]).
        * eapply wp_eq; [eapply (exit_red f s3 (FL wa BLACK kw vw wr :: ctx) (N t p RED kp vp (N wll wla RED wlk wlv wlr))); done|].
          eexists (FL wa BLACK kw vw wr :: ctx), (N t p RED kp vp (N wll wla RED wlk wlv wlr)). split_and!; [done|exact H3|ionorm|sames|]. cbn. apply Hplug. cbn. eapply rbt_B; [|done]. eapply rbt_B; [done|by constructor].
        * eapply wp_eq; [eapply exit_root, (rr_root _ _ H3)|]. exists [], T. split_and!; try done; [cbn [plug]; rewrite Hio; ionorm|sames|]. exists m. cbn. by rewrite (blacken_id m).
    - opn H. rd. unfold peq. rewrite bool_decide_eq_false_2. 2:{ intros E1. assert (w ≠ E) as Hw0 by (intros ->; inversion Hc; subst; match goal with Hq : rbt (S n) _ E |- _ => inversion Hq end).
        destruct w as [|wl wa wc kw vw wr]; [done|]. cbn [rootp] in E1. apply rootp_in in E1. pose proof (rr_nodup _ _ H) as N1. cbn [plug plug1] in N1. rewrite ads_plug, !ads_N in N1.
        apply NoDup_app in N1 as (_ & _ & N1). apply NoDup_app in N1 as (_ & N1 & _). apply (N1 wa); [set_solver|]. set_solver. }
      rewrite fixup_right_eq.
      assert (∃ cw, rbt (S n) cw w ∧ (cp = RED → cw = BLACK) ∧ ∀ T, rbt (lvl cp n) cp T → ∃ m, rbt m BLACK (plug ctx T)) as (cw & Hw & Hcw & Hplug).
      { inversion Hc; subst.
        - exists cl. split; [done|]. split; [done|]. intros T HT. eapply plug_ok; [done|exact HT|done].
        - exists BLACK. split; [done|]. split; [done|]. intros T HT. eapply plug_ok; [done|exact HT|done]. }
      destruct w as [|wl wa wc kw vw wr]; [by inversion Hw|]. cbn [plug plug1 rootp rep repc] in *. destruct_and?. apply wp_bind. rd. rd.
      pose proof (rbt_col _ _ _ Hw) as Ec. cbn in Ec. subst wc. destruct cw; cbn [negb].
      + wp_go. inversion Hw; subst. forget. eapply wp_mono; [by eapply tail_right_ok|]. cbv beta. intros x s1 (Hs1 & [(-> & -> & -> & H1)|(T & m & -> & H1 & Hm & Hio)]).
        * destruct cp.
          -- inversion Hc; subst. eapply wp_mono; [eapply (IH ctx (S n) b0 (N (N wl wa RED kw vw wr) p BLACK kp vp t)); [exact H1| |done|done|cbn in *; lia]|].
             { left. eapply rbt_B; [by constructor|done]. }
             cbv beta. intros x s2 (ctx2 & t2 & ? & ? & Hio & ? & ?). exists ctx2, t2. split_and!; try done; [rewrite Hio; ionorm|sames].
          -- destruct f as [|f]; [cbn in *; lia|]. eapply wp_eq; [eapply (exit_red f s1 ctx (N (N wl wa RED kw vw wr) p RED kp vp t)); done|].
             eexists ctx, _. split; [done|]. split; [exact H1|]. split; [ionorm|]. split; [done|]. inversion Hc; subst. eapply (plug_ok ctx (S n) true BLACK); [done| |done]. cbn. eapply rbt_B; [by constructor|done].
        * destruct f as [|f]; [cbn in *; lia|]. eapply wp_eq; [eapply exit_root, (rr_root _ _ H1)|]. exists [], T. split_and!; try done. exists m. cbn. by rewrite (blacken_id m).
      + (* red sibling: the parent is black *)
        destruct cp; [|by specialize (Hcw eq_refl)]. inversion Hw; subst.
        match goal with Ha : rbt (S n) BLACK wl |- _ => rename Ha into Hwl end. match goal with Ha : rbt (S n) BLACK wr |- _ => rename Ha into Hwr end.
        apply wp_bind. recol H (FL _ _ _ _ _ :: ctx) BLACK. recol H ctx RED. rotr H ctx. opn H.
        destruct wr as [|wrl wra wrc wrk wrv wrr]; [by inversion Hwr|]. pose proof (rbt_col _ _ _ Hwr) as Ec. cbn in Ec. subst wrc. cbn [rootp] in *.
        eapply wp_eq. { unfold left, mbind_, get. match goal with Hq : rb_heap _ !! p = Some _ |- _ => rewrite Hq end. reflexivity. } flds. forget. inversion Hwr; subst.
        eapply wp_mono; [eapply (tail_right_ok (FR wl wa BLACK kw vw :: ctx) n); [exact H|done|done|done|]|].
        { intros T HT. cbn. apply Hplug. cbn. eapply rbt_B; done. }
        destruct f as [|f]; [cbn in *; lia|].
        cbv beta. intros x s3 (Hs3 & [(-> & -> & -> & H3)|(T & m & -> & H3 & Hm & Hio)]).
        * eapply wp_eq; [eapply (exit_red f s3 (FR wl wa BLACK kw vw :: ctx) (N (N wrl wra RED wrk wrv wrr) p RED kp vp t)); done|].
          eexists (FR wl wa BLACK kw vw :: ctx), (N (N wrl wra RED wrk wrv wrr) p RED kp vp t). split_and!; [done|exact H3|ionorm|sames|]. cbn. apply Hplug. cbn. eapply rbt_B; [done|]. eapply rbt_B; [by constructor|done].
        * eapply wp_eq; [eapply exit_root, (rr_root _ _ H3)|]. exists [], T. split_and!; try done; [cbn [plug]; rewrite Hio; ionorm|sames|]. exists m. cbn. by rewrite (blacken_id m).
  Qed.
  Lemma delete_fixup_ok ctx n b t s : rbrep s (plug ctx t) → short n t → ctxok ctx (S n) b →
    wp (delete_fixup (rootp t) (cpar ctx)) (λ _ s', same s s' ∧ ∃ T m, rbrep s' T ∧ rbt m BLACK T ∧ io T = io (plug ctx t)) s.
  Proof using.
    intros H Ht Hc. unfold delete_fixup. wp_go. apply wp_bind. eapply wp_mono; [eapply del_loop_ok; [exact H|done|done|done|]|].
    { pose proof (count_ok _ _ H). pose proof (ctx_count ctx t). lia. }
    cbv beta. intros x s1 (ctx1 & t1 & -> & H1 & Hio & Hs1 & m & Hm). destruct t1 as [|l a c k v r]; cbn [rootp].
    - apply wp_ret. split; [done|]. eexists _, m. split_and!; done.
    - eapply wp_mono; [eapply (foc_put s1 ctx1 _ _ _ _ _ _ _ BLACK k v); [exact H1|done]|]. cbv beta. intros _ s2 [H2 Hs2]. split; [sames|]. eexists _, m. split_and!; [exact H2|done|]. rewrite <-Hio, !io_plug. done.
  Qed.
End delfix.
