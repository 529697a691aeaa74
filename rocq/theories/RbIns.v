(** Red-black invariants and Insert. *)
From Verif Require Import Base Wp RbModel RbTree RbRot.

Section inv.
  Context {K V : Type}.
  Notation tree := (tree K V). Notation frame := (frame K V).
  (** [rbt n c t]: t is a red-black tree whose root has colour c, with n black nodes on every
      path *)
  Inductive rbt : nat → bool → tree → Prop :=
  | rbt_E : rbt 0 BLACK E
  | rbt_R n l a k v r : rbt n BLACK l → rbt n BLACK r → rbt n RED (N l a RED k v r)
  | rbt_B n cl cr l a k v r : rbt n cl l → rbt n cr r → rbt (S n) BLACK (N l a BLACK k v r).
  (** [ctxok ctx n b]: plugging a tree of black height n is fine, a red one only if b *)
  Inductive ctxok : list frame → nat → bool → Prop :=
  | ctx_nil n : ctxok [] n false
  | ctx_LB n b a k v r cr ctx : rbt n cr r → ctxok ctx (S n) b → ctxok (FL a BLACK k v r :: ctx) n true
  | ctx_RB n b a k v l cl ctx : rbt n cl l → ctxok ctx (S n) b → ctxok (FR l a BLACK k v :: ctx) n true
  | ctx_LR n a k v r ctx : rbt n BLACK r → ctxok ctx n true → ctxok (FL a RED k v r :: ctx) n false
  | ctx_RR n a k v l ctx : rbt n BLACK l → ctxok ctx n true → ctxok (FR l a RED k v :: ctx) n false.
  Lemma plug_ok ctx n b c t : ctxok ctx n b → rbt n c t → (c = RED → b = true) → ∃ m, rbt m BLACK (plug ctx t).
  Proof using.
    intros H. revert c t. induction H; intros c t Ht Hc; cbn.
    - destruct c; [by exists n|]. by specialize (Hc eq_refl).
    - eapply IHctxok; [by eapply rbt_B|done].
    - eapply IHctxok; [by eapply rbt_B|done].
    - destruct c; [|by specialize (Hc eq_refl)]. eapply IHctxok; [by eapply rbt_R|done].
    - destruct c; [|by specialize (Hc eq_refl)]. eapply IHctxok; [by eapply rbt_R|done].
  Qed.
  Lemma plug_ne ctx l a c k v r : rootp (plug ctx (N l a c k v r : tree)) ≠ None.
  Proof using. revert l a c k v r. induction ctx as [|[] ctx IH]; intros; cbn; [done|apply IH..]. Qed.
  Lemma rbt_weak n c t : rbt n c t → c = BLACK → rbt n BLACK t. Proof using. by intros H <-. Qed.
  Definition tcol (t : tree) : bool := match t with E => BLACK | N _ _ c _ _ _ => c end.
  Lemma rbt_col n c t : rbt n c t → tcol t = c. Proof using. by destruct 1. Qed.
  Lemma tcol_get s par t : rep (rb_heap s) par t → get_color (rootp t) s = Ok (tcol t, s).
  Proof using. destruct t; cbn; [done|]. intros (H & _). unfold color, mbind_, get. by rewrite H. Qed.
End inv.

(** the lookups a representation gives for the visible nodes *)
Ltac opn H := let R := fresh "R" in let C := fresh "C" in
  pose proof (proj1 (foc_split _ _ _) H) as (R & C & _); cbn [rep repc cpar faddr rootp] in R, C; destruct_and?.
Ltac flds := cbn [n_parent n_left n_right n_color n_key n_val rootp faddr cpar].
Ltac rd := apply wp_bind; eapply wp_eq; [unfold left, right, parent, color, key, value, mbind_, get, mret_;
   repeat match goal with H : rb_heap ?s !! ?a = Some _ |- context [rb_heap ?s !! ?a] => rewrite H end; reflexivity|]; flds.
Ltac forget := repeat match goal with H : rb_heap _ !! _ = Some _ |- _ => clear H | H : rep _ _ _ |- _ => clear H | H : repc _ _ _ _ |- _ => clear H end.
Ltac pk := let E1 := fresh in unfold peq; (rewrite bool_decide_eq_true_2 by done) || (rewrite bool_decide_eq_false_2 by (done || congruence)).
(** recolour the node at context [ctx] *)
Tactic Notation "recol" hyp(H) uconstr(ctx) constr(c) := forget;
  apply wp_bind; eapply wp_mono; [eapply (foc_put _ ctx _ _ _ _ _ _ _ c); [exact H|intros; unfold with_color; cbn; reflexivity]|]; cbv beta;
  let s' := fresh "s" in let S := fresh "Same" in clear H; intros _ s' [H S]; cbn [plug plug1] in H.
Tactic Notation "rotl" hyp(H) uconstr(ctx) := forget;
  apply wp_bind; eapply wp_mono; [eapply (left_rotate_ok _ ctx); exact H|]; cbv beta;
  let s' := fresh "s" in let S := fresh "Same" in clear H; intros _ s' [H S]; cbn [plug plug1] in H.
Tactic Notation "rotr" hyp(H) uconstr(ctx) := forget;
  apply wp_bind; eapply wp_mono; [eapply (right_rotate_ok _ ctx); exact H|]; cbv beta;
  let s' := fresh "s" in let S := fresh "Same" in clear H; intros _ s' [H S]; cbn [plug plug1] in H.
Ltac sames := unfold same in *; repeat match goal with H : same _ _ |- _ => unfold same in H | H : _ ∧ _ |- _ => destruct H end; split; congruence.

Ltac ionorm := cbn [plug plug1]; rewrite ?io_plug; cbn [io lic ric]; repeat (rewrite <-app_assoc; cbn [app]); reflexivity.
Section insert.
  Context {K V : Type}.
  Implicit Types (s : rb K V).
  Lemma loop_black s f ctx t z : rbrep s (plug ctx t) → rootp t = Some z →
    match ctx with FL _ c _ _ _ :: _ => c = BLACK | FR _ _ c _ _ :: _ => c = BLACK | [] => True end →
    insert_fixup_loop (S f) (Some z) s = Ok (tt, s).
  Proof using.
    intros H Ht Hc. destruct t as [|l a c k v r]; [done|]. cbn in Ht. simplify_eq. pose proof (foc_get _ _ _ _ _ _ _ _ H) as Hz.
    destruct ctx as [|[p cp kp vp u|u p cp kp vp] ctx]; cbn [insert_fixup_loop]; unfold parent at 1, mbind_; rewrite Hz; cbn [n_parent cpar faddr mret_]; [done|..];
      subst cp; unfold color, mbind_; cbn [plug plug1] in H; rewrite (foc_get _ _ _ _ _ _ _ _ H); done.
  Qed.
  Lemma ins_loop_ok f ctx n b l z k v r s : rbrep s (plug ctx (N l z RED k v r)) → rbt n BLACK l → rbt n BLACK r → ctxok ctx n b → (length ctx < f)%nat →
    wp (insert_fixup_loop f (Some z)) (λ _ s', ∃ t' m c, rbrep s' t' ∧ io t' = io (plug ctx (N l z RED k v r)) ∧ same s s' ∧ rbt m c t' ∧ rootp t' ≠ None) s.
  Proof using.
    revert ctx n b l z k v r s. induction f as [|f IH]; intros ctx n b l z k v r s H Hl Hr Hc Hf; [lia|].
    assert (rbt n RED (N l z RED k v r)) as Ht by by constructor.
    destruct Hc as [n|n b p kp vp u cu ctx Hu Hc|n b p kp vp u cu ctx Hu Hc|n p kp vp u ctx Hu Hc|n p kp vp u ctx Hu Hc].
    - eapply wp_eq; [eapply (loop_black s f [] _ z); [exact H|done|done]|]. eexists _, _, _. split_and!; done.
    - eapply wp_eq; [eapply (loop_black s f (FL _ _ _ _ _ :: _) _ z); [exact H|done|done]|].
      destruct (plug_ok _ _ _ _ _ Hc (rbt_B _ _ _ _ p kp vp _ Ht Hu) ltac:(done)) as [m Hm]. eexists _, m, _. split_and!; try done. apply plug_ne.
    - eapply wp_eq; [eapply (loop_black s f (FR _ _ _ _ _ :: _) _ z); [exact H|done|done]|].
      destruct (plug_ok _ _ _ _ _ Hc (rbt_B _ _ _ _ p kp vp _ Hu Ht) ltac:(done)) as [m Hm]. eexists _, m, _. split_and!; try done. apply plug_ne.
    - (* red parent, z is its left child *)
      inversion Hc as [|? b' g kg vg y cy ctx' Hy Hc'|? b' g kg vg y cy ctx' Hy Hc'| |]; subst; cbn [plug plug1] in H.
      + opn H. cbn [insert_fixup_loop]. rd. rd. rd. rd. pk. rd.
        apply wp_bind. eapply wp_eq; [by eapply tcol_get|]. rewrite (rbt_col _ _ _ Hy). destruct cy; cbn [negb].
        * rd. unfold peq. rewrite bool_decide_eq_false_2. 2:{ intros E1. symmetry in E1. apply rootp_in in E1. pose proof (rr_nodup _ _ H) as N1. rewrite ads_plug, !ads_N in N1.
             apply NoDup_app in N1 as (_ & _ & N1). apply NoDup_app in N1 as (N1 & _ & _). apply NoDup_app in N1 as (_ & N1 & _). apply (N1 z); [set_solver|]. set_solver. }
          wp_go. rd. recol H (FL _ _ _ _ _ :: ctx') BLACK. opn H. rd. recol H ctx' RED. rotr H ctx'.
          destruct f as [|f]; [cbn in *; lia|]. eapply wp_eq; [eapply (loop_black _ f (FL _ _ _ _ _ :: ctx') (N l z RED k v r)); [exact H|done|done]|].
          destruct (plug_ok ctx' (S n) b' BLACK (N (N l z RED k v r) p BLACK kp vp (N u g RED kg vg y)) Hc' ltac:(eapply rbt_B; [done|by constructor]) ltac:(done)) as [m Hm].
          eexists _, m, _. split_and!; [exact H| |sames|done|].
          { cbn [plug plug1]. ionorm. }
          { apply plug_ne. }
        * destruct y as [|yl ya yc yk yv yr]; [by inversion Hy|]. pose proof (rbt_col _ _ _ Hy) as Ey. cbn in Ey. subst yc. inversion Hy; subst.
          recol H (FL _ _ _ _ _ :: ctx') BLACK. recol H (FR _ _ _ _ _ :: ctx') BLACK. recol H ctx' RED.
          eapply wp_mono; [eapply (IH ctx' (S n) b'); [exact H|eapply rbt_B; done|eapply rbt_B; done|done|cbn in *; lia]|].
          cbv beta. intros _ s' (t' & m & c & Ht' & Hio & Hs & Hm & Hne). exists t', m, c. split_and!; [done| |sames|done|done]. rewrite Hio. cbn [plug plug1]. ionorm.
      + opn H. cbn [insert_fixup_loop]. rd. rd. rd. rd.
        unfold peq at 1. rewrite bool_decide_eq_false_2. 2:{ intros E1. symmetry in E1. apply rootp_in in E1. pose proof (rr_nodup _ _ H) as N1. rewrite ads_plug, !ads_N in N1.
             apply NoDup_app in N1 as (_ & _ & N1). apply NoDup_app in N1 as (_ & N1 & _). apply (N1 p); [done|]. set_solver. }
        rd. apply wp_bind. eapply wp_eq; [by eapply tcol_get|]. rewrite (rbt_col _ _ _ Hy). destruct cy; cbn [negb].
        * rd. pk. apply wp_bind. rotr H (FR _ _ _ _ _ :: ctx'). apply wp_ret. opn H. rd. recol H (FR _ _ _ _ _ :: ctx') BLACK. opn H. rd. recol H ctx' RED. rotl H ctx'.
          destruct f as [|f]; [cbn in *; lia|]. eapply wp_eq; [eapply (loop_black _ f (FR _ _ _ _ _ :: ctx') (N r p RED kp vp u)); [exact H|done|done]|].
          destruct (plug_ok ctx' (S n) b' BLACK (N (N y g RED kg vg l) z BLACK k v (N r p RED kp vp u)) Hc' ltac:(eapply rbt_B; by constructor) ltac:(done)) as [m Hm].
          eexists _, m, _. split_and!; [exact H| |sames|done|].
          { cbn [plug plug1]. ionorm. }
          { apply plug_ne. }
        * destruct y as [|yl ya yc yk yv yr]; [by inversion Hy|]. pose proof (rbt_col _ _ _ Hy) as Ey. cbn in Ey. subst yc. inversion Hy; subst.
          recol H (FR _ _ _ _ _ :: ctx') BLACK. recol H (FL _ _ _ _ _ :: ctx') BLACK. recol H ctx' RED.
          eapply wp_mono; [eapply (IH ctx' (S n) b'); [exact H|eapply rbt_B; done|eapply rbt_B; done|done|cbn in *; lia]|].
          cbv beta. intros _ s' (t' & m & c & Ht' & Hio & Hs & Hm & Hne). exists t', m, c. split_and!; [done| |sames|done|done]. rewrite Hio. cbn [plug plug1]. ionorm.
    - (* red parent, z is its right child *)
      inversion Hc as [|? b' g kg vg y cy ctx' Hy Hc'|? b' g kg vg y cy ctx' Hy Hc'| |]; subst; cbn [plug plug1] in H.
      + opn H. cbn [insert_fixup_loop]. rd. rd. rd. rd. pk. rd.
        apply wp_bind. eapply wp_eq; [by eapply tcol_get|]. rewrite (rbt_col _ _ _ Hy). destruct cy; cbn [negb].
        * rd. pk. apply wp_bind. rotl H (FL _ _ _ _ _ :: ctx'). apply wp_ret. opn H. rd. recol H (FL _ _ _ _ _ :: ctx') BLACK. opn H. rd. recol H ctx' RED. rotr H ctx'.
          destruct f as [|f]; [cbn in *; lia|]. eapply wp_eq; [eapply (loop_black _ f (FL _ _ _ _ _ :: ctx') (N u p RED kp vp l)); [exact H|done|done]|].
          destruct (plug_ok ctx' (S n) b' BLACK (N (N u p RED kp vp l) z BLACK k v (N r g RED kg vg y)) Hc' ltac:(eapply rbt_B; by constructor) ltac:(done)) as [m Hm].
          eexists _, m, _. split_and!; [exact H| |sames|done|].
          { ionorm. }
          { apply plug_ne. }
        * destruct y as [|yl ya yc yk yv yr]; [by inversion Hy|]. pose proof (rbt_col _ _ _ Hy) as Ey. cbn in Ey. subst yc. inversion Hy; subst.
          recol H (FL _ _ _ _ _ :: ctx') BLACK. recol H (FR _ _ _ _ _ :: ctx') BLACK. recol H ctx' RED.
          eapply wp_mono; [eapply (IH ctx' (S n) b'); [exact H|eapply rbt_B; done|eapply rbt_B; done|done|cbn in *; lia]|].
          cbv beta. intros _ s' (t' & m & c & Ht' & Hio & Hs & Hm & Hne). exists t', m, c. split_and!; [done| |sames|done|done]. rewrite Hio. ionorm.
      + opn H. cbn [insert_fixup_loop]. rd. rd. rd. rd.
        unfold peq at 1. rewrite bool_decide_eq_false_2. 2:{ intros E1. symmetry in E1. apply rootp_in in E1. pose proof (rr_nodup _ _ H) as N1. rewrite ads_plug, !ads_N in N1.
             apply NoDup_app in N1 as (_ & _ & N1). apply NoDup_app in N1 as (_ & N1 & _). apply (N1 p); [done|]. set_solver. }
        rd. apply wp_bind. eapply wp_eq; [by eapply tcol_get|]. rewrite (rbt_col _ _ _ Hy). destruct cy; cbn [negb].
        * rd. unfold peq. rewrite bool_decide_eq_false_2. 2:{ intros E1. symmetry in E1. apply rootp_in in E1. pose proof (rr_nodup _ _ H) as N1. rewrite ads_plug, !ads_N in N1.
             apply NoDup_app in N1 as (_ & _ & N1). apply NoDup_app in N1 as (_ & _ & N1). apply NoDup_cons in N1 as (_ & N1). apply NoDup_app in N1 as (_ & N1 & _). apply (N1 z); [done|]. set_solver. }
          wp_go. rd. recol H (FR _ _ _ _ _ :: ctx') BLACK. opn H. rd. recol H ctx' RED. rotl H ctx'.
          destruct f as [|f]; [cbn in *; lia|]. eapply wp_eq; [eapply (loop_black _ f (FR _ _ _ _ _ :: ctx') (N l z RED k v r)); [exact H|done|done]|].
          destruct (plug_ok ctx' (S n) b' BLACK (N (N y g RED kg vg u) p BLACK kp vp (N l z RED k v r)) Hc' ltac:(eapply rbt_B; [by constructor|done]) ltac:(done)) as [m Hm].
          eexists _, m, _. split_and!; [exact H| |sames|done|].
          { ionorm. }
          { apply plug_ne. }
        * destruct y as [|yl ya yc yk yv yr]; [by inversion Hy|]. pose proof (rbt_col _ _ _ Hy) as Ey. cbn in Ey. subst yc. inversion Hy; subst.
          recol H (FR _ _ _ _ _ :: ctx') BLACK. recol H (FL _ _ _ _ _ :: ctx') BLACK. recol H ctx' RED.
          eapply wp_mono; [eapply (IH ctx' (S n) b'); [exact H|eapply rbt_B; done|eapply rbt_B; done|done|cbn in *; lia]|].
          cbv beta. intros _ s' (t' & m & c & Ht' & Hio & Hs & Hm & Hne). exists t', m, c. split_and!; [done| |sames|done|done]. rewrite Hio. ionorm.
  Qed.
End insert.
