(** Delete leaves the node it unlinks alone: what Next gives at a node just deleted. *)
From Verif Require Import Base Wp RbModel RbTree RbRot RbIns RbIns2 RbDel RbNav RbDel2.
Open Scope go_scope.

Section frame.
  Context {K V : Type} (y : nat) (ny : node K V).
  Definition plus (s : rb K V) : rb K V := MkRb (<[y := ny]> (rb_heap s)) (rb_next s) (rb_root s) (rb_size s).
  (** a program that runs without the node y runs the same beside it *)
  Definition framed {A} (m : M (rb K V) A) : Prop := ∀ s r s', m s = Ok (r, s') → rb_heap s !! y = None → m (plus s) = Ok (r, plus s') ∧ rb_heap s' !! y = None.
  Lemma fr_bind {A B} (m : M (rb K V) A) (g : A → M (rb K V) B) : framed m → (∀ r, framed (g r)) → framed (mbind_ m g).
  Proof using.
    intros Hm Hg s r s' E Hy. unfold mbind_ in *. destruct (m s) as [[x s1]| |] eqn:E1; try done. destruct (Hm _ _ _ E1 Hy) as [-> Hy1]. by apply (Hg x).
  Qed.
  Lemma fr_ret {A} (x : A) : framed (mret_ x).
  Proof using. intros s r s' E Hy. unfold mret_ in *. by injection E as -> ->. Qed.
  Lemma fr_get p : framed (get p).
  Proof using.
    intros s r s' E Hy. unfold get in *. destruct p as [a|]; [|done]. destruct (rb_heap s !! a) as [n|] eqn:En; [|done]. injection E as -> ->.
    cbn. rewrite lookup_insert_ne by (intros ->; congruence). by rewrite En.
  Qed.
  Lemma fr_put p g : framed (put p g).
  Proof using.
    intros s r s' E Hy. unfold put in *. destruct p as [a|]; [|done]. destruct (rb_heap s !! a) as [n|] eqn:En; [|done]. injection E as -> <-.
    assert (y ≠ a) by (intros ->; congruence). cbn. rewrite lookup_insert_ne by done. rewrite En. rewrite lookup_insert_ne by done. split; [|done]. unfold plus. cbn. by rewrite insert_commute.
  Qed.
  Lemma fr_get_root : framed get_root. Proof using. intros s r s' E Hy. unfold get_root in *. by injection E as <- <-. Qed.
  Lemma fr_set_root p : framed (set_root p). Proof using. intros s r s' E Hy. unfold set_root in *. by injection E as <- <-. Qed.
  Lemma fr_get_size : framed get_size. Proof using. intros s r s' E Hy. unfold get_size in *. by injection E as <- <-. Qed.
  Lemma fr_set_size n : framed (set_size n). Proof using. intros s r s' E Hy. unfold set_size in *. by injection E as <- <-. Qed.
  Lemma fr_steps : framed fuel. Proof using. intros s r s' E Hy. unfold fuel in *. by injection E as <- <-. Qed.
End frame.
Ltac frm := repeat first [ apply fr_ret | apply fr_get | apply fr_put | apply fr_get_root | apply fr_set_root | apply fr_get_size | apply fr_set_size | apply fr_steps
  | progress unfold left, right, parent, color, get_color, key, value | apply fr_bind; [|intros] | match goal with |- framed _ _ (if ?b then _ else _) => destruct b | |- framed _ _ (match ?p with _ => _ end) => destruct p end ].
Section frame2.
  Context {K V : Type} (y : nat) (ny : node K V).
  Lemma fr_left_rotate p : framed y ny (left_rotate p). Proof using. unfold left_rotate. frm. Qed.
  Lemma fr_right_rotate p : framed y ny (right_rotate p). Proof using. unfold right_rotate. frm. Qed.
  Lemma fr_fixup_left p : framed y ny (fixup_left p). Proof using. unfold fixup_left. pose proof fr_left_rotate. pose proof fr_right_rotate. frm; auto. Qed.
  Lemma fr_fixup_right p : framed y ny (fixup_right p). Proof using. unfold fixup_right. pose proof fr_left_rotate. pose proof fr_right_rotate. frm; auto. Qed.
  Lemma fr_loop f : ∀ x p, framed y ny (delete_fixup_loop f x p).
  Proof using. induction f as [|f IH]; intros x p; cbn [delete_fixup_loop]; [by intros s r s' E|]. pose proof fr_fixup_left. pose proof fr_fixup_right. frm; auto. Qed.
  Lemma fr_delete_fixup x p : framed y ny (delete_fixup x p). Proof using. unfold delete_fixup. pose proof fr_loop. frm; auto. Qed.
End frame2.

Section deleted.
  Context {K V : Type}.
  Implicit Types (s : rb K V) (t : tree K V) (ctx : list (frame K V)).
  (** the state without node z *)
  Definition minus (z : nat) s : rb K V := MkRb (delete z (rb_heap s)) (rb_next s) (rb_root s) (rb_size s).
  Lemma plus_minus z n s : rb_heap s !! z = Some n → plus z n (minus z s) = s.
  Proof using. intros H. destruct s as [h nx r sz]. unfold plus, minus. cbn in *. by rewrite insert_delete. Qed.
  Lemma rbrep_minus z s t : rbrep s t → z ∉ ads t → rbrep (minus z s) t.
  Proof using.
    intros [H1 H2 H3 H4] Hz. split; [|done..]. cbn. eapply rep_frame; [|exact H1]. intros a Ha. rewrite lookup_delete_ne; [done|]. by intros ->.
  Qed.
  Lemma rep_at h par t a : rep h par t → a ∈ ads t → ∃ n : node K V, h !! a = Some n ∧ ∀ b, n_right n = Some b → b ∈ ads t.
  Proof using.
    revert par. induction t as [|l IHl b c k v r IHr]; intros par H Ha; [by apply elem_of_nil in Ha|]. destruct H as (Hb & Hl & Hr). rewrite ads_N in Ha |- *.
    apply elem_of_app in Ha as [Ha|[->|Ha]%elem_of_cons].
    - destruct (IHl _ Hl Ha) as (n & Hn & Hnr). exists n. split; [done|]. intros b' Hb'. apply elem_of_app. left. by apply Hnr.
    - eexists. split; [exact Hb|]. cbn. intros b' Hb'. apply elem_of_app. right. right. destruct r as [|rl ra rc rk rv rr]; [done|]. cbn in Hb'. injection Hb' as <-. rewrite ads_N. apply elem_of_app. right. left.
    - destruct (IHr _ Hr Ha) as (n & Hn & Hnr). exists n. split; [done|]. intros b' Hb'. apply elem_of_app. right. right. by apply Hnr.
  Qed.
  (** the node unlinked is left as it was; its right child, if any, has no left child *)
  Lemma delete_stale s ctx l z c k v r : rbinv s (plug ctx (N l z c k v r)) → l = E ∨ r = E →
    wp (rb_Delete (Some z)) (λ _ s', rb_heap s' !! z = Some (MkNode (cpar ctx) (rootp l) (rootp r) c k v) ∧
      ∀ a, rootp r = Some a → (∃ kv, io r = [(a, kv)]) ∧ ∃ n, rb_heap s' !! a = Some n ∧ n_left n = None) s.
  Proof using.
    intros [H [m Hm] _] Hlr. assert (∃ x, (l = E ∧ x = r) ∨ (r = E ∧ x = l)) as [x Hx] by naive_solver.
    change (rb_Delete (Some z)) with (let! zl := left (K := K) (V := V) (Some z) in
      let! y := (match zl with None => mret_ (Some z) | _ => let! zr := right (Some z) in match zr with None => mret_ (Some z) | _ => successor (Some z) end end) in del_rest (Some z) y).
    apply wp_bind. eapply wp_eq; [by eapply rd_left|]. apply wp_bind. apply (wp_eq _ _ _ (Some z) s).
    { destruct Hlr as [->| ->]; [done|]. destruct (rootp l); [|done]. unfold mbind_. by rewrite (rd_right _ _ _ _ _ _ _ _ H). }
    assert (Hzx : z ∉ ads (plug ctx x)).
    { pose proof (rr_nodup _ _ H) as Hnd. rewrite ads_plug, ads_N in Hnd. rewrite ads_plug. destruct Hx as [[-> ->]|[-> ->]]; change (ads E) with (@nil nat) in Hnd.
      - cbn [app] in Hnd. apply NoDup_app in Hnd as (_ & N2 & N3). apply NoDup_cons in N3 as [N3 _]. intros [Hc|Hc]%elem_of_app; [|done]. apply (N2 z Hc). left.
      - apply NoDup_app in Hnd as (_ & N2 & N3). apply NoDup_app in N3 as (_ & N3 & _). intros [Hc|Hc]%elem_of_app; [apply (N2 z Hc); apply elem_of_app; right; left|]. apply (N3 z Hc). left. }
    eapply del_rest_ok; [exact H|exact Hx|]. intros s1 H1 S1 Hz1. unfold peq. rewrite bool_decide_eq_true_2 by done. wp_go.
    apply wp_bind. eapply wp_eq. { unfold color, mbind_, get. rewrite Hz1. reflexivity. } cbn [n_color].
    destruct r as [|rl ra rc rk rv rr].
    - (* no right child *)
      pose proof (unlink_fix_ok ctx l z c k v E x (minus z s1) m (rbrep_minus z s1 _ H1 Hzx) Hm Hx) as Hu. apply wp_Ok in Hu as ([] & s2 & Eu & _).
      assert (Hfr : framed z (MkNode (cpar ctx) (rootp l) None c k v) (if c then delete_fixup (rootp x) (cpar ctx) else mret_ tt)) by (destruct c; [apply fr_delete_fixup|apply fr_ret]).
      destruct (Hfr _ _ _ Eu) as [Eu' _]; [cbn; apply lookup_delete|]. rewrite plus_minus in Eu' by done.
      apply wp_bind. eapply wp_eq; [exact Eu'|]. wp_go. eapply wp_eq; [reflexivity|]. cbn. split; [apply lookup_insert|done].
    - destruct Hx as [[-> ->]|[? _]]; [|done]. destruct (unplug_ok _ _ _ Hm) as (n & b & c' & Hc & Hn & Hb).
      assert (c = BLACK ∧ rc = RED ∧ rl = E ∧ rr = E) as (-> & -> & -> & ->).
      { inversion Hn; subst; match goal with Hq : rbt _ _ E |- _ => inversion Hq; subst end.
        - match goal with Hq : rbt _ BLACK (N rl _ _ _ _ _) |- _ => inversion Hq end.
        - match goal with Hq : rbt _ _ (N rl _ _ _ _ _) |- _ => inversion Hq; subst end. repeat match goal with Hq : rbt 0 BLACK _ |- _ => inversion Hq; clear Hq; subst end. done. }
      pose proof (proj1 (foc_split _ _ _) H1) as ((Hra & _) & _). cbn [rootp] in Hra.
      assert (Hne : z ≠ ra). { intros ->. apply Hzx. rewrite ads_plug, ads_N. apply elem_of_app. right. apply elem_of_app. right. left. }
      change (if BLACK then delete_fixup (rootp (N E ra RED rk rv E)) (cpar ctx) else mret_ tt) with (delete_fixup (K := K) (V := V) (rootp (N E ra RED rk rv E)) (cpar ctx)).
      apply wp_bind. unfold delete_fixup. apply wp_bind. eapply wp_eq; [reflexivity|]. apply wp_bind. eapply wp_eq; [by apply (exit_red _ _ ctx)|]. cbn [rootp].
      eapply wp_eq. { unfold put. rewrite Hra. reflexivity. } wp_go. eapply wp_eq; [reflexivity|]. cbn. rewrite lookup_insert_ne by done. split; [done|]. intros a [= <-]. split; [by eexists|].
      rewrite lookup_insert. eexists. split; [reflexivity|]. done.
  Qed.
  (** Delete and then Next at the deleted node: the entry after it, unless the node had two subtrees (then its
      successor was moved into it and is passed over) or was a right child without right subtree (then: its parent). *)
  Lemma delete_next s t L R z k v : rbinv s t → io t = L ++ (z, (k, v)) :: R →
    ∃ s' t' p, rb_Delete (Some z) s = Ok (tt, s') ∧ rbinv s' t' ∧ rb_next s' = rb_next s ∧ next (Some z) s' = Ok (p, s') ∧
      ((L ≠ [] ∧ ∃ y kv R', R = (y, kv) :: R' ∧ io t' = L ++ (z, kv) :: R' ∧ p = fst <$> head R') ∨
       (io t' = L ++ R ∧ p = fst <$> head R) ∨
       (io t' = L ++ R ∧ ∃ a, p = Some a ∧ a ∈ L.*1)).
  Proof using.
    intros Hi E1. pose proof (delete_exact s t L R z k v Hi E1) as Hd. apply wp_Ok in Hd as ([] & s' & E2 & t' & Hi' & Hn' & Hd).
    destruct Hd as [[Hnf Hio]|[Hf (y & ky & vy & R' & -> & Hio)]].
    2:{ exists s', t', (fst <$> head R'). split_and!; [done|done|done|eapply next_ok; [apply Hi'|exact Hio]|]. left. split; [|by exists y, (ky, vy), R'].
        intros ->. destruct Hi as [H _ _]. destruct (locate _ _ _ _ _ _ E1) as (ctx & l & c & r & -> & El & _). apply (proj1 (foc_split _ _ _)) in H as ((Hz & _) & _). destruct Hf as (n & Hn & Hfl & _). rewrite Hz in Hn. injection Hn as <-. cbn in Hfl.
        destruct l as [|ll la lc lk lv lr]; [done|]. cbn in El. destruct (lic ctx); [|done]. by destruct (io ll). }
    destruct Hi as [H [m Hm] Hz]. destruct (locate _ _ _ _ _ _ E1) as (ctx & l & c & r & -> & -> & ->).
    assert (Hlr : l = E ∨ r = E).
    { destruct l as [|ll la lc lk lv lr]; [by left|]. destruct r as [|rl ra rc rk rv rr]; [by right|]. destruct Hnf. apply (proj1 (foc_split _ _ _)) in H as ((Hz0 & _) & _). eexists. split; [exact Hz0|]. done. }
    assert (Hi : rbinv s (plug ctx (N l z c k v r))) by (split; eauto).
    pose proof (wp_elim _ _ _ _ _ (delete_stale s ctx l z c k v r Hi Hlr) E2) as [Hst Hr].
    assert (Hzt : z ∉ ads t'). { unfold ads. rewrite Hio. pose proof (rr_nodup _ _ H) as Hnd. unfold ads in Hnd. rewrite E1, fmap_app, fmap_cons in Hnd. rewrite fmap_app. apply NoDup_app in Hnd as (_ & N2 & N3). apply NoDup_cons in N3 as [N3 _]. intros [Hc|Hc]%elem_of_app; [|done]. apply (N2 _ Hc). left. }
    assert (Hn1 : right (Some z) s' = Ok (rootp r, s')) by (unfold right, mbind_, get; by rewrite Hst).
    assert (Hn2 : parent (Some z) s' = Ok (cpar ctx, s')) by (unfold parent, mbind_, get; by rewrite Hst).
    destruct (rootp r) as [a|] eqn:Er.
    - destruct (Hr a eq_refl) as ((kv & Er1) & n & Hn & Hnl). exists s', t', (Some a). split_and!; [done|done|done| |].
      + unfold next, successor, mbind_. rewrite Hn1. unfold minimum, fuel, mbind_. cbn [minimum_loop]. unfold left, mbind_, get. rewrite Hn. by rewrite Hnl.
      + right. left. split; [done|]. rewrite Er1. done.
    - destruct r; [|done]. assert (Hs : ∀ p, p ∈ ads t' → cpar ctx = Some p → next (Some z) s' = Ok (Some p, s')).
      { intros p Hp Ec. rewrite Ec in Hn2. unfold next, successor, mbind_. rewrite Hn1, Hn2. unfold fuel. cbn [succ_loop]. destruct (rep_at _ _ _ p (rr_rep _ _ (ri_rep _ _ Hi')) Hp) as (n & Hn & Hnr).
        unfold mbind_, right, mbind_, get. rewrite Hn. cbn [mret_]. unfold mret_, peq. rewrite bool_decide_eq_false_2; [done|]. intros Heq. apply Hzt, Hnr. done. }
      destruct ctx as [|[p cp kp vp rp|lp p cp kp vp] ctx].
      + exists s', t', None. split_and!; [done|done|done| |by right; left]. unfold next, successor, mbind_. by rewrite Hn1, Hn2.
      + exists s', t', (Some p). split_and!; [done|done|done| |by right; left]. apply Hs; [|done]. unfold ads. rewrite Hio. cbn. rewrite !fmap_app. apply elem_of_app. right. left.
      + exists s', t', (Some p). split_and!; [done|done|done| |].
        * apply Hs; [|done]. unfold ads. rewrite Hio. cbn. rewrite !fmap_app. set_solver.
        * right. right. split; [done|]. exists p. split; [done|]. cbn. rewrite !fmap_app. set_solver.
  Qed.
End deleted.
