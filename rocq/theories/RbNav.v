(** Navigation: minimum, maximum, successor, predecessor, First, Last. *)
From Verif Require Import Base Wp RbModel RbTree RbRot RbIns RbIns2.
Open Scope go_scope.

Section nav.
  Context {K V : Type}.
  Implicit Types (s : rb K V) (t : tree K V) (ctx cx : list (frame K V)).
  Lemma plug_app cx1 cx2 t : plug (cx1 ++ cx2) t = plug cx2 (plug cx1 t).
  Proof using. revert t. induction cx1 as [|f cx1 IH]; intros t; [done|]. cbn. apply IH. Qed.
  Lemma lic_app cx1 cx2 : lic (cx1 ++ cx2) = lic cx2 ++ lic cx1.
  Proof using. induction cx1 as [|[] cx1 IH]; cbn; [by rewrite app_nil_r|done|]. by rewrite IH, !app_assoc. Qed.
  Lemma ric_app cx1 cx2 : ric (cx1 ++ cx2) = ric cx1 ++ ric cx2.
  Proof using. induction cx1 as [|[] cx1 IH]; cbn; [done| |done]. by rewrite IH, !app_assoc. Qed.

  (** any position of the contents is some node in some context *)
  Lemma locate t L R a k v : io t = L ++ (a, (k, v)) :: R → ∃ ctx l c r, t = plug ctx (N l a c k v r) ∧ L = lic ctx ++ io l ∧ R = io r ++ ric ctx.
  Proof using.
    revert L R. induction t as [|l IHl b c kb vb r IHr]; intros L R E1; cbn in E1; [by destruct L|].
    apply app_eq_inv in E1 as [(M & El & E2)|(M & -> & E2)].
    - destruct M as [|m M]; cbn in E2.
      + injection E2 as -> -> -> ->. rewrite app_nil_r in El. subst L. exists [], l, c, r. cbn. by rewrite !app_nil_r.
      + injection E2 as <- ->. destruct (IHl L M El) as (ctx & l' & c' & r' & -> & -> & ->).
        exists (ctx ++ [FL b c kb vb r]), l', c', r'. rewrite plug_app, lic_app, ric_app. cbn. split; [done|]. split; [done|]. by rewrite <-!app_assoc, app_nil_r.
    - destruct M as [|m M]; cbn in E2.
      + injection E2 as <- <- <- <-. exists [], l, c, r. cbn. by rewrite !app_nil_r.
      + injection E2 as <- E2. destruct (IHr M R E2) as (ctx & l' & c' & r' & -> & -> & ->).
        exists (ctx ++ [FR l b c kb vb]), l', c', r'. rewrite plug_app, lic_app, ric_app. cbn. rewrite app_nil_r. split; [done|]. split; [|done]. by rewrite <-!app_assoc.
  Qed.
  Lemma min_ok f ctx t s : rbrep s (plug ctx t) → t ≠ E → (length (io t) <= f)%nat →
    ∃ fs a c k v r, minimum_loop f (rootp t) s = Ok (Some a, s) ∧ t = plug fs (N E a c k v r) ∧ lic fs = [] ∧ io t = (a, (k, v)) :: io r ++ ric fs.
  Proof using.
    revert ctx t. induction f as [|f IH]; intros ctx t H Ht Hf.
    - destruct t; cbn in Hf; [done|]. rewrite app_length in Hf. cbn in Hf. lia.
    - destruct t as [|l a c k v r]; [done|]. cbn [minimum_loop rootp]. unfold left, mbind_. rewrite (foc_get _ _ _ _ _ _ _ _ H). cbn [n_left mret_].
      destruct l as [|ll la lc lk lv lr]; cbn [rootp]; [by exists [], a, c, k, v, r; cbn; rewrite app_nil_r|].
      destruct (IH (FL a c k v r :: ctx) (N ll la lc lk lv lr)) as (fs & b & cb & kb & vb & rb' & E1 & E2 & E3 & E4); [exact H|done|cbn in Hf |- *; rewrite !app_length in *; cbn in *; lia|].
      exists (fs ++ [FL a c k v r]), b, cb, kb, vb, rb'. cbn [rootp] in E1. rewrite plug_app, lic_app, ric_app, <-E2, E3. split_and!; try done.
      change (io (N (N ll la lc lk lv lr) a c k v r)) with (io (N ll la lc lk lv lr) ++ (a, (k, v)) :: io r). rewrite E4. cbn. by rewrite <-!app_assoc, app_nil_r.
  Qed.
  Lemma max_ok f ctx t s : rbrep s (plug ctx t) → t ≠ E → (length (io t) <= f)%nat →
    ∃ a k v L, maximum_loop f (rootp t) s = Ok (Some a, s) ∧ io t = L ++ [(a, (k, v))].
  Proof using.
    revert ctx t. induction f as [|f IH]; intros ctx t H Ht Hf.
    - destruct t; cbn in Hf; [done|]. rewrite app_length in Hf. cbn in Hf. lia.
    - destruct t as [|l a c k v r]; [done|]. cbn [maximum_loop rootp]. unfold right, mbind_. rewrite (foc_get _ _ _ _ _ _ _ _ H). cbn [n_right mret_].
      destruct r as [|rl ra rc rk rv rr]; cbn [rootp]; [by exists a, k, v, (io l)|].
      destruct (IH (FR l a c k v :: ctx) (N rl ra rc rk rv rr)) as (b & kb & vb & L & E1 & E2); [exact H|done|cbn in Hf |- *; rewrite !app_length in *; cbn in *; rewrite ?app_length in *; cbn in *; lia|].
      exists b, kb, vb, (io l ++ (a, (k, v)) :: L). split; [done|].
      change (io (N l a c k v (N rl ra rc rk rv rr))) with (io l ++ (a, (k, v)) :: io (N rl ra rc rk rv rr)). rewrite E2. by rewrite <-app_assoc.
  Qed.
  Lemma sub_count ctx t : (length (io t) <= length (io (plug ctx t)))%nat.
  Proof using. pose proof (ctx_count ctx t). lia. Qed.
  Lemma minimum_ok ctx t s : rbrep s (plug ctx t) → t ≠ E →
    ∃ fs a c k v r, minimum (rootp t) s = Ok (Some a, s) ∧ t = plug fs (N E a c k v r) ∧ lic fs = [] ∧ io t = (a, (k, v)) :: io r ++ ric fs.
  Proof using. intros H Ht. unfold minimum, mbind_, fuel. apply (min_ok _ ctx); [done|done|]. pose proof (count_ok _ _ H). pose proof (sub_count ctx t). lia. Qed.
  Lemma maximum_ok ctx t s : rbrep s (plug ctx t) → t ≠ E → ∃ a k v L, maximum (rootp t) s = Ok (Some a, s) ∧ io t = L ++ [(a, (k, v))].
  Proof using. intros H Ht. unfold maximum, mbind_, fuel. apply (max_ok _ ctx); [done|done|]. pose proof (count_ok _ _ H). pose proof (sub_count ctx t). lia. Qed.
  Lemma rd_left s ctx l a c k v r : rbrep s (plug ctx (N l a c k v r)) → left (Some a) s = Ok (rootp l, s).
  Proof using. intros H. unfold left, mbind_. by rewrite (foc_get _ _ _ _ _ _ _ _ H). Qed.
  Lemma rd_right s ctx l a c k v r : rbrep s (plug ctx (N l a c k v r)) → right (Some a) s = Ok (rootp r, s).
  Proof using. intros H. unfold right, mbind_. by rewrite (foc_get _ _ _ _ _ _ _ _ H). Qed.
  Lemma rd_parent s ctx l a c k v r : rbrep s (plug ctx (N l a c k v r)) → parent (Some a) s = Ok (cpar ctx, s).
  Proof using. intros H. unfold parent, mbind_. by rewrite (foc_get _ _ _ _ _ _ _ _ H). Qed.
  Lemma rd_key s ctx l a c k v r : rbrep s (plug ctx (N l a c k v r)) → key (Some a) s = Ok (k, s).
  Proof using. intros H. unfold key, mbind_. by rewrite (foc_get _ _ _ _ _ _ _ _ H). Qed.
  Lemma rd_value s ctx l a c k v r : rbrep s (plug ctx (N l a c k v r)) → value (Some a) s = Ok (v, s).
  Proof using. intros H. unfold value, mbind_. by rewrite (foc_get _ _ _ _ _ _ _ _ H). Qed.
  Lemma rd_color s ctx l a c k v r : rbrep s (plug ctx (N l a c k v r)) → color (Some a) s = Ok (c, s).
  Proof using. intros H. unfold color, mbind_. by rewrite (foc_get _ _ _ _ _ _ _ _ H). Qed.
  Lemma succ_loop_ok f ctx t x s : rbrep s (plug ctx t) → rootp t = Some x → (length ctx < f)%nat → succ_loop f (Some x) (cpar ctx) s = Ok (fst <$> head (ric ctx), s).
  Proof using.
    revert ctx t x. induction f as [|f IH]; intros ctx t x H Hx Hf; [lia|]. destruct ctx as [|[a c k v r|l a c k v] ctx]; [done|..]; cbn [succ_loop cpar faddr]; cbn [plug plug1] in H; unfold mbind_; rewrite (rd_right _ _ _ _ _ _ _ _ H); unfold peq.
    - rewrite bool_decide_eq_false_2; [done|]. intros E1. symmetry in E1. apply rootp_in in E1. apply rootp_in in Hx.
      pose proof (rr_nodup _ _ H) as N1. rewrite ads_plug, ads_N in N1. apply NoDup_app in N1 as (_ & _ & N1). apply NoDup_app in N1 as (_ & N1 & _). apply (N1 x); [done|set_solver].
    - rewrite bool_decide_eq_true_2 by done. rewrite (rd_parent _ _ _ _ _ _ _ _ H). cbn [ric]. eapply IH; [exact H|done|cbn in Hf; lia].
  Qed.
  Lemma next_ok s t L R a k v : rbrep s t → io t = L ++ (a, (k, v)) :: R → next (Some a) s = Ok (fst <$> head R, s).
  Proof using.
    intros H E1. destruct (locate _ _ _ _ _ _ E1) as (ctx & l & c & r & -> & -> & ->). unfold next, successor, mbind_. rewrite (rd_right _ _ _ _ _ _ _ _ H).
    destruct r as [|rl ra rc rk rv rr]; cbn [rootp].
    - rewrite (rd_parent _ _ _ _ _ _ _ _ H). unfold fuel. cbn [io app]. eapply succ_loop_ok; [exact H|done|]. pose proof (count_ok _ _ H). pose proof (ctx_count ctx (N l a c k v E)). lia.
    - destruct (minimum_ok (FR l a c k v :: ctx) (N rl ra rc rk rv rr) s H ltac:(done)) as (fs & b & cb & kb & vb & rb' & E2 & E3 & E4 & E5). cbn [rootp] in E2. rewrite E2, E5. done.
  Qed.
  Lemma pred_loop_ok f ctx l x c k v r s : rbrep s (plug ctx (N l x c k v r)) → (length ctx < f)%nat → pred_loop f (Some x) s = Ok (fst <$> last (lic ctx), s).
  Proof using.
    revert ctx l x c k v r. induction f as [|f IH]; intros ctx l x c k v r H Hf; [lia|]. cbn [pred_loop]. unfold mbind_. rewrite (rd_parent _ _ _ _ _ _ _ _ H).
    destruct ctx as [|[a ca ka va ra|la a ca ka va] ctx]; [done|..]; cbn [cpar faddr]; rewrite (rd_left s ctx _ _ _ _ _ _ H); unfold peq.
    - rewrite bool_decide_eq_true_2 by done. cbn [lic]. eapply IH; [exact H|cbn in Hf; lia].
    - rewrite bool_decide_eq_false_2. { rewrite (rd_parent _ _ _ _ _ _ _ _ H). cbn [lic cpar faddr]. by rewrite !last_app. }
      intros E1. apply rootp_in in E1. cbn [plug plug1] in H. pose proof (rr_nodup _ _ H) as N1. rewrite ads_plug, !ads_N in N1. apply NoDup_app in N1 as (_ & _ & N1). apply NoDup_app in N1 as (_ & N1 & _). apply (N1 x); [done|set_solver].
  Qed.
  Lemma prev_ok s t L R a k v : rbrep s t → io t = L ++ (a, (k, v)) :: R → prev (Some a) s = Ok (fst <$> last L, s).
  Proof using.
    intros H E1. destruct (locate _ _ _ _ _ _ E1) as (ctx & l & c & r & -> & -> & ->). unfold prev, presuccessor, mbind_. rewrite (rd_left _ _ _ _ _ _ _ _ H).
    destruct l as [|ll la lc lk lv lr]; cbn [rootp].
    - rewrite (rd_parent _ _ _ _ _ _ _ _ H). cbn [io]. rewrite app_nil_r.
      destruct ctx as [|[b cb kb vb rb'|lb b cb kb vb] ctx]; [done|..]; cbn [cpar faddr]; rewrite (rd_right s ctx _ _ _ _ _ _ H); unfold peq.
      + rewrite bool_decide_eq_false_2. { unfold fuel. eapply pred_loop_ok; [exact H|]. pose proof (count_ok _ _ H). pose proof (ctx_count (FL b cb kb vb rb' :: ctx) (N E a c k v r)). lia. }
        intros E2. apply rootp_in in E2. cbn [plug plug1] in H. pose proof (rr_nodup _ _ H) as N1. rewrite ads_plug, !ads_N in N1. apply NoDup_app in N1 as (_ & _ & N1). apply NoDup_app in N1 as (_ & N1 & _). apply (N1 a); set_solver.
      + rewrite bool_decide_eq_true_2 by done. rewrite (rd_parent _ _ _ _ _ _ _ _ H). cbn [lic cpar faddr]. by rewrite !last_app.
    - destruct (maximum_ok (FL a c k v r :: ctx) (N ll la lc lk lv lr) s H ltac:(done)) as (b & kb & vb & L & E2 & E3). cbn [rootp] in E2. rewrite E2, E3. by rewrite !last_app.
  Qed.
  Lemma first_ok s t : rbrep s t → rb_First s = Ok (fst <$> head (io t), s).
  Proof using.
    intros H. unfold rb_First, mbind_, get_root. rewrite (rr_root _ _ H). destruct t as [|l a c k v r] eqn:Et; [done|]. rewrite <-Et in *. assert (rootp t = Some a) as Hr by by rewrite Et. rewrite Hr, <-Hr.
    destruct (minimum_ok [] t s H ltac:(by rewrite Et)) as (fs & b & cb & kb & vb & rb' & E2 & E3 & E4 & E5). by rewrite E2, E5.
  Qed.
  Lemma last_ok s t : rbrep s t → rb_Last s = Ok (fst <$> last (io t), s).
  Proof using.
    intros H. unfold rb_Last, mbind_, get_root. rewrite (rr_root _ _ H). destruct t as [|l a c k v r] eqn:Et; [done|]. rewrite <-Et in *. assert (rootp t = Some a) as Hr by by rewrite Et. rewrite Hr, <-Hr.
    destruct (maximum_ok [] t s H ltac:(by rewrite Et)) as (b & kb & vb & L & E2 & E3). rewrite E2, E3. by rewrite last_snoc.
  Qed.
  Lemma key_ok s t L R a k v : rbrep s t → io t = L ++ (a, (k, v)) :: R → key (Some a) s = Ok (k, s).
  Proof using. intros H E1. destruct (locate _ _ _ _ _ _ E1) as (ctx & l & c & r & -> & -> & ->). by eapply rd_key. Qed.
  Lemma value_ok s t L R a k v : rbrep s t → io t = L ++ (a, (k, v)) :: R → value (Some a) s = Ok (v, s).
  Proof using. intros H E1. destruct (locate _ _ _ _ _ _ E1) as (ctx & l & c & r & -> & -> & ->). by eapply rd_value. Qed.
  Lemma unplug_ok m ctx t : rbt m BLACK (plug ctx t) → ∃ n b c, ctxok ctx n b ∧ rbt n c t ∧ (c = RED → b = true).
  Proof using.
    revert t. induction ctx as [|f ctx IH]; intros t Ht; [by exists m, false, BLACK; split_and!; [constructor|..]|].
    cbn in Ht. destruct (IH _ Ht) as (n & b & c & Hc & Hn & Hb). destruct f as [a ca k v r|l a ca k v]; cbn in Hn; inversion Hn; subst.
    - specialize (Hb eq_refl). subst b. exists n, false, BLACK. split_and!; [by constructor|done|done].
    - eexists _, true, _. split_and!; [by econstructor|done|done].
    - specialize (Hb eq_refl). subst b. exists n, false, BLACK. split_and!; [by constructor|done|done].
    - eexists _, true, _. split_and!; [by econstructor|done|done].
  Qed.
  Lemma setval_ok s t L R a k v w : rbinv s t → io t = L ++ (a, (k, v)) :: R →
    wp (set_value (Some a) w) (λ _ s', ∃ t', rbinv s' t' ∧ rb_next s' = rb_next s ∧ io t' = L ++ (a, (k, w)) :: R) s.
  Proof using.
    intros [H [m Hm] Hz] E1. destruct (locate _ _ _ _ _ _ E1) as (ctx & l & c & r & -> & -> & ->). unfold set_value.
    eapply wp_mono; [eapply (foc_put s ctx _ _ _ _ _ _ _ c k w); [exact H|done]|]. cbv beta. intros _ s' [H' [Q1 Q2]]. exists (plug ctx (N l a c k w r)). split_and!; [|done|rewrite io_plug; cbn [io]; repeat (rewrite <-app_assoc; cbn [app]); done].
    split; [exact H'| |rewrite Q2, Hz, !io_plug, !app_length; cbn; rewrite !app_length; done].
    destruct (unplug_ok _ _ _ Hm) as (n & b & c' & Hc & Hn & Hb). eapply plug_ok; [exact Hc| |exact Hb]. inversion Hn; subst; by econstructor.
  Qed.
  Lemma clear_ok s : wp rb_Clear (λ _ s', rbinv s' E ∧ rb_next s' = rb_next s) s.
  Proof using. unfold rb_Clear. wp_go. eapply wp_eq; [reflexivity|]. split; [|done]. split; [split; done || constructor|by exists O; constructor|done]. Qed.
End nav.
