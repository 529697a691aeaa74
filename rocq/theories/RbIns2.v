(** Insert as a whole, and the invariant of a tree. *)
From Coq Require Export Sorted.
From Verif Require Import Base Wp RbModel RbTree RbRot RbIns.

Section count.
  Context {K V : Type}.
  Implicit Types (s : rb K V) (t : tree K V).
  Lemma count_ok s t : rbrep s t → (length (io t) <= rb_next s)%nat.
  Proof using.
    intros H. pose proof (rr_nodup _ _ H) as Hn. pose proof (rr_lt _ _ H) as Hl. rewrite <-(fmap_length fst). change ((io t).*1) with (ads t).
    rewrite <-(seq_length (rb_next s) 0). apply submseteq_length. apply NoDup_submseteq; [done|]. intros a Ha. rewrite Forall_forall in Hl. specialize (Hl a Ha). apply elem_of_seq. lia.
  Qed.
  Lemma ctx_count (ctx : list (frame K V)) t : (length ctx + length (io t) <= length (io (plug ctx t)))%nat.
  Proof using. revert t. induction ctx as [|[] ctx IH]; intros t; cbn; [lia|..]; etransitivity; [|apply IH|idtac|apply IH]; cbn; rewrite app_length; cbn; lia. Qed.
  Lemma fuel_eq s : fuel s = Ok (S (rb_next s), s). Proof using. done. Qed.
  Definition kle (cmp : K → K → Z) (x y : nat * (K * V)) : Prop := cmp x.2.1 y.2.1 <= 0.
  Record rbinv s t : Prop := {
    ri_rep : rbrep s t;
    ri_rbt : ∃ n, rbt n BLACK t;
    ri_size : rb_size s = Z.of_nat (length (io t));
  }.
  Lemma rbinv_new : rbinv rb_new E.
  Proof using. split; [split; done || constructor|by exists O; constructor|done]. Qed.
End count.

Lemma SS_app {A} (R : A → A → Prop) l1 l2 : StronglySorted R (l1 ++ l2) ↔ StronglySorted R l1 ∧ StronglySorted R l2 ∧ ∀ x y, x ∈ l1 → y ∈ l2 → R x y.
Proof.
  induction l1 as [|a l1 IH]; cbn.
  - split; [intros; split_and!; [constructor|done|set_solver]|tauto].
  - split.
    + intros [H1 H2]%StronglySorted_inv. apply IH in H1 as (H3 & H4 & H5). rewrite Forall_app in H2. destruct H2 as [H6 H7]. split_and!; [by constructor|done|].
      intros x y [->|Hx]%elem_of_cons Hy; [|by apply H5]. rewrite Forall_forall in H7. auto.
    + intros ([H1 H2]%StronglySorted_inv & H3 & H4). constructor; [apply IH; split_and!; [done|done|intros; apply H4; [set_solver|done]]|].
      apply Forall_app. split; [done|]. apply Forall_forall. intros. apply H4; [set_solver|done].
Qed.
Lemma SS_cons {A} (R : A → A → Prop) a l : StronglySorted R (a :: l) ↔ StronglySorted R l ∧ ∀ y, y ∈ l → R a y.
Proof. split; [intros [H1 H2]%StronglySorted_inv; rewrite Forall_forall in H2; done|intros [H1 H2]; constructor; [done|by apply Forall_forall]]. Qed.

Section insert.
  Context {K V : Type} (cmp : K → K → Z) (CO : CmpOK cmp).
  Implicit Types (s : rb K V) (t : tree K V).
  Lemma descend_ok f k ctx t s : rbrep s (plug ctx t) → (length (io t) < f)%nat →
    StronglySorted (kle cmp) (io (plug ctx t)) →
    (∀ x, x ∈ lic ctx → 0 <= cmp k x.2.1) → (∀ x, x ∈ ric ctx → cmp k x.2.1 < 0) →
    ∃ ctx', descend cmp f k (rootp t) (cpar ctx) s = Ok (cpar ctx', s) ∧ plug ctx t = plug ctx' E ∧ (∀ x, x ∈ lic ctx' → 0 <= cmp k x.2.1) ∧ (∀ x, x ∈ ric ctx' → cmp k x.2.1 < 0)
      ∧ (∀ n b c, ctxok ctx n b → rbt n c t → (c = RED → b = true) → ∃ b', ctxok ctx' 0 b').
  Proof using CO.
    revert ctx t. induction f as [|f IH]; intros ctx t H Hf Hs HL HR; [lia|].
    destruct t as [|l a c xk xv r].
    - exists ctx. split_and!; try done. intros n b c Hc Ht _. inversion Ht; subst. eauto.
    - cbn [descend rootp]. unfold key at 1, mbind_. rewrite (foc_get _ _ _ _ _ _ _ _ H). cbn [n_key mret_].
      rewrite io_plug in Hs. apply SS_app in Hs as (HsL & Hs & HsLR). cbn [io] in Hs, HsLR. rewrite <-app_assoc in Hs, HsLR. cbn [app] in Hs, HsLR. apply SS_app in Hs as (Hsl & Hs & Hslr). apply SS_cons in Hs as [Hs Hxr].
      cbn [io] in Hf. rewrite app_length in Hf. cbn [length] in Hf.
      destruct (Z.ltb_spec (cmp k xk) 0) as [Hlt|Hge].
      + unfold left, mbind_. rewrite (foc_get _ _ _ _ _ _ _ _ H). cbn [n_left mret_].
        destruct (IH (FL a c xk xv r :: ctx) l) as (ctx' & E1 & E2 & E3 & E4 & E5); [exact H|lia| |done| |exists ctx'; split_and!; try done].
        * cbn [plug plug1]. rewrite io_plug. cbn [io]. rewrite <-app_assoc. cbn. apply SS_app. split_and!; [done| |set_solver]. apply SS_app. split_and!; [done| |set_solver]. by apply SS_cons.
        * cbn [ric]. intros x [->|Hx]%elem_of_cons; [done|]. specialize (Hxr x Hx). unfold kle in Hxr. cbn in Hxr. by eapply cmp_lt_le_trans.
        * intros n b c' Hc Ht Hcb. inversion Ht; subst.
          -- rewrite (Hcb eq_refl) in Hc. eapply (E5 n false BLACK); [by eapply ctx_LR|done|done].
          -- eapply (E5 _ true cl); [by eapply ctx_LB|done|done].
      + unfold right, mbind_. rewrite (foc_get _ _ _ _ _ _ _ _ H). cbn [n_right mret_].
        destruct (IH (FR l a c xk xv :: ctx) r) as (ctx' & E1 & E2 & E3 & E4 & E5); [exact H|lia| | |done|exists ctx'; split_and!; try done].
        * cbn [plug plug1]. rewrite io_plug. cbn [io]. rewrite <-app_assoc. cbn. apply SS_app. split_and!; [done| |set_solver]. apply SS_app. split_and!; [done| |set_solver]. by apply SS_cons.
        * cbn [lic]. intros x [Hx|[Hx| ->%elem_of_list_singleton]%elem_of_app]%elem_of_app; [by apply HL| |done]. specialize (Hslr x (a, (xk, xv)) Hx ltac:(set_solver)). unfold kle in Hslr. cbn in Hslr.
          apply Z.nlt_ge. intros Hlt. pose proof (cmp_lt_le_trans _ CO _ _ _ Hlt Hslr). lia.
        * intros n b c' Hc Ht Hcb. inversion Ht; subst.
          -- rewrite (Hcb eq_refl) in Hc. eapply (E5 n false BLACK); [by eapply ctx_RR|done|done].
          -- eapply (E5 _ true cr); [by eapply ctx_RB|done|done].
  Qed.
  Lemma fresh_rep s par t n : rep (rb_heap s) par t → Forall (λ a, a < rb_next s)%nat (ads t) → rep (<[rb_next s := n]> (rb_heap s)) par t.
  Proof using. clear cmp CO. intros H Hl. apply rep_insert; [|done]. intros Hi. rewrite Forall_forall in Hl. specialize (Hl _ Hi). lia. Qed.
  (** after the allocation and the link, the new node sits in the hole *)
  Lemma attach_ok s ctx k v f q : rbrep s (plug ctx E) → ctx ≠ [] →
    match ctx with FL _ _ _ _ _ :: _ => f = with_left (Some (rb_next s)) | FR _ _ _ _ _ :: _ => f = with_right (Some (rb_next s)) | [] => False end →
    wp (put (cpar ctx) f) (λ _ s', rbrep s' (plug ctx (N E (rb_next s) RED k v E)) ∧ rb_next s' = S (rb_next s) ∧ rb_size s' = q)
      (MkRb (<[rb_next s := MkNode (cpar ctx) None None RED k v]> (rb_heap s)) (S (rb_next s)) (rb_root s) q).
  Proof using. clear cmp CO.
    intros (_ & Hc & Hnd & Hlt)%foc_split Hne Hf. cbn [ads io app] in Hnd, Hlt. change (ads E) with (@nil nat) in Hnd, Hlt. rewrite app_nil_r in Hnd, Hlt.
    assert (rb_next s ∉ cads ctx) as Hfr. { intros Hi. rewrite Forall_forall in Hlt. specialize (Hlt _ Hi). lia. }
    assert (repc (<[rb_next s := MkNode (cpar ctx) None None RED k v]> (rb_heap s)) ctx None (rb_root s)) as Hc1 by by apply repc_insert.
    assert (∀ h, h !! rb_next s = Some (MkNode (cpar ctx) None None RED k v) → repc h ctx (Some (rb_next s)) (rb_root s) →
       rbrep (MkRb h (S (rb_next s)) (rb_root s) q) (plug ctx (N E (rb_next s) RED k v E))) as Hfin.
    { intros h Hz Hh. apply foc_split. cbn. split_and!; try done.
      - change (ads (N E (rb_next s) RED k v E)) with [rb_next s]. apply NoDup_app. split_and!; [done| |apply NoDup_singleton]. intros e He ->%elem_of_list_singleton. done.
      - change (ads (N E (rb_next s) RED k v E)) with [rb_next s]. apply Forall_app. split; [eapply Forall_impl; [exact Hlt|]; cbn; lia|]. constructor; [lia|constructor]. }
    destruct ctx as [|[a c ka va r|l a c ka va] ctx]; [done|..]; subst f; cbn [cpar faddr] in *; destruct Hc1 as (H1 & H2 & H3); unfold put; (eapply wp_eq; [cbn [rb_heap]; rewrite H1; reflexivity|]); (split; [|done]); cbn [rb_heap rb_next rb_root rb_size]; apply Hfin; cbn.
    - rewrite lookup_insert_ne, lookup_insert; [done|]. rewrite cads_FL in Hfr. set_solver.
    - rewrite cads_FL in Hnd. apply NoDup_cons in Hnd as [N1 N2]. split_and!; [by rewrite lookup_insert|apply rep_insert; [set_solver|done]|apply repc_insert; [set_solver|done]].
    - rewrite lookup_insert_ne, lookup_insert; [done|]. rewrite cads_FR in Hfr. set_solver.
    - rewrite cads_FR in Hnd. apply NoDup_cons in Hnd as [N1 N2]. split_and!; [by rewrite lookup_insert|apply rep_insert; [set_solver|done]|apply repc_insert; [set_solver|done]].
  Qed.
  Lemma insert_ok s t k v : rbinv s t → StronglySorted (kle cmp) (io t) →
    wp (rb_insert_node cmp k v) (λ p s', ∃ t' L R, p = Some (rb_next s) ∧ rbinv s' t' ∧ rb_next s' = S (rb_next s) ∧ io t = L ++ R ∧ io t' = L ++ (rb_next s, (k, v)) :: R
       ∧ (∀ x, x ∈ L → 0 <= cmp k x.2.1) ∧ (∀ x, x ∈ R → cmp k x.2.1 < 0)) s.
  Proof using CO.
    intros [H [n Hn] Hsz] Hs. unfold rb_insert_node. wp_go. wp_go. rewrite (rr_root _ _ H).
    destruct (descend_ok (S (rb_next s)) k [] t s H) as (ctx & E1 & E2 & HL & HR & Hctx); [pose proof (count_ok _ _ H); lia|done|set_solver|set_solver|].
    destruct (Hctx n false BLACK (ctx_nil n) Hn ltac:(done)) as [b Hb]. cbn [plug] in E2. subst t. clear Hctx Hn.
    wp_step E1. wp_go. wp_go. wp_go. cbn [rb_heap rb_next rb_root rb_size].
    rewrite io_plug in *. cbn [io app] in *.
    destruct ctx as [|fr ctx].
    - cbn. apply wp_bind. eapply wp_eq. { unfold put. cbn. rewrite lookup_insert. reflexivity. } wp_go. apply wp_ret. cbn. rewrite insert_insert.
      exists (N E (rb_next s) BLACK k v E), [], []. split_and!; try done. split; cbn.
      + split; cbn; [by rewrite lookup_insert|done|apply NoDup_singleton|constructor; [cbn; lia|constructor]].
      + exists 1%nat. by repeat econstructor.
      + rewrite Hsz. done.
    - assert (∃ y, cpar (fr :: ctx) = Some y) as [y Hy] by eauto. rewrite Hy. change (rootp E) with (@None nat). 
      pose proof (proj1 (foc_split _ _ _) H) as (_ & Hc & Hnd & Hlt). change (ads E) with (@nil nat) in Hlt. rewrite app_nil_r in Hlt.
      apply wp_bind. eapply wp_eq. { unfold key, mbind_, get. cbn. rewrite lookup_insert. reflexivity. } cbn [n_key].
      assert (∃ yk, key (K := K) (V := V) (Some y) (MkRb (<[rb_next s:=MkNode (Some y) None None RED k v]> (rb_heap s)) (S (rb_next s)) (rb_root s) (rb_size s + 1)) = Ok (yk, MkRb (<[rb_next s:=MkNode (Some y) None None RED k v]> (rb_heap s)) (S (rb_next s)) (rb_root s) (rb_size s + 1)) ∧
         match fr with FL _ _ _ _ _ => cmp k yk < 0 | FR _ _ _ _ _ => 0 <= cmp k yk end) as (yk & Ek & Hcmp).
      { destruct fr as [a c ka va r|l a c ka va]; cbn in Hy; injection Hy as <-; exists ka.
        - destruct Hc as (H1 & _). split; [|by apply (HR (a, (ka, va))); set_solver]. unfold key, mbind_, get. cbn. rewrite lookup_insert_ne. { by rewrite H1. }
          rewrite cads_FL in Hlt. apply Forall_cons in Hlt as [? _]. lia.
        - destruct Hc as (H1 & _). split; [|by apply (HL (a, (ka, va))); cbn; set_solver]. unfold key, mbind_, get. cbn. rewrite lookup_insert_ne. { by rewrite H1. }
          rewrite cads_FR in Hlt. apply Forall_cons in Hlt as [? _]. lia. }
      wp_step Ek.
      assert (∀ f, match fr with FL _ _ _ _ _ => f = with_left (Some (rb_next s)) | FR _ _ _ _ _ => f = with_right (Some (rb_next s)) end →
        wp (mbind_ (put (Some y) f) (λ _, mbind_ (insert_fixup (Some (rb_next s))) (λ _, mret_ (Some (rb_next s))))) (λ p s', ∃ t' L R, p = Some (rb_next s) ∧ rbinv s' t' ∧ rb_next s' = S (rb_next s) ∧ lic (fr :: ctx) ++ ric (fr :: ctx) = L ++ R ∧ io t' = L ++ (rb_next s, (k, v)) :: R
       ∧ (∀ x, x ∈ L → 0 <= cmp k x.2.1) ∧ (∀ x, x ∈ R → cmp k x.2.1 < 0)) (MkRb (<[rb_next s:=MkNode (Some y) None None RED k v]> (rb_heap s)) (S (rb_next s)) (rb_root s) (rb_size s + 1))) as Hmain.
      { intros f Hf. apply wp_bind. rewrite <-Hy. eapply wp_mono; [by apply (attach_ok s (fr :: ctx) k v f (rb_size s + 1) H)|]. cbv beta. intros _ s1 (H1 & Hn1 & Hs1).
        apply wp_bind. unfold insert_fixup. wp_go. apply wp_bind. eapply wp_mono.
        { eapply (ins_loop_ok _ _ 0 b); [exact H1|constructor|constructor|done|]. pose proof (count_ok _ _ H1). pose proof (ctx_count (fr :: ctx) (N E (rb_next s) RED k v E)). lia. }
        cbv beta. intros _ s2 (t2 & m & c & H2 & Hio & Hsm & Hm & Hne). wp_go. rewrite (rr_root _ _ H2). destruct t2 as [|l2 a2 c2 k2 v2 r2]; [done|].
        eapply wp_mono; [eapply (foc_put s2 [] _ _ _ _ _ _ _ BLACK k2 v2); [exact H2|done]|]. cbv beta. intros _ s3 [H3 Hsm3]. apply wp_ret.
        cbn [plug] in H3. exists (N l2 a2 BLACK k2 v2 r2), (lic (fr :: ctx)), (ric (fr :: ctx)). destruct Hsm as [Q1 Q2], Hsm3 as [Q3 Q4].
        assert (io (N l2 a2 BLACK k2 v2 r2) = lic (fr :: ctx) ++ (rb_next s, (k, v)) :: ric (fr :: ctx)) as Hio3.
        { change (io (N l2 a2 BLACK k2 v2 r2)) with (io (N l2 a2 c2 k2 v2 r2)). rewrite Hio. rewrite io_plug. done. }
        split_and!; try done; [|congruence]. split; [done| |].
        - inversion Hm; subst; eexists; by econstructor.
        - rewrite Hio3, Q4, Q2, Hs1, Hsz, !app_length. cbn [length]. lia. }
      destruct fr as [a c ka va r|l a c ka va].
      + rewrite (proj2 (Z.ltb_lt (cmp k yk) 0)) by lia. by apply Hmain.
      + rewrite (proj2 (Z.ltb_ge (cmp k yk) 0)) by lia. by apply Hmain.
  Qed.
End insert.
