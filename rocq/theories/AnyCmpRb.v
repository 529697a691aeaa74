(** Red-black trees with a comparison function that need not be an order: Insert keeps a valid tree
    and puts the pair at a place where the comparisons with the neighbours agree; searches return some
    node or nil. *)
From Verif Require Import Base Wp RbModel RbTree RbRot RbIns RbIns2 RbDel RbNav RbDel2 RbSpec RbFind RbProps RbApi.
Open Scope Z_scope.
Open Scope go_scope.

Section any.
  Context {K V : Type} (cmp : K → K → Z).
  Implicit Types (s : rb K V) (t : tree K V) (ctx : list (frame K V)) (L R : list (nat * (K * V))).
  (** k may stand between L and R as far as the two neighbours tell *)
  Definition adj (k : K) L R : Prop := (∀ x, last L = Some x → 0 <= cmp k x.2.1) ∧ (∀ x, head R = Some x → cmp k x.2.1 < 0).
  Lemma descend_any f k ctx t s : rbrep s (plug ctx t) → (length (io t) < f)%nat → adj k (lic ctx) (ric ctx) →
    ∃ ctx', descend cmp f k (rootp t) (cpar ctx) s = Ok (cpar ctx', s) ∧ plug ctx t = plug ctx' E ∧ adj k (lic ctx') (ric ctx')
      ∧ (∀ n b c, ctxok ctx n b → rbt n c t → (c = RED → b = true) → ∃ b', ctxok ctx' 0 b').
  Proof using.
    revert ctx t. induction f as [|f IH]; intros ctx t H Hf HA; [lia|].
    destruct t as [|l a c xk xv r].
    - exists ctx. split_and!; try done. intros n b c Hc Ht _. inversion Ht; subst. eauto.
    - cbn [descend rootp]. unfold key at 1, mbind_. rewrite (foc_get _ _ _ _ _ _ _ _ H). cbn [n_key mret_].
      cbn [io] in Hf. rewrite app_length in Hf. cbn [length] in Hf.
      destruct (Z.ltb_spec (cmp k xk) 0) as [Hlt|Hge].
      + unfold left, mbind_. rewrite (foc_get _ _ _ _ _ _ _ _ H). cbn [n_left mret_].
        destruct (IH (FL a c xk xv r :: ctx) l) as (ctx' & E1 & E2 & E3 & E5); [exact H|lia| |exists ctx'; split_and!; try done].
        * split; [apply HA|]. cbn. intros x [= <-]. done.
        * intros n b c' Hc Ht Hcb. inversion Ht; subst.
          -- rewrite (Hcb eq_refl) in Hc. eapply (E5 n false BLACK); [by eapply ctx_LR|done|done].
          -- eapply (E5 _ true cl); [by eapply ctx_LB|done|done].
      + unfold right, mbind_. rewrite (foc_get _ _ _ _ _ _ _ _ H). cbn [n_right mret_].
        destruct (IH (FR l a c xk xv :: ctx) r) as (ctx' & E1 & E2 & E3 & E5); [exact H|lia| |exists ctx'; split_and!; try done].
        * split; [|apply HA]. cbn. intros x. rewrite app_assoc, last_snoc. by intros [= <-].
        * intros n b c' Hc Ht Hcb. inversion Ht; subst.
          -- rewrite (Hcb eq_refl) in Hc. eapply (E5 n false BLACK); [by eapply ctx_RR|done|done].
          -- eapply (E5 _ true cr); [by eapply ctx_RB|done|done].
  Qed.
  Lemma insert_any s t k v : rbinv s t →
    wp (rb_insert_node cmp k v) (λ p s', ∃ t' L R, p = Some (rb_next s) ∧ rbinv s' t' ∧ rb_next s' = S (rb_next s) ∧ io t = L ++ R ∧ io t' = L ++ (rb_next s, (k, v)) :: R
       ∧ adj k L R) s.
  Proof using.
    intros [H [n Hn] Hsz]. unfold rb_insert_node. wp_go. wp_go. rewrite (rr_root _ _ H).
    destruct (descend_any (S (rb_next s)) k [] t s H) as (ctx & E1 & E2 & HA & Hctx); [pose proof (count_ok _ _ H); lia|by split|].
    destruct (Hctx n false BLACK (ctx_nil n) Hn ltac:(done)) as [b Hb]. cbn [plug] in E2. subst t. clear Hctx Hn.
    wp_step E1. wp_go. wp_go. wp_go. cbn [rb_heap rb_next rb_root rb_size].
    rewrite io_plug in *. cbn [io app] in *.
    destruct ctx as [|fr ctx].
    - cbn. apply wp_bind. eapply wp_eq. { unfold put. cbn. rewrite lookup_insert. reflexivity. } wp_go. apply wp_ret. cbn. rewrite insert_insert.
      exists (N E (rb_next s) BLACK k v E), [], []. split_and!; try done. split; cbn.
      + split; cbn; [by rewrite lookup_insert|done|apply NoDup_singleton|constructor; [cbn; lia|constructor]].
      + exists 1%nat. by repeat econstructor.
      + rewrite Hsz. done.
    - assert (∃ y, cpar (fr :: ctx) = Some y) as [y Hy] by eauto. rewrite Hy. change (rootp E) with (@None nat). 
      pose proof (proj1 (foc_split _ _ _) H) as (_ & Hc & Hnd & Hlt). change (ads E) with (@nil nat) in Hlt. rewrite app_nil_r in Hlt.
      apply wp_bind. eapply wp_eq. { unfold key, mbind_, get. cbn. rewrite lookup_insert. reflexivity. } cbn [n_key].
      assert (∃ yk, key (K := K) (V := V) (Some y) (MkRb (<[rb_next s:=MkNode (Some y) None None RED k v]> (rb_heap s)) (S (rb_next s)) (rb_root s) (rb_size s + 1)) = Ok (yk, MkRb (<[rb_next s:=MkNode (Some y) None None RED k v]> (rb_heap s)) (S (rb_next s)) (rb_root s) (rb_size s + 1)) ∧
         match fr with FL _ _ _ _ _ => cmp k yk < 0 | FR _ _ _ _ _ => 0 <= cmp k yk end) as (yk & Ek & Hcmp).
      { destruct fr as [a c ka va r|l a c ka va]; cbn in Hy; injection Hy as <-; exists ka.
        - destruct Hc as (H1 & _). split; [|by apply (proj2 HA (a, (ka, va)))]. unfold key, mbind_, get. cbn. rewrite lookup_insert_ne. { by rewrite H1. }
          rewrite cads_FL in Hlt. apply Forall_cons in Hlt as [? _]. lia.
        - destruct Hc as (H1 & _). split; [|by apply (proj1 HA (a, (ka, va))); cbn; rewrite app_assoc, last_snoc]. unfold key, mbind_, get. cbn. rewrite lookup_insert_ne. { by rewrite H1. }
          rewrite cads_FR in Hlt. apply Forall_cons in Hlt as [? _]. lia. }
      wp_step Ek.
      assert (∀ f, match fr with FL _ _ _ _ _ => f = with_left (Some (rb_next s)) | FR _ _ _ _ _ => f = with_right (Some (rb_next s)) end →
        wp (mbind_ (put (Some y) f) (λ _, mbind_ (insert_fixup (Some (rb_next s))) (λ _, mret_ (Some (rb_next s))))) (λ p s', ∃ t' L R, p = Some (rb_next s) ∧ rbinv s' t' ∧ rb_next s' = S (rb_next s) ∧ lic (fr :: ctx) ++ ric (fr :: ctx) = L ++ R ∧ io t' = L ++ (rb_next s, (k, v)) :: R
       ∧ adj k L R) (MkRb (<[rb_next s:=MkNode (Some y) None None RED k v]> (rb_heap s)) (S (rb_next s)) (rb_root s) (rb_size s + 1))) as Hmain.
      { intros f Hf. apply wp_bind. rewrite <-Hy. eapply wp_mono; [by apply (attach_ok s (fr :: ctx) k v f (rb_size s + 1) H)|]. cbv beta. intros _ s1 (H1 & Hn1 & Hs1).
        apply wp_bind. unfold insert_fixup. wp_go. apply wp_bind. eapply wp_mono.
        { eapply (ins_loop_ok _ _ 0 b); [exact H1|constructor|constructor|done|]. pose proof (count_ok _ _ H1). pose proof (ctx_count (fr :: ctx) (N E (rb_next s) RED k v E)). lia. }
        cbv beta. intros _ s2 (t2 & m & c & H2 & Hio & Hsm & Hm & Hne). wp_go. rewrite (rr_root _ _ H2). destruct t2 as [|l2 a2 c2 k2 v2 r2]; [done|].
        eapply wp_mono; [eapply (foc_put s2 [] _ _ _ _ _ _ _ BLACK k2 v2); [exact H2|done]|]. cbv beta. intros _ s3 [H3 Hsm3]. apply wp_ret.
        cbn [plug] in H3. exists (N l2 a2 BLACK k2 v2 r2), (lic (fr :: ctx)), (ric (fr :: ctx)). destruct Hsm as [Q1 Q2], Hsm3 as [Q3 Q4].
        assert (io (N l2 a2 BLACK k2 v2 r2) = lic (fr :: ctx) ++ (rb_next s, (k, v)) :: ric (fr :: ctx)) as Hio3.
        { change (io (N l2 a2 BLACK k2 v2 r2)) with (io (N l2 a2 c2 k2 v2 r2)). rewrite Hio. rewrite io_plug. done. }
        split_and!; try done; [|congruence]. split; [done| |].
        - inversion Hm; subst; eexists; by econstructor.
        - rewrite Hio3, Q4, Q2, Hs1, Hsz, !app_length. cbn [length]. lia. }
      destruct fr as [a c ka va r|l a c ka va].
      + rewrite (proj2 (Z.ltb_lt (cmp k yk) 0)) by lia. by apply Hmain.
      + rewrite (proj2 (Z.ltb_ge (cmp k yk) 0)) by lia. by apply Hmain.
  Qed.

  (** the searches: some node of the tree that compares so, or nil *)
  Definition some_match (P : K * V → Prop) (l : list (nat * (K * V))) (p : ptr) : Prop := match p with Some a => ∃ kv, (a, kv) ∈ l ∧ P kv | None => True end.
  Lemma read_key s t a kv : rbrep s t → (a, kv) ∈ io t → key (Some a) s = Ok (kv.1, s).
  Proof using. intros H (L & R & E1)%elem_of_list_split. destruct kv as [k v]. by eapply key_ok. Qed.
  Lemma sub_in t ctx x : x ∈ io t → x ∈ io (plug ctx t).
  Proof using. intros Hx. rewrite io_plug. set_solver. Qed.
  Lemma find_lower_any f k ctx t s : rbrep s (plug ctx t) → (length (io t) < f)%nat →
    ∃ p, find_lower cmp f (rootp t) k s = Ok (p, s) ∧ some_match (λ kv, cmp k kv.1 <= 0) (io t) p.
  Proof using.
    revert ctx t. induction f as [|f IH]; intros ctx t H Hf; [lia|]. destruct t as [|l a c xk xv r]; [by exists None|].
    cbn [find_lower rootp]. unfold mbind_. rewrite (rd_key _ _ _ _ _ _ _ _ H). cbn [io] in Hf. rewrite app_length in Hf. cbn [length] in Hf.
    destruct (Z.leb_spec (cmp k xk) 0) as [Hle|Hgt].
    - rewrite (rd_left _ _ _ _ _ _ _ _ H). destruct (IH (FL a c xk xv r :: ctx) l H ltac:(lia)) as ([b|] & -> & Hm).
      + destruct Hm as (kv & Hin & Hkv). rewrite (read_key s _ b kv H) by by apply (sub_in l (FL a c xk xv r :: ctx)). rewrite (rd_key _ _ _ _ _ _ _ _ H).
        destruct (cmp kv.1 xk <=? 0); [exists (Some b)|exists (Some a)]; (split; [done|]); [exists kv|exists (xk, xv)]; (split; [|done]); cbn [io]; set_solver.
      + exists (Some a). split; [done|]. exists (xk, xv). split; [|done]. cbn [io]. set_solver.
    - rewrite (rd_right _ _ _ _ _ _ _ _ H). destruct (IH (FR l a c xk xv :: ctx) r H ltac:(lia)) as (p & -> & Hm). exists p. split; [done|]. destruct p as [b|]; [|done]. destruct Hm as (kv & Hin & Hkv). exists kv. split; [|done]. cbn [io]. set_solver.
  Qed.
  Lemma find_upper_any f k ctx t s : rbrep s (plug ctx t) → (length (io t) < f)%nat →
    ∃ p, find_upper cmp f (rootp t) k s = Ok (p, s) ∧ some_match (λ kv, cmp k kv.1 < 0) (io t) p.
  Proof using.
    revert ctx t. induction f as [|f IH]; intros ctx t H Hf; [lia|]. destruct t as [|l a c xk xv r]; [by exists None|].
    cbn [find_upper rootp]. unfold mbind_. rewrite (rd_key _ _ _ _ _ _ _ _ H). cbn [io] in Hf. rewrite app_length in Hf. cbn [length] in Hf.
    destruct (Z.leb_spec 0 (cmp k xk)) as [Hle|Hgt].
    - rewrite (rd_right _ _ _ _ _ _ _ _ H). destruct (IH (FR l a c xk xv :: ctx) r H ltac:(lia)) as (p & -> & Hm). exists p. split; [done|]. destruct p as [b|]; [|done]. destruct Hm as (kv & Hin & Hkv). exists kv. split; [|done]. cbn [io]. set_solver.
    - rewrite (rd_left _ _ _ _ _ _ _ _ H). destruct (IH (FL a c xk xv r :: ctx) l H ltac:(lia)) as ([b|] & -> & Hm).
      + destruct Hm as (kv & Hin & Hkv). rewrite (read_key s _ b kv H) by by apply (sub_in l (FL a c xk xv r :: ctx)). rewrite (rd_key _ _ _ _ _ _ _ _ H).
        destruct (cmp kv.1 xk <=? 0); [exists (Some b)|exists (Some a)]; (split; [done|]); [exists kv|exists (xk, xv)]; (split; [|done]); cbn [io]; set_solver.
      + exists (Some a). split; [done|]. exists (xk, xv). split; [|done]. cbn [io]. set_solver.
  Qed.
  Lemma lower_any k t s : rbrep s t → ∃ p, rb_FindLowerBoundNode cmp k s = Ok (p, s) ∧ some_match (λ kv, cmp k kv.1 <= 0) (io t) p.
  Proof using. intros H. unfold rb_FindLowerBoundNode, mbind_, fuel, get_root. rewrite (rr_root _ _ H). apply (find_lower_any _ _ []); [done|]. pose proof (count_ok _ _ H). lia. Qed.
  Lemma upper_any k t s : rbrep s t → ∃ p, rb_FindUpperBoundNode cmp k s = Ok (p, s) ∧ some_match (λ kv, cmp k kv.1 < 0) (io t) p.
  Proof using. intros H. unfold rb_FindUpperBoundNode, mbind_, fuel, get_root. rewrite (rr_root _ _ H). apply (find_upper_any _ _ []); [done|]. pose proof (count_ok _ _ H). lia. Qed.
  Lemma findnode_any k t s : rbrep s t → ∃ p, rb_FindNode cmp k s = Ok (p, s) ∧ some_match (λ kv, cmp kv.1 k = 0) (io t) p.
  Proof using.
    intros H. destruct (lower_any k t s H) as (p & Ep & Hm). unfold rb_FindNode, mbind_. rewrite Ep. destruct p as [a|]; [|by exists None]. destruct Hm as (kv & Hin & _). rewrite (read_key s t a kv H Hin).
    destruct (Z.eqb_spec (cmp kv.1 k) 0); [|by exists None]. exists (Some a). split; [done|]. by exists kv.
  Qed.
End any.
