(** Logarithmic time: two runs with different limits agree when both end; the limits needed. *)
From Verif Require Import Base Wp RbModel RbTree RbRot RbIns RbIns2 RbDel RbNav RbDel2 RbSpec RbFind RbCostModel.
Open Scope Z_scope.
Open Scope go_scope.

Section agree.
  Context {S : Type}.
  Definition agree {A} (m m' : M S A) : Prop := ∀ s r r', m s = Ok r → m' s = Ok r' → r = r'.
  Lemma agree_refl {A} (m : M S A) : agree m m. Proof using. intros s r r' E1 E2. congruence. Qed.
  Lemma agree_bind {A B} (m m' : M S A) (k k' : A → M S B) : agree m m' → (∀ a, agree (k a) (k' a)) → agree (mbind_ m k) (mbind_ m' k').
  Proof using.
    intros Hm Hk s r r'. unfold mbind_. destruct (m s) as [[a s1]| |] eqn:E1; try done. destruct (m' s) as [[a' s1']| |] eqn:E2; try done.
    pose proof (Hm _ _ _ E1 E2) as E3. injection E3 as <- <-. apply Hk.
  Qed.
End agree.

Section agrees.
  Context {K V : Type} (cmp : K → K → Z).
  Notation RM := (M (rb K V)).
  Lemma agree_fuel {A} (m : RM A) (k : nat → RM A) : (∀ f, agree m (k f)) → agree m (mbind_ fuel k).
  Proof using. intros H s r r1 E1 E2. exact (H (Datatypes.S (rb_next s)) s r r1 E1 E2). Qed.
  Ltac ag := repeat (first
    [ apply agree_refl
    | match goal with H : ∀ _, agree _ _ |- _ => apply H end
    | match goal with H : ∀ _ _, agree _ _ |- _ => apply H end
    | match goal with H : ∀ _ _ _, agree _ _ |- _ => apply H end
    | (apply agree_bind; [|intros ?])
    | match goal with |- agree (match ?x with _ => _ end) _ => destruct x end ]).
  Ltac lp := match goal with |- ∀ f g, _ => intros f; induction f as [|f IH]; intros [|g] end; try (intros; intros ? ? ? ? ?; done); intros; cbn.
  Lemma ag_min : ∀ f g p, agree (minimum_loop (K := K) (V := V) f p) (minimum_loop g p). Proof using. lp. specialize (IH g). ag. Qed.
  Lemma ag_max : ∀ f g p, agree (maximum_loop (K := K) (V := V) f p) (maximum_loop g p). Proof using. lp. specialize (IH g). ag. Qed.
  Lemma ag_succ : ∀ f g x y, agree (succ_loop (K := K) (V := V) f x y) (succ_loop g x y). Proof using. lp. specialize (IH g). ag. Qed.
  Lemma ag_pred : ∀ f g x, agree (pred_loop (K := K) (V := V) f x) (pred_loop g x). Proof using. lp. specialize (IH g). ag. Qed.
  Lemma ag_desc : ∀ f g k x y, agree (descend (V := V) cmp f k x y) (descend cmp g k x y). Proof using. lp. specialize (IH g). ag. Qed.
  Lemma ag_ins : ∀ f g z, agree (insert_fixup_loop (K := K) (V := V) f z) (insert_fixup_loop g z). Proof using. lp. specialize (IH g). ag. Qed.
  Lemma ag_del : ∀ f g x p, agree (delete_fixup_loop (K := K) (V := V) f x p) (delete_fixup_loop g x p). Proof using. lp. specialize (IH g). ag. Qed.
  Lemma ag_lower : ∀ f g x k, agree (find_lower (V := V) cmp f x k) (find_lower cmp g x k). Proof using. lp. specialize (IH g). ag. Qed.
  Lemma ag_upper : ∀ f g x k, agree (find_upper (V := V) cmp f x k) (find_upper cmp g x k). Proof using. lp. specialize (IH g). ag. Qed.
  Ltac fu := repeat (first
    [ apply agree_refl
    | apply ag_min | apply ag_max | apply ag_succ | apply ag_pred | apply ag_desc | apply ag_ins | apply ag_del | apply ag_lower | apply ag_upper
    | match goal with H : ∀ _, agree _ _ |- _ => apply H end
    | (apply agree_fuel; intros ?)
    | (apply agree_bind; [|intros ?])
    | match goal with |- agree (match ?x with _ => _ end) _ => destruct x end ]).
  Lemma ag_next f x : agree (successor_within (K := K) (V := V) f x) (successor x). Proof using. unfold successor_within, successor, minimum. fu. Qed.
  Lemma ag_prev f x : agree (presuccessor_within (K := K) (V := V) f x) (presuccessor x). Proof using. unfold presuccessor_within, presuccessor, maximum. fu. Qed.
  Lemma ag_First f : agree (rb_First_within (K := K) (V := V) f) rb_First. Proof using. unfold rb_First_within, rb_First, minimum. fu. Qed.
  Lemma ag_Last f : agree (rb_Last_within (K := K) (V := V) f) rb_Last. Proof using. unfold rb_Last_within, rb_Last, maximum. fu. Qed.
  Lemma ag_Lower f k : agree (rb_FindLowerBoundNode_within (V := V) cmp f k) (rb_FindLowerBoundNode cmp k). Proof using. unfold rb_FindLowerBoundNode_within, rb_FindLowerBoundNode. fu. Qed.
  Lemma ag_Upper f k : agree (rb_FindUpperBoundNode_within (V := V) cmp f k) (rb_FindUpperBoundNode cmp k). Proof using. unfold rb_FindUpperBoundNode_within, rb_FindUpperBoundNode. fu. Qed.
  Lemma ag_FindNode f k : agree (rb_FindNode_within (V := V) cmp f k) (rb_FindNode cmp k). Proof using. unfold rb_FindNode_within, rb_FindNode. apply agree_bind; [apply ag_Lower|intros ?]. fu. Qed.
  Lemma ag_Find f k : agree (rb_Find_within (V := V) cmp f k) (rb_Find cmp k). Proof using. unfold rb_Find_within, rb_Find. apply agree_bind; [apply ag_FindNode|intros ?]. fu. Qed.
  Lemma ag_insert f k v : agree (rb_insert_node_within (V := V) cmp f k v) (rb_insert_node cmp k v).
  Proof using. unfold rb_insert_node_within, rb_insert_node, insert_fixup_within, insert_fixup. fu. Qed.
  Lemma ag_Insert f k v : agree (rb_Insert_within (V := V) cmp f k v) (rb_Insert cmp k v). Proof using. apply agree_bind; [apply ag_insert|intros ?]. fu. Qed.
  Lemma ag_Delete f z : agree (rb_Delete_within (K := K) (V := V) f z) (rb_Delete z).
  Proof using.
    unfold rb_Delete_within, rb_Delete, delete_fixup_within, delete_fixup. pose proof (ag_next f) as Hn. fu.
  Qed.
End agrees.

Section height.
  Context {K V : Type}.
  Implicit Types (s : rb K V) (t : tree K V) (ctx : list (frame K V)).
  Fixpoint height t : nat := match t with E => 0 | N l _ _ _ _ r => S (Nat.max (height l) (height r)) end.
  Lemma height_plug ctx t : (length ctx + height t <= height (plug ctx t))%nat.
  Proof using. revert t. induction ctx as [|[] ctx IH]; intros t; cbn [plug plug1 length]; [lia|..]; etransitivity; [|apply IH|idtac|apply IH]; cbn [height]; lia. Qed.
  Lemma height_rbt n c t : rbt n c t → (height t <= 2 * n + (if c then 0 else 1))%nat.
  Proof using. induction 1; cbn [height]; unfold BLACK, RED in *; repeat match goal with H : (_ <= _ + (if ?c then _ else _))%nat |- _ => destruct c end; lia. Qed.
  Lemma height_log n t : rbt n BLACK t → (2 ^ height t <= (length (io t) + 1) * (length (io t) + 1))%nat.
  Proof using.
    intros Hn. pose proof (rbt_size _ _ _ Hn) as Hz. pose proof (height_rbt _ _ _ Hn) as Hh. unfold BLACK in Hh.
    transitivity (2 ^ (n + n))%nat; [apply Nat.pow_le_mono_r; lia|]. rewrite Nat.pow_add_r. by apply Nat.mul_le_mono.
  Qed.
  Lemma min_h f ctx t s : rbrep s (plug ctx t) → t ≠ E → (height t <= f)%nat → ∃ p, minimum_loop f (rootp t) s = Ok (p, s).
  Proof using.
    revert ctx t. induction f as [|f IH]; intros ctx t H Ht Hf; [destruct t; cbn in Hf; [done|lia]|]. destruct t as [|l a c k v r]; [done|]. cbn [minimum_loop rootp]. unfold mbind_. rewrite (rd_left _ _ _ _ _ _ _ _ H).
    destruct l as [|ll la lc lk lv lr] eqn:El; cbn [rootp]; [by eexists|]. eapply (IH (FL a c k v r :: ctx) (N ll la lc lk lv lr)); [exact H|done|]. cbn [height] in *. lia.
  Qed.
  Lemma max_h f ctx t s : rbrep s (plug ctx t) → t ≠ E → (height t <= f)%nat → ∃ p, maximum_loop f (rootp t) s = Ok (p, s).
  Proof using.
    revert ctx t. induction f as [|f IH]; intros ctx t H Ht Hf; [destruct t; cbn in Hf; [done|lia]|]. destruct t as [|l a c k v r]; [done|]. cbn [maximum_loop rootp]. unfold mbind_. rewrite (rd_right _ _ _ _ _ _ _ _ H).
    destruct r as [|ll la lc lk lv lr] eqn:El; cbn [rootp]; [by eexists|]. eapply (IH (FR l a c k v :: ctx) (N ll la lc lk lv lr)); [exact H|done|]. cbn [height] in *. lia.
  Qed.
  Lemma next_h f s t L R a k v : rbrep s t → io t = L ++ (a, (k, v)) :: R → (height t < f)%nat → ∃ p, successor_within f (Some a) s = Ok (p, s).
  Proof using.
    intros H E1 Hf. destruct (locate _ _ _ _ _ _ E1) as (ctx & l & c & r & -> & -> & ->). pose proof (height_plug ctx (N l a c k v r)) as Hh. cbn [height] in Hh. unfold successor_within, mbind_. rewrite (rd_right _ _ _ _ _ _ _ _ H).
    destruct r as [|rl ra rc rk rv rr] eqn:Er.
    - cbn [rootp]. rewrite (rd_parent _ _ _ _ _ _ _ _ H). eexists. eapply succ_loop_ok; [exact H|done|lia].
    - cbn [rootp]. eapply (min_h f (FR l a c k v :: ctx) (N rl ra rc rk rv rr) s H); [done|lia].
  Qed.
  Lemma prev_h f s t L R a k v : rbrep s t → io t = L ++ (a, (k, v)) :: R → (height t < f)%nat → ∃ p, presuccessor_within f (Some a) s = Ok (p, s).
  Proof using.
    intros H E1 Hf. destruct (locate _ _ _ _ _ _ E1) as (ctx & l & c & r & -> & -> & ->). pose proof (height_plug ctx (N l a c k v r)) as Hh. cbn [height] in Hh. unfold presuccessor_within, mbind_. rewrite (rd_left _ _ _ _ _ _ _ _ H).
    destruct l as [|rl ra rc rk rv rr] eqn:Er.
    - cbn [rootp]. rewrite (rd_parent _ _ _ _ _ _ _ _ H). destruct ctx as [|fr ctx]; [by eexists|].
      assert (∃ y, cpar (fr :: ctx) = Some y) as [y Hy] by eauto. rewrite Hy. destruct fr as [b cb kb vb rb'|lb b cb kb vb]; cbn in Hy; injection Hy as <-; rewrite (rd_right s ctx _ _ _ _ _ _ H);
        (destruct (peq _ _); [rewrite (rd_parent _ _ _ _ _ _ _ _ H); by eexists|]); eexists; (eapply pred_loop_ok; [exact H|cbn [length] in Hh |- *; lia]).
    - cbn [rootp]. eapply (max_h f (FL a c k v r :: ctx) (N rl ra rc rk rv rr) s H); [done|lia].
  Qed.
  Lemma First_h f s t : rbrep s t → (height t < f)%nat → ∃ p, rb_First_within f s = Ok (p, s).
  Proof using. intros H Hf. unfold rb_First_within, mbind_, get_root. rewrite (rr_root _ _ H). destruct t as [|l a c k v r]; [by eexists|]. cbn [rootp]. eapply (min_h f [] (N l a c k v r) s H); [done|lia]. Qed.
  Lemma Last_h f s t : rbrep s t → (height t < f)%nat → ∃ p, rb_Last_within f s = Ok (p, s).
  Proof using. intros H Hf. unfold rb_Last_within, mbind_, get_root. rewrite (rr_root _ _ H). destruct t as [|l a c k v r]; [by eexists|]. cbn [rootp]. eapply (max_h f [] (N l a c k v r) s H); [done|lia]. Qed.
End height.

Section search.
  Context {K V : Type} (cmp : K → K → Z).
  Implicit Types (s : rb K V) (t : tree K V) (ctx : list (frame K V)).
  Lemma desc_h f k ctx t q s : rbrep s (plug ctx t) → (height t < f)%nat → ∃ p, descend cmp f k (rootp t) q s = Ok (p, s).
  Proof using.
    revert ctx t q. induction f as [|f IH]; intros ctx t q H Hf; [lia|]. destruct t as [|l a c xk xv r]; [by eexists|]. cbn [descend rootp height] in *. unfold mbind_. rewrite (rd_key _ _ _ _ _ _ _ _ H).
    destruct (_ <? _); [rewrite (rd_left _ _ _ _ _ _ _ _ H); eapply (IH (FL a c xk xv r :: ctx)); [exact H|lia]|rewrite (rd_right _ _ _ _ _ _ _ _ H); eapply (IH (FR l a c xk xv :: ctx)); [exact H|lia]].
  Qed.
  (** searches return nil or a node of the subtree *)
  Lemma sub_key s ctx t b kv : rbrep s (plug ctx t) → (b, kv) ∈ io t → key (Some b) s = Ok (kv.1, s).
  Proof using.
    clear. intros H (L & R & E1)%elem_of_list_split. destruct kv as [k v]. apply locate in E1 as (cx & l' & c' & r' & -> & _ & _). rewrite <-plug_app in H. by eapply rd_key.
  Qed.
  Lemma lower_h f k ctx t s : rbrep s (plug ctx t) → (height t < f)%nat → ∃ p, find_lower cmp f (rootp t) k s = Ok (p, s) ∧ match p with Some b => ∃ kv, (b, kv) ∈ io t | None => True end.
  Proof using.
    revert ctx t. induction f as [|f IH]; intros ctx t H Hf; [lia|]. destruct t as [|l a c xk xv r]; [by eexists|]. cbn [find_lower rootp height] in *. unfold mbind_. rewrite (rd_key _ _ _ _ _ _ _ _ H).
    destruct (_ <=? _).
    - rewrite (rd_left _ _ _ _ _ _ _ _ H). destruct (IH (FL a c xk xv r :: ctx) l H ltac:(lia)) as ([b|] & -> & Hb).
      + destruct Hb as [kv Hb]. rewrite (sub_key s (FL a c xk xv r :: ctx) l b kv H Hb). rewrite (rd_key _ _ _ _ _ _ _ _ H). destruct (_ <=? _); eexists; (split; [done|]).
        * exists kv. cbn [io]. set_solver. * exists (xk, xv). cbn [io]. set_solver.
      + eexists; split; [done|]. exists (xk, xv). cbn [io]. set_solver.
    - rewrite (rd_right _ _ _ _ _ _ _ _ H). destruct (IH (FR l a c xk xv :: ctx) r H ltac:(lia)) as (p & -> & Hp). exists p. split; [done|]. destruct p as [b|]; [|done]. destruct Hp as [kv Hp]. exists kv. cbn [io]. set_solver.
  Qed.
  Lemma upper_h f k ctx t s : rbrep s (plug ctx t) → (height t < f)%nat → ∃ p, find_upper cmp f (rootp t) k s = Ok (p, s) ∧ match p with Some b => ∃ kv, (b, kv) ∈ io t | None => True end.
  Proof using.
    revert ctx t. induction f as [|f IH]; intros ctx t H Hf; [lia|]. destruct t as [|l a c xk xv r]; [by eexists|]. cbn [find_upper rootp height] in *. unfold mbind_. rewrite (rd_key _ _ _ _ _ _ _ _ H).
    destruct (_ <=? _).
    - rewrite (rd_right _ _ _ _ _ _ _ _ H). destruct (IH (FR l a c xk xv :: ctx) r H ltac:(lia)) as (p & -> & Hp). exists p. split; [done|]. destruct p as [b|]; [|done]. destruct Hp as [kv Hp]. exists kv. cbn [io]. set_solver.
    - rewrite (rd_left _ _ _ _ _ _ _ _ H). destruct (IH (FL a c xk xv r :: ctx) l H ltac:(lia)) as ([b|] & -> & Hb).
      + destruct Hb as [kv Hb]. rewrite (sub_key s (FL a c xk xv r :: ctx) l b kv H Hb). rewrite (rd_key _ _ _ _ _ _ _ _ H). destruct (_ <=? _); eexists; (split; [done|]).
        * exists kv. cbn [io]. set_solver. * exists (xk, xv). cbn [io]. set_solver.
      + eexists; split; [done|]. exists (xk, xv). cbn [io]. set_solver.
  Qed.
  Lemma Lower_h f k s t : rbrep s t → (height t < f)%nat → ∃ p, rb_FindLowerBoundNode_within cmp f k s = Ok (p, s) ∧ match p with Some b => ∃ kv, (b, kv) ∈ io t | None => True end.
  Proof using. intros H Hf. unfold rb_FindLowerBoundNode_within, mbind_, get_root. rewrite (rr_root _ _ H). by apply (lower_h f k [] t s H). Qed.
  Lemma Upper_h f k s t : rbrep s t → (height t < f)%nat → ∃ p, rb_FindUpperBoundNode_within cmp f k s = Ok (p, s).
  Proof using. intros H Hf. unfold rb_FindUpperBoundNode_within, mbind_, get_root. rewrite (rr_root _ _ H). destruct (upper_h f k [] t s H Hf) as (p & E1 & _). eauto. Qed.
  Lemma FindNode_h f k s t : rbrep s t → (height t < f)%nat → ∃ p, rb_FindNode_within cmp f k s = Ok (p, s) ∧ match p with Some b => ∃ kv, (b, kv) ∈ io t | None => True end.
  Proof using.
    intros H Hf. unfold rb_FindNode_within, mbind_. destruct (Lower_h f k s t H Hf) as ([b|] & -> & Hb); [|by exists None]. destruct Hb as [kv Hb]. rewrite (sub_key s [] t b kv H Hb). destruct (_ =? _); eexists; (split; [done|]); [by exists kv|done].
  Qed.
  Lemma Find_h f k s t : rbrep s t → (height t < f)%nat → ∃ p, rb_Find_within cmp f k s = Ok (p, s).
  Proof using.
    intros H Hf. unfold rb_Find_within, mbind_. destruct (FindNode_h f k s t H Hf) as ([b|] & -> & Hb); [|by exists None]. destruct Hb as [[kb vb] (L & R & Hb)%elem_of_list_split]. rewrite (value_ok _ _ _ _ _ _ _ H Hb). eauto.
  Qed.
End search.

Section updates.
  Context {K V : Type} (cmp : K → K → Z) (CO : CmpOK cmp).
  Implicit Types (s : rb K V) (t : tree K V) (ctx : list (frame K V)).
  Lemma wp_h {A} (m m' : M (rb K V) A) s : agree m m' → wp m (λ _ _, True) s → wp m' (λ _ _, True) s → m s = m' s.
  Proof using. clear. intros Ha (a & s1 & E1 & _)%wp_Ok (b & s2 & E2 & _)%wp_Ok. rewrite E1, E2. f_equal. by eapply Ha. Qed.
  Lemma ok_h {A} (m m' : M (rb K V) A) s : agree m m' → (∃ a s', m s = Ok (a, s')) → (∃ a s', m' s = Ok (a, s')) → m s = m' s.
  Proof using. clear. intros Ha (a & s1 & E1) (b & s2 & E2). rewrite E1, E2. f_equal. by eapply Ha. Qed.
  Lemma insert_h f s t k v : rbinv s t → StronglySorted (kle cmp) (io t) → (height t < f)%nat → wp (rb_insert_node_within cmp f k v) (λ _ _, True) s.
  Proof using CO.
    intros [H [n Hn] Hsz] Hs Hf. unfold rb_insert_node_within. wp_go. rewrite (rr_root _ _ H).
    destruct (descend_ok cmp CO (S (rb_next s)) k [] t s H) as (ctx & E1 & E2 & HL & HR & Hctx); [pose proof (count_ok _ _ H); lia|done|set_solver|set_solver|].
    destruct (Hctx n false BLACK (ctx_nil n) Hn ltac:(done)) as [b Hb]. destruct (desc_h cmp f k [] t None s H Hf) as [p Ep]. pose proof (ag_desc cmp _ _ _ _ _ s _ _ Ep E1) as Eq. injection Eq as ->. cbn [plug] in E2. subst t. clear Hctx Hn E1.
    wp_step Ep. wp_go. wp_go. wp_go. cbn [rb_heap rb_next rb_root rb_size].
    pose proof (height_plug ctx E) as Hh. cbn [height] in Hh.
    destruct ctx as [|fr ctx].
    - cbn. apply wp_bind. eapply wp_eq. { unfold put. cbn. rewrite lookup_insert. reflexivity. } wp_go. by apply wp_ret.
    - assert (∃ y, cpar (fr :: ctx) = Some y) as [y Hy] by eauto. rewrite Hy. change (rootp E) with (@None nat). 
      pose proof (proj1 (foc_split _ _ _) H) as (_ & Hc & Hnd & Hlt). change (ads E) with (@nil nat) in Hlt. rewrite app_nil_r in Hlt.
      apply wp_bind. eapply wp_eq. { unfold key, mbind_, get. cbn. rewrite lookup_insert. reflexivity. } cbn [n_key].
      assert (∃ yk, key (K := K) (V := V) (Some y) (MkRb (<[rb_next s:=MkNode (Some y) None None RED k v]> (rb_heap s)) (S (rb_next s)) (rb_root s) (rb_size s + 1)) = Ok (yk, MkRb (<[rb_next s:=MkNode (Some y) None None RED k v]> (rb_heap s)) (S (rb_next s)) (rb_root s) (rb_size s + 1)) ∧
         match fr with FL _ _ _ _ _ => cmp k yk < 0 | FR _ _ _ _ _ => 0 <= cmp k yk end) as (yk & Ek & Hcmp).
      { destruct fr as [a c ka va r|l a c ka va]; cbn in Hy; injection Hy as <-; exists ka.
        - destruct Hc as (H1 & _). split; [|by apply (HR (a, (ka, va))); set_solver]. unfold key, mbind_, get. cbn. rewrite lookup_insert_ne. { by rewrite H1. }
          rewrite cads_FL in Hlt. apply Forall_cons in Hlt as [? _]. lia.
        - destruct Hc as (H1 & _). split; [|by apply (HL (a, (ka, va))); cbn; set_solver]. unfold key, mbind_, get. cbn. rewrite lookup_insert_ne. { by rewrite H1. }
          rewrite cads_FR in Hlt. apply Forall_cons in Hlt as [? _]. lia. }
      wp_step Ek.
      assert (∀ g, match fr with FL _ _ _ _ _ => g = with_left (Some (rb_next s)) | FR _ _ _ _ _ => g = with_right (Some (rb_next s)) end →
        wp (mbind_ (put (Some y) g) (λ _, mbind_ (insert_fixup_within f (Some (rb_next s))) (λ _, mret_ (Some (rb_next s))))) (λ p s', True) (MkRb (<[rb_next s:=MkNode (Some y) None None RED k v]> (rb_heap s)) (S (rb_next s)) (rb_root s) (rb_size s + 1))) as Hmain.
      { intros g Hg. apply wp_bind. rewrite <-Hy. eapply wp_mono; [by apply (attach_ok s (fr :: ctx) k v g (rb_size s + 1) H)|]. cbv beta. intros _ s1 (H1 & Hn1 & Hs1).
        apply wp_bind. unfold insert_fixup_within. apply wp_bind. eapply wp_mono.
        { eapply (ins_loop_ok _ _ 0 b); [exact H1|constructor|constructor|done|lia]. }
        cbv beta. intros _ s2 (t2 & m & c & H2 & Hio & Hsm & Hm & Hne). wp_go. rewrite (rr_root _ _ H2). destruct t2 as [|l2 a2 c2 k2 v2 r2]; [done|].
        eapply wp_mono; [eapply (foc_put s2 [] _ _ _ _ _ _ _ BLACK k2 v2); [exact H2|done]|]. cbv beta. intros _ s3 [H3 Hsm3]. by apply wp_ret. }
      destruct fr as [a c ka va r|l a c ka va].
      + rewrite (proj2 (Z.ltb_lt (cmp k yk) 0)) by lia. by apply Hmain.
      + rewrite (proj2 (Z.ltb_ge (cmp k yk) 0)) by lia. by apply Hmain.
  Qed.
End updates.

Section deletes.
  Context {K V : Type}.
  Implicit Types (s : rb K V) (t : tree K V) (ctx : list (frame K V)).
  Lemma delete_fixup_h f ctx n b t s : rbrep s (plug ctx t) → short n t → ctxok ctx (S n) b → (length ctx < f)%nat →
    wp (delete_fixup_within f (rootp t) (cpar ctx)) (λ _ s', same s s' ∧ ∃ T m, rbrep s' T ∧ rbt m BLACK T ∧ io T = io (plug ctx t)) s.
  Proof using.
    intros H Ht Hc Hf. unfold delete_fixup_within. apply wp_bind. eapply wp_mono; [eapply del_loop_ok; [exact H|done|done|done|]|].
    { done. }
    cbv beta. intros x s1 (ctx1 & t1 & -> & H1 & Hio & Hs1 & m & Hm). destruct t1 as [|l a c k v r]; cbn [rootp].
    - apply wp_ret. split; [done|]. eexists _, m. split_and!; done.
    - eapply wp_mono; [eapply (foc_put s1 ctx1 _ _ _ _ _ _ _ BLACK k v); [exact H1|done]|]. cbv beta. intros _ s2 [H2 Hs2]. split; [sames|]. eexists _, m. split_and!; [exact H2|done|]. rewrite <-Hio, !io_plug. done.
  Qed.
  Lemma unlink_fix_h f ctx yl y cy ky vy yr x s m : rbrep s (plug ctx x) → rbt m BLACK (plug ctx (N yl y cy ky vy yr)) → (yl = E ∧ x = yr) ∨ (yr = E ∧ x = yl) → (length ctx < f)%nat →
    wp (if cy then delete_fixup_within f (rootp x) (cpar ctx) else mret_ tt) (λ _ s', same s s' ∧ ∃ T m, rbrep s' T ∧ rbt m BLACK T ∧ io T = io (plug ctx x)) s.
  Proof using.
    intros H Hm Hx Hf. destruct (unplug_ok _ _ _ Hm) as (n & b & c & Hc & Hn & Hb). inversion Hn; subst.
    - match goal with H1 : rbt n BLACK yl, H2 : rbt n BLACK yr |- _ => rename H1 into Hl, H2 into Hr end.
      assert (x = E ∧ n = O) as [-> ->].
      { destruct Hx as [[-> ->]|[-> ->]].
        - inversion Hl; subst. split; [|done]. inversion Hr; done.
        - inversion Hr; subst. split; [|done]. inversion Hl; done. }
      apply wp_ret. split; [done|]. destruct (plug_ok ctx 0 b BLACK E Hc ltac:(constructor) ltac:(done)) as [m' Hm']. exists (plug ctx E), m'. done.
    - assert (n0 = O ∧ short 0 x) as [-> Hs].
      { destruct Hx as [[-> ->]|[-> ->]]; match goal with Hq : rbt _ _ E |- _ => inversion Hq; subst end; (split; [done|]).
        - destruct cr; [by left|]. right. split; [by eapply rbt_col|]. match goal with Hq : rbt 0 false _ |- _ => inversion Hq; subst end. by eapply rbt_B.
        - destruct cl; [by left|]. right. split; [by eapply rbt_col|]. match goal with Hq : rbt 0 false _ |- _ => inversion Hq; subst end. by eapply rbt_B. }
      eapply delete_fixup_h; done.
  Qed.
  Definition del_rest_within (f : nat) (z y : ptr) : M (rb K V) unit :=
    let! yl := left y in
    let! x := (match yl with None => right y | _ => mret_ yl end) in
    let! xparent := parent y in
    (match x with None => mret_ tt | _ => put x (with_parent xparent) end) ;;
    let! yp := parent y in
    (match yp with
     | None => set_root x
     | _ => let! ypl := left yp in if peq y ypl then put yp (with_left x) else put yp (with_right x)
     end) ;;
    (if peq y z then mret_ tt
     else let! yk := key y in put z (with_key yk) ;; let! yv := value y in put z (with_val yv)) ;;
    let! yc := color y in
    (if yc then delete_fixup_within f x xparent else mret_ tt) ;;
    let! n := get_size in set_size (n - 1).
  Lemma del_rest_h f z ctx yl y cy ky vy yr x s Q : rbrep s (plug ctx (N yl y cy ky vy yr)) → (yl = E ∧ x = yr) ∨ (yr = E ∧ x = yl) →
    (∀ s', rbrep s' (plug ctx x) → same s s' → rb_heap s' !! y = Some (MkNode (cpar ctx) (rootp yl) (rootp yr) cy ky vy) →
      wp ((if peq (Some y) z then mret_ tt
           else let! yk := key (Some y) in put z (with_key yk) ;; let! yv := value (Some y) in put z (with_val yv)) ;;
          let! yc := color (Some y) in
          (if yc then delete_fixup_within f (rootp x) (cpar ctx) else mret_ tt) ;;
          let! n := get_size in set_size (n - 1)) Q s') →
    wp (del_rest_within f z (Some y)) Q s.
  Proof using.
    intros H Hx HQ. unfold del_rest_within. apply wp_bind. eapply wp_eq; [by eapply rd_left|]. apply wp_bind. apply (wp_eq _ _ _ (rootp x) s).
    { destruct Hx as [[-> ->]|[-> ->]]; cbn [rootp]; [by eapply rd_right|]. destruct yl; cbn [rootp]; [|done]. by rewrite (rd_right _ _ _ _ _ _ _ _ H). }
    apply wp_bind. eapply wp_eq; [by eapply rd_parent|].
    pose proof (splice_ok _ _ _ _ _ _ _ _ _ H Hx) as Hsp. apply wp_Ok in Hsp as ([] & s1 & E1 & H1 & S1 & Hz1). unfold mbind_ in E1.
    apply wp_bind. destruct (reparent (rootp x) (cpar ctx) s) as [[[] s0]| |] eqn:E2; [|done|done]. eapply wp_eq; [exact E2|].
    apply wp_bind. destruct (parent (Some y) s0) as [[yp s0']| |] eqn:E3; [|done|done]. eapply wp_eq; [exact E3|]. apply wp_bind. eapply wp_eq; [exact E1|].
    by apply HQ.
  Qed.
  Lemma finish_h f s1 ctx yl y cy ky vy yr x m : rbrep s1 (plug ctx x) → rbt m BLACK (plug ctx (N yl y cy ky vy yr)) → (yl = E ∧ x = yr) ∨ (yr = E ∧ x = yl) → (length ctx < f)%nat →
    rb_heap s1 !! y = Some (MkNode (cpar ctx) (rootp yl) (rootp yr) cy ky vy) →
    wp (let! yc := color (Some y) in (if yc then delete_fixup_within f (rootp x) (cpar ctx) else mret_ tt) ;; let! n := get_size in set_size (n - 1)) (λ _ s', True) s1.
  Proof using.
    intros H1 Hm Hx Hf Hy. apply wp_bind. eapply wp_eq. { unfold color, mbind_, get. rewrite Hy. reflexivity. } cbn [n_color].
    apply wp_bind. eapply wp_mono; [eapply unlink_fix_h; [exact H1|exact Hm|done|done]|]. cbv beta. intros _ s2 _. wp_go. eapply wp_eq; [reflexivity|]. done.
  Qed.
  Lemma delete_h f s t L R z k v : rbinv s t → io t = L ++ (z, (k, v)) :: R → (height t < f)%nat → wp (rb_Delete_within f (Some z)) (λ _ s', True) s.
  Proof using.
    intros [H [m Hm] Hz] E1 Hf. destruct (locate _ _ _ _ _ _ E1) as (ctx & l & c & r & -> & -> & ->). rewrite E1, !app_length in Hz. cbn [length] in Hz. clear E1. pose proof (height_plug ctx (N l z c k v r)) as Hh. cbn [height] in Hh.
    change (rb_Delete_within f (Some z)) with (let! zl := left (K := K) (V := V) (Some z) in
      let! y := (match zl with None => mret_ (Some z) | _ => let! zr := right (Some z) in match zr with None => mret_ (Some z) | _ => successor_within f (Some z) end end) in del_rest_within f (Some z) y).
    apply wp_bind. eapply wp_eq; [by eapply rd_left|].
    assert (l = E ∨ r = E → wp (del_rest_within f (Some z) (Some z)) (λ _ s', True) s) as Hone.
    { intros Hlr. assert (∃ x, (l = E ∧ x = r) ∨ (r = E ∧ x = l)) as [x Hx] by naive_solver. eapply del_rest_h; [exact H|exact Hx|]. intros s1 H1 S1 Hz1.
      unfold peq. rewrite bool_decide_eq_true_2 by done. wp_go.
      eapply (finish_h f s1 ctx l z c k v r x m); try done. lia. }
    destruct l as [|ll la lc lk lv lr] eqn:El; cbn [rootp]. { wp_go. apply Hone. by left. }
    rewrite <-El in *. apply wp_bind. apply wp_bind. eapply wp_eq; [by eapply rd_right|].
    destruct r as [|rl ra rc rk rv rr] eqn:Er; cbn [rootp]. { apply wp_ret. apply Hone. by right. }
    rewrite <-Er in *. clear Hone.
    destruct (minimum_ok (FR l z c k v :: ctx) r s H ltac:(by rewrite Er)) as (fs & y & cy & ky & vy & yr & E2' & E3 & E4 & E5).
    destruct (min_h f (FR l z c k v :: ctx) r s H ltac:(by rewrite Er) ltac:(lia)) as [p E2]. pose proof (ag_min _ _ _ s _ _ E2 E2') as Eq. injection Eq as ->. clear E2'.
    assert (length fs <= height r)%nat as Hfs. { rewrite E3. etransitivity; [|apply height_plug]. lia. }
    assert (rootp r = Some ra) as Hra by by rewrite Er.
    apply (wp_eq _ _ _ (Some y) s). { unfold successor_within, mbind_. rewrite (rd_right _ _ _ _ _ _ _ _ H). rewrite Hra. rewrite Hra in E2. exact E2. }
    set (ctx' := fs ++ FR l z c k v :: ctx).
    assert (∀ T, plug ctx' T = plug ctx (N l z c k v (plug fs T))) as Hpl. { intros T. unfold ctx'. by rewrite plug_app. }
    assert (rbrep s (plug ctx' (N E y cy ky vy yr))) as H'. { by rewrite Hpl, <-E3. }
    assert (z ≠ y) as Hzy.
    { pose proof (rr_nodup _ _ H) as N1. rewrite ads_plug, ads_N in N1. apply NoDup_app in N1 as (_ & _ & N1). apply NoDup_app in N1 as (_ & _ & N1). apply NoDup_cons in N1 as [N1 _]. unfold ads in N1. rewrite E5 in N1. set_solver. }
    eapply (del_rest_h f _ ctx' E y cy ky vy yr yr); [exact H'|by left|]. intros s1 H1 S1 Hy1. unfold peq. rewrite bool_decide_eq_false_2 by congruence.
    rewrite Hpl in H1. apply wp_bind. apply wp_bind. eapply wp_eq. { unfold key, mbind_, get. rewrite Hy1. reflexivity. } cbn [n_key].
    pose proof (proj1 (foc_split _ _ _) H1) as ((Hz1 & _) & _).
    apply wp_bind. eapply wp_eq. { unfold put. rewrite Hz1. reflexivity. }
    assert (put (Some z) (with_key ky) s1 = Ok (tt, MkRb (<[z := with_key ky (MkNode (cpar ctx) (rootp l) (rootp (plug fs yr)) c k v)]> (rb_heap s1)) (rb_next s1) (rb_root s1) (rb_size s1))) as Ep. { unfold put. by rewrite Hz1. }
    pose proof (wp_elim _ _ _ _ _ (foc_put s1 ctx _ _ _ _ _ _ (with_key ky) c ky v H1 ltac:(done)) Ep) as [H2 S2]. clear Ep.
    set (s2 := MkRb (<[z := _]> _) _ _ _) in *. assert (rb_heap s2 !! y = Some (MkNode (cpar ctx') None (rootp yr) cy ky vy)) as Hy2. { cbn. rewrite lookup_insert_ne by done. exact Hy1. }
    apply wp_bind. eapply wp_eq. { unfold value, mbind_, get. rewrite Hy2. reflexivity. } cbn [n_val].
    pose proof (proj1 (foc_split _ _ _) H2) as ((Hz2 & _) & _). eapply wp_eq. { unfold put. rewrite Hz2. reflexivity. }
    assert (put (Some z) (with_val vy) s2 = Ok (tt, MkRb (<[z := with_val vy (MkNode (cpar ctx) (rootp l) (rootp (plug fs yr)) c ky v)]> (rb_heap s2)) (rb_next s2) (rb_root s2) (rb_size s2))) as Ep. { unfold put. by rewrite Hz2. }
    pose proof (wp_elim _ _ _ _ _ (foc_put s2 ctx _ _ _ _ _ _ (with_val vy) c ky vy H2 ltac:(done)) Ep) as [H3 S3]. clear Ep.
    set (s3 := MkRb (<[z := with_val _ _]> _) _ _ _) in *. assert (rb_heap s3 !! y = Some (MkNode (cpar ctx') None (rootp yr) cy ky vy)) as Hy3. { etrans; [apply lookup_insert_ne; done|exact Hy2]. }
    set (ctx2 := fs ++ FR l z c ky vy :: ctx).
    assert (∀ T, plug ctx2 T = plug ctx (N l z c ky vy (plug fs T))) as Hpl2. { intros T. unfold ctx2. by rewrite plug_app. }
    assert (cpar ctx2 = cpar ctx') as Hcp. { unfold ctx2, ctx'. destruct fs; done. }
    rewrite <-Hcp in Hy3 |- *. rewrite <-Hpl2 in H3.
    assert (∃ m', rbt m' BLACK (plug ctx2 (N E y cy ky vy yr))) as [m' Hm'].
    { rewrite Hpl2, <-E3. destruct (unplug_ok _ _ _ Hm) as (n & b & c' & Hc & Hn & Hb). eapply plug_ok; [exact Hc| |exact Hb]. inversion Hn; subst; by econstructor. }
    eapply (finish_h f s3 ctx2 E y cy ky vy yr yr m'); try done; [by left|]. unfold ctx2. rewrite app_length. cbn [length]. lia.
  Qed.
End deletes.
