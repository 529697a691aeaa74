(** The ordered containers compare only keys they were given: with two comparison functions that
    agree on all keys used, everything is the same. *)
From Verif Require Import Base Wp History RbModel RbTree RbRot RbIns RbIns2 RbDel RbNav RbDel2 RbSpec RbFind RbProps RbApi MapModel MapSpec MapProofs SetModel SetSpec SetProofs AnyCmpRb AnyCmpSpec AnyCmpMap AnyCmpSet.
Open Scope Z_scope.
Open Scope go_scope.

Section tree.
  Context {K V : Type} (cmp cmp' : K → K → Z) (P : K → Prop) (Hag : ∀ x y, P x → P y → cmp x y = cmp' x y).
  Implicit Types (s : rb K V) (t : tree K V).
  Definition keysP (l : list (nat * (K * V))) : Prop := ∀ x, x ∈ l → P x.2.1.
  Lemma keysP_N l a c k v r : keysP (io (N l a c k v r)) → keysP (io l) ∧ P k ∧ keysP (io r).
  Proof using. clear cmp cmp' Hag. intros H. split_and!; [intros x Hx; apply H|apply (H (a, (k, v)))|intros x Hx; apply H]; cbn [io]; set_solver. Qed.
  Lemma find_lower_ext f k ctx t s : rbrep s (plug ctx t) → (length (io t) < f)%nat → keysP (io t) → P k → find_lower cmp f (rootp t) k s = find_lower cmp' f (rootp t) k s.
  Proof using Hag.
    revert ctx t. induction f as [|f IH]; intros ctx t H Hf HP Hk; [lia|]. destruct t as [|l a c xk xv r]; [done|].
    cbn [find_lower rootp]. unfold mbind_. rewrite (rd_key _ _ _ _ _ _ _ _ H). cbn [io] in Hf. rewrite app_length in Hf. cbn [length] in Hf. destruct (keysP_N _ _ _ _ _ _ HP) as (HPl & HPx & HPr). rewrite Hag by done.
    destruct (cmp' k xk <=? 0).
    - rewrite (rd_left _ _ _ _ _ _ _ _ H). rewrite (IH (FL a c xk xv r :: ctx) l H) by (done || lia).
      destruct (find_lower_any cmp' f k (FL a c xk xv r :: ctx) l s H ltac:(lia)) as ([b|] & -> & Hm); [|done]. destruct Hm as (kv & Hin & _).
      rewrite (read_key s _ b kv H) by by apply (sub_in l (FL a c xk xv r :: ctx)). rewrite (rd_key _ _ _ _ _ _ _ _ H). rewrite Hag; [done| |done]. by apply (HPl _ Hin).
    - rewrite (rd_right _ _ _ _ _ _ _ _ H). apply (IH (FR l a c xk xv :: ctx) r H); done || lia.
  Qed.
  Lemma find_upper_ext f k ctx t s : rbrep s (plug ctx t) → (length (io t) < f)%nat → keysP (io t) → P k → find_upper cmp f (rootp t) k s = find_upper cmp' f (rootp t) k s.
  Proof using Hag.
    revert ctx t. induction f as [|f IH]; intros ctx t H Hf HP Hk; [lia|]. destruct t as [|l a c xk xv r]; [done|].
    cbn [find_upper rootp]. unfold mbind_. rewrite (rd_key _ _ _ _ _ _ _ _ H). cbn [io] in Hf. rewrite app_length in Hf. cbn [length] in Hf. destruct (keysP_N _ _ _ _ _ _ HP) as (HPl & HPx & HPr). rewrite Hag by done.
    destruct (0 <=? cmp' k xk).
    - rewrite (rd_right _ _ _ _ _ _ _ _ H). apply (IH (FR l a c xk xv :: ctx) r H); done || lia.
    - rewrite (rd_left _ _ _ _ _ _ _ _ H). rewrite (IH (FL a c xk xv r :: ctx) l H) by (done || lia).
      destruct (find_upper_any cmp' f k (FL a c xk xv r :: ctx) l s H ltac:(lia)) as ([b|] & -> & Hm); [|done]. destruct Hm as (kv & Hin & _).
      rewrite (read_key s _ b kv H) by by apply (sub_in l (FL a c xk xv r :: ctx)). rewrite (rd_key _ _ _ _ _ _ _ _ H). rewrite Hag; [done| |done]. by apply (HPl _ Hin).
  Qed.
  Lemma lower_ext k t s : rbrep s t → keysP (io t) → P k → rb_FindLowerBoundNode cmp k s = rb_FindLowerBoundNode cmp' k s.
  Proof using Hag. intros H HP Hk. unfold rb_FindLowerBoundNode, mbind_, fuel, get_root. rewrite (rr_root _ _ H). apply (find_lower_ext _ _ []); [done| |done|done]. pose proof (count_ok _ _ H). lia. Qed.
  Lemma upper_ext k t s : rbrep s t → keysP (io t) → P k → rb_FindUpperBoundNode cmp k s = rb_FindUpperBoundNode cmp' k s.
  Proof using Hag. intros H HP Hk. unfold rb_FindUpperBoundNode, mbind_, fuel, get_root. rewrite (rr_root _ _ H). apply (find_upper_ext _ _ []); [done| |done|done]. pose proof (count_ok _ _ H). lia. Qed.
  Lemma findnode_ext k t s : rbrep s t → keysP (io t) → P k → rb_FindNode cmp k s = rb_FindNode cmp' k s.
  Proof using Hag.
    intros H HP Hk. unfold rb_FindNode, mbind_. rewrite (lower_ext k t s H HP Hk). destruct (lower_any cmp' k t s H) as ([a|] & -> & Hm); [|done]. destruct Hm as (kv & Hin & _). rewrite (read_key s t a kv H Hin). rewrite Hag; [done| |done]. by apply (HP _ Hin).
  Qed.
  Lemma find_ext k t s : rbrep s t → keysP (io t) → P k → rb_Find cmp k s = rb_Find cmp' k s.
  Proof using Hag. intros H HP Hk. unfold rb_Find, mbind_. by rewrite (findnode_ext k t s H HP Hk). Qed.
  Lemma descend_ext f k ctx t s : rbrep s (plug ctx t) → (length (io t) < f)%nat → keysP (io t) → P k → descend cmp f k (rootp t) (cpar ctx) s = descend cmp' f k (rootp t) (cpar ctx) s.
  Proof using Hag.
    revert ctx t. induction f as [|f IH]; intros ctx t H Hf HP Hk; [lia|]. destruct t as [|l a c xk xv r]; [done|].
    cbn [descend rootp]. unfold mbind_. rewrite (rd_key _ _ _ _ _ _ _ _ H). destruct (keysP_N _ _ _ _ _ _ HP) as (HPl & HPx & HPr). rewrite Hag by done.
    cbn [io] in Hf. rewrite app_length in Hf. cbn [length] in Hf. destruct (cmp' k xk <? 0).
    - rewrite (rd_left _ _ _ _ _ _ _ _ H). apply (IH (FL a c xk xv r :: ctx) l H); done || lia.
    - rewrite (rd_right _ _ _ _ _ _ _ _ H). apply (IH (FR l a c xk xv :: ctx) r H); done || lia.
  Qed.
  (** the part of Insert after the descent *)
  Definition ins_rest (c : K → K → Z) (k : K) (v : V) (y : ptr) : M (rb K V) unit :=
    let! z := (let! z := alloc (MkNode y None None RED k v) in
    let! n := get_size in
    set_size (n + 1) ;;
    match y with
    | None => put z (with_color BLACK) ;; set_root z ;; mret_ z
    | _ =>
      let! zk := key z in let! yk := key y in
      (if c zk yk <? 0 then put y (with_left z) else put y (with_right z)) ;;
      insert_fixup z ;; mret_ z
    end) in mret_ tt.
  Lemma insert_unfold c k v s : rb_Insert c k v s = match descend c (S (rb_next s)) k (rb_root s) None s with Ok (y, s1) => ins_rest c k v y s1 | Panic => Panic | Fuel => Fuel end.
  Proof using. unfold rb_Insert, rb_insert_node, ins_rest, mbind_ at 1, mbind_ at 1, mbind_ at 1, mbind_ at 1, get_root, fuel. destruct (descend c (S (rb_next s)) k (rb_root s) None s) as [[y s1]| |]; reflexivity. Qed.
  Lemma insert_ext k v t s : rbinv s t → keysP (io t) → P k → rb_Insert cmp k v s = rb_Insert cmp' k v s.
  Proof using Hag.
    intros [H Hrb Hsz] HP Hk. rewrite !insert_unfold. rewrite (rr_root _ _ H).
    pose proof (count_ok _ _ H) as Hc. change (@None nat) with (cpar (@nil (frame K V))). rewrite (descend_ext (S (rb_next s)) k [] t s H) by (done || lia).
    destruct (descend_any cmp' (S (rb_next s)) k [] t s H ltac:(lia)) as (ctx & -> & E2 & _ & _); [by split|]. cbn [plug] in E2. subst t.
    destruct ctx as [|fr ctx]; [reflexivity|]. pose proof (proj1 (foc_split _ _ _) H) as (_ & Hctx & _ & Hlt). change (ads E) with (@nil nat) in Hlt. rewrite app_nil_r in Hlt.
    assert (∃ y n, cpar (fr :: ctx) = Some y ∧ rb_heap s !! y = Some n ∧ (y < rb_next s)%nat ∧ P (n_key n)) as (y & n & -> & Hy & Hyn & HPy).
    { rewrite io_plug in HP. destruct fr as [a c ka va r|l a c ka va]; destruct Hctx as (H1 & _); eexists a, _; (split_and!; [done|exact H1| |]).
      - rewrite cads_FL in Hlt. by apply Forall_cons in Hlt as [? _].
      - apply (HP (a, (ka, va))). cbn. set_solver.
      - rewrite cads_FR in Hlt. by apply Forall_cons in Hlt as [? _].
      - apply (HP (a, (ka, va))). cbn. set_solver. }
    unfold ins_rest, alloc, get_size, set_size, key, get, mbind_, mret_. cbn [rb_heap rb_next rb_root rb_size]. rewrite lookup_insert. cbn [n_key]. cbn [rb_heap]. rewrite lookup_insert_ne by lia. rewrite Hy. by rewrite Hag.
  Qed.
End tree.

#[local] Opaque rb_First rb_Last rb_FindNode rb_FindLowerBoundNode rb_FindUpperBoundNode rb_Find rb_Insert rb_Delete rb_Clear rb_Traversal set_value key value next prev rb_Size.

(** the keys an operation passes *)
Definition map_keys {K V W} (o : map_op K V W) : list K := match o with MInsert k _ | MGet k | MErase k | MEraseFound k | MFind k _ | MLower k _ | MUpper k _ | MContains k => [k] | _ => [] end.
Definition set_keys {T W} (o : set_op T W) : list T := match o with SInsert x | SErase x | SEraseAll x | SCount x | SFind x _ | SLower x _ | SUpper x _ | SContains x => [x] | _ => [] end.

Lemma bind_ext {S A B} (m m' : M S A) (f f' : A → M S B) s : m s = m' s → (∀ a s', m' s = Ok (a, s') → f a s' = f' a s') → mbind_ m f s = mbind_ m' f' s.
Proof. intros E1 H. unfold mbind_. rewrite E1. destruct (m' s) as [[a s']| |]; [by apply H|done..]. Qed.
Lemma bind_ext1 {S A B} (m m' : M S A) (f : A → M S B) s : m s = m' s → mbind_ m f s = mbind_ m' f s.
Proof. intros E1. by apply bind_ext. Qed.
Lemma run_ext {S O R A} (step step' : O → M S R) (rel : S → A → Prop) (good : O → Prop) :
  (∀ o s a, good o → rel s a → step o s = step' o s ∧ ∀ r s', step o s = Ok (r, s') → ∃ a', rel s' a') →
  ∀ ops s a, Forall good ops → rel s a → run step ops s = run step' ops s.
Proof.
  intros H ops. induction ops as [|o ops IH]; intros s a Hg Hr; [done|]. apply Forall_cons in Hg as [Hg Hgs]. cbn [run]. destruct (H o s a Hg Hr) as [E1 E2]. rewrite <-E1.
  destruct (step o s) as [[r s']| |]; [|done..]. destruct (E2 r s' eq_refl) as [a' Hr']. by rewrite (IH s' a').
Qed.

Section maps.
  Context {K V W : Type} (cmp cmp' : K → K → Z) (P : K → Prop) (Hag : ∀ x y, P x → P y → cmp x y = cmp' x y).
  Implicit Types (s : rb K V) (t : tree K V) (l : list (K * V)).
  Definition listP l : Prop := ∀ x, x ∈ l → P x.1.
  Lemma listP_io t : listP (io t).*2 → keysP P (io t).
  Proof using. clear cmp cmp' Hag. intros H x Hx. apply (H x.2). apply elem_of_list_fmap. by exists x. Qed.
  Lemma listP_del (L R : list (K * V)) : listP (L ++ R) → listP (L ++ tail R).
  Proof using. clear cmp cmp' Hag. intros H x Hx. apply H. destruct R; cbn in Hx; set_solver. Qed.
  Lemma erase_loop_ext f k s l : aholds s l → listP l → P k → (length l < f)%nat → mm_erase_loop cmp f k s = mm_erase_loop cmp' f k s.
  Proof using Hag.
    revert s l. induction f as [|f IH]; intros s l H HP Hk Hf; [lia|]. pose proof H as (t & Ht & <-). cbn [mm_erase_loop]. apply bind_ext; [by apply (findnode_ext cmp cmp' P Hag k t s (ri_rep _ _ Ht) (listP_io t HP))|]. intros p s0.
    destruct (ahd_eq cmp' s t k Ht) as (L & R & -> & E2 & E3). intros [= <- <-]. destruct (delete_step s t L R Ht E2) as (s1 & E4 & H1). destruct R as [|[a kv] R]; [done|]. cbn [hd head fmap option_fmap option_map fst] in E4 |- *.
    unfold mbind_. rewrite E4. apply (IH s1 _ H1).
    - apply listP_del. by rewrite <-(proj1 E3).
    - done.
    - apply (f_equal length) in E2. rewrite app_length in E2. rewrite fmap_length in Hf. rewrite app_length, fmap_cons. cbn [length tail] in E2 |- *. rewrite !fmap_length. lia.
  Qed.
  Lemma map_step_ext (o : map_op K V W) s l : aholds s l → listP l → Forall P (map_keys o) → map_step cmp o s = map_step cmp' o s ∧ mm_step cmp o s = mm_step cmp' o s.
  Proof using Hag.
    intros H HP Ho. pose proof H as (t & Ht & <-). pose proof (ri_rep _ _ Ht) as Hp. pose proof (listP_io t HP) as HPt.
    destruct o; try done; cbn [map_keys] in Ho; apply Forall_cons in Ho as [Hk _]; cbn [map_step mm_step].
    - assert (rb_Insert cmp k v s = rb_Insert cmp' k v s) as E1 by by apply (insert_ext cmp cmp' P Hag k v t). split; [|by apply bind_ext1].
      apply bind_ext1. apply bind_ext; [by apply (findnode_ext cmp cmp' P Hag k t s)|]. intros p s0. destruct (ahd_eq cmp' s t k Ht) as (L & R & -> & _). intros [= <- <-]. destruct (hd R); [done|]. by rewrite E1.
    - split; apply bind_ext1, bind_ext1; by apply (findnode_ext cmp cmp' P Hag k t s).
    - split; [apply bind_ext1, bind_ext1; by apply (findnode_ext cmp cmp' P Hag k t s)|].
      apply bind_ext1. unfold mm_Erase, mbind_, fuel. apply (erase_loop_ext _ k s (io t).*2); [done|done|done|]. pose proof (count_ok _ _ Hp). rewrite fmap_length. lia.
    - split; [|done]. apply bind_ext1. by apply (findnode_ext cmp cmp' P Hag k t s).
    - split; apply bind_ext1; by apply (findnode_ext cmp cmp' P Hag k t s).
    - split; apply bind_ext1; by apply (lower_ext cmp cmp' P Hag k t s).
    - split; apply bind_ext1; by apply (upper_ext cmp cmp' P Hag k t s).
    - split; apply bind_ext1, bind_ext1; by apply (find_ext cmp cmp' P Hag k t s).
  Qed.
  Lemma obs_keys (o : map_op K V W) l r l' : obs cmp l o = Some (r, l') → listP l → listP l'.
  Proof using. clear cmp' Hag.
    intros E1 HP. destruct o; cbn in E1; try done; try (injection E1 as <- <-; done || (intros x Hx; by apply elem_of_nil in Hx)); destruct (l !! i) as [kv|] eqn:Ei; try done; cbn in E1; injection E1 as <- <-; try done.
    intros x Hx. apply elem_of_list_lookup in Hx as [j Hj]. destruct (decide (i = j)) as [->|Hne].
    - rewrite list_lookup_insert in Hj by by eapply lookup_lt_Some. injection Hj as <-. cbn. apply HP. by eapply elem_of_list_lookup_2.
    - rewrite list_lookup_insert_ne in Hj by done. apply HP. by eapply elem_of_list_lookup_2.
  Qed.
  Lemma thin_sub {A} (Q : A → Prop) (l l' : list A) x : thinned Q l l' → x ∈ l' → x ∈ l.
  Proof using. clear. induction 1; set_solver. Qed.
  Lemma map_allows_keys (o : map_op K V W) l r l' : map_allows cmp o l r l' → listP l → Forall P (map_keys o) → listP l'.
  Proof using. clear cmp' Hag.
    intros Ha HP Ho. assert (searching o = true → l' = l) as Hs. { destruct o; try done; intros _; by destruct Ha. } destruct (searching o) eqn:Es. { rewrite Hs; done. } clear Hs.
    destruct o; try done; cbn [map_allows searching] in Ha; try (by eapply obs_keys).
    - apply Forall_cons in Ho as [Hk _]. destruct Ha as [_ [(L & kv & R & -> & _ & ->)|(L & R & -> & -> & _)]]; intros x [Hx|[-> |Hx]%elem_of_cons]%elem_of_app; try done; try (apply HP; set_solver). apply (HP kv). set_solver.
    - destruct Ha as (_ & L & R & [-> _] & ->). by apply listP_del.
    - destruct Ha as [_ ->]. intros x Hx. apply HP. by eapply sublist_elem_of; [apply sublist_delete|..] || (eapply elem_of_submseteq; [exact Hx|]; apply sublist_submseteq, sublist_delete).
    - destruct Ha as (_ & L & R & [-> _] & ->). by apply listP_del.
  Qed.
  Lemma mm_allows_keys (o : map_op K V W) l r l' : mm_allows cmp o l r l' → listP l → Forall P (map_keys o) → listP l'.
  Proof using. clear cmp' Hag.
    intros Ha HP Ho. assert (searching o = true → l' = l) as Hs. { destruct o; try done; intros _; by destruct Ha. } destruct (searching o) eqn:Es. { rewrite Hs; done. } clear Hs.
    destruct o; try done; cbn [mm_allows searching] in Ha; try (by eapply obs_keys).
    - apply Forall_cons in Ho as [Hk _]. destruct Ha as [_ (L & R & -> & -> & _)]; intros x [Hx|[-> |Hx]%elem_of_cons]%elem_of_app; try done; apply HP; set_solver.
    - destruct Ha as [_ Hth]. intros x Hx. apply HP. by eapply thin_sub.
    - by destruct Ha as [_ ->].
    - by destruct Ha as [_ ->].
  Qed.
  Lemma map_run_ext (ops : list (map_op K V W)) : Forall (λ o, Forall P (map_keys o)) ops → run (map_step cmp) ops rb_new = run (map_step cmp') ops rb_new ∧ run (mm_step cmp) ops rb_new = run (mm_step cmp') ops rb_new.
  Proof using Hag.
    intros Hops. assert (aholds (rb_new : rb K V) [] ∧ listP ([] : list (K * V))) as Hnew. { split; [apply aholds_new|]. intros x Hx. by apply elem_of_nil in Hx. }
    split; (eapply (run_ext _ _ (λ s l, aholds s l ∧ listP l)); [|exact Hops|exact Hnew]); intros o s l Ho [H HP]; (split; [by eapply map_step_ext|]); intros r s' E1.
    - destruct (map_any cmp o s l H) as [(r1 & s1 & l1 & E2 & Ha & H1)|[E2 _]]; rewrite E1 in E2; [|done]. injection E2 as <- <-. exists l1. split; [done|by eapply map_allows_keys].
    - destruct (mm_any cmp o s l H) as [(r1 & s1 & l1 & E2 & Ha & H1)|[E2 _]]; rewrite E1 in E2; [|done]. injection E2 as <- <-. exists l1. split; [done|by eapply mm_allows_keys].
  Qed.
End maps.

Section sets.
  Context {T W : Type} (cmp cmp' : T → T → Z) (P : T → Prop) (Hag : ∀ x y, P x → P y → cmp x y = cmp' x y).
  Implicit Types (s : rb T bool) (t : tree T bool) (l : list T).
  Lemma count_ext s t L R x f c : rbinv s t → io t = L ++ R → keysP P (io t) → P x → (length R < f)%nat → ms_count_loop cmp f x (hd R) c s = ms_count_loop cmp' f x (hd R) c s.
  Proof using Hag.
    intros H. pose proof (ri_rep _ _ H) as Hp. revert L R c. induction f as [|f IH]; intros L R c E1 HP Hx Hf; [lia|]. destruct R as [|[a [k v]] R]; [done|]. cbn [ms_count_loop hd head fmap option_fmap option_map fst list_fmap snd].
    unfold mbind_. rewrite (key_ok _ _ _ _ _ _ _ Hp E1). rewrite (next_ok _ _ _ _ _ _ _ Hp E1). fold (hd R). rewrite Hag; [|apply (HP (a, (k, v))); rewrite E1; set_solver|done]. apply (IH (L ++ [(a, (k, v))])); [by rewrite <-app_assoc|done|done|cbn in Hf; lia].
  Qed.
  Lemma set_step_ext (o : set_op T W) s l : seholds s l → (∀ x, x ∈ l → P x) → Forall P (set_keys o) → set_step cmp o s = set_step cmp' o s ∧ ms_step cmp o s = ms_step cmp' o s.
  Proof using Hag.
    intros (t & Ht & <-) HP Ho. pose proof (ri_rep _ _ Ht) as Hp. assert (keysP P (io t)) as HPt. { intros x Hx. apply HP. apply elem_of_list_fmap. exists x.2. split; [done|]. apply elem_of_list_fmap. by exists x. }
    destruct o; try done; cbn [set_keys] in Ho; apply Forall_cons in Ho as [Hk _]; cbn [set_step ms_step].
    - assert (rb_Insert cmp x set_Empty_const s = rb_Insert cmp' x set_Empty_const s) as E1 by by apply (insert_ext cmp cmp' P Hag x _ t). split; [|by apply bind_ext1].
      apply bind_ext1. apply bind_ext; [by apply (findnode_ext cmp cmp' P Hag x t s)|]. intros p s0. destruct (ahd_eq cmp' s t x Ht) as (L & R & -> & _). intros [= <- <-]. destruct (hd R); [done|]. by rewrite E1.
    - split; apply bind_ext1, bind_ext1; by apply (findnode_ext cmp cmp' P Hag x t s).
    - split; [done|]. apply bind_ext1. unfold ms_EraseAll, mbind_, fuel. rewrite !ms_loop. apply (erase_loop_ext cmp cmp' P Hag _ x s (io t).*2); [by exists t| |done|].
      + intros y Hy. apply elem_of_list_fmap in Hy as (z & -> & Hz). by apply HPt.
      + pose proof (count_ok _ _ Hp). rewrite fmap_length. lia.
    - split; apply bind_ext1; by apply (findnode_ext cmp cmp' P Hag x t s).
    - split; apply bind_ext1; by apply (lower_ext cmp cmp' P Hag x t s).
    - split; apply bind_ext1; by apply (upper_ext cmp cmp' P Hag x t s).
    - split; apply bind_ext1, bind_ext1; by apply (find_ext cmp cmp' P Hag x t s).
    - split; [done|]. apply bind_ext1. unfold ms_Count, mbind_. rewrite (hd_first _ _ Hp). unfold fuel. apply (count_ext s t [] (io t)); [done|done|done|done|]. pose proof (count_ok _ _ Hp). lia.
  Qed.
  Lemma set_allows_keys (o : set_op T W) l r l' : set_allows cmp o l r l' ∨ ms_allows cmp o l r l' → (∀ x, x ∈ l → P x) → Forall P (set_keys o) → ∀ x, x ∈ l' → P x.
  Proof using. clear cmp' Hag.
    intros Ha HP Ho y Hy. assert (∀ L R x, l = L ++ R → l' = L ++ x :: R → P x → P y) as Hins. { intros L R x -> -> Hx. apply elem_of_app in Hy as [Hy|[-> |Hy]%elem_of_cons]; try done; apply HP; set_solver. }
    assert (∀ L R, l = L ++ R → l' = L ++ tail R → P y) as Hdel. { intros L R -> ->. apply HP. destruct R; cbn in Hy; set_solver. }
    assert (l' = l → P y) as Hsame. { intros ->. by apply HP. } assert (l' = [] → P y) as Hnil. { intros ->. by apply elem_of_nil in Hy. }
    destruct o; cbn [set_allows ms_allows set_searching set_keys s_obs] in Ha, Ho.
    - apply Forall_cons in Ho as [Hk _]. destruct Ha as [[_ [[-> _]|(L & R & E1 & E2 & _)]]|[_ (L & R & E1 & E2 & _)]]; [by apply Hsame|by eapply Hins|by eapply Hins].
    - destruct Ha as [(_ & L & R & [E1 _] & E2)|(_ & L & R & [E1 _] & E2)]; by eapply Hdel.
    - destruct Ha as [[_ ->]|[_ Hth]]; [by apply Hsame|]. apply HP. by eapply thin_sub.
    - destruct Ha as [[_ ->]|[_ ->]]; by apply Hsame.
    - destruct Ha as [[_ ->]|[_ ->]]; by apply Hsame.
    - destruct Ha as [[_ ->]|[_ ->]]; by apply Hsame.
    - destruct Ha as [Ha|Ha]; injection Ha as _ <-; by apply Hsame.
    - destruct Ha as [Ha|Ha]; injection Ha as _ <-; by apply Hsame.
    - destruct Ha as [Ha|Ha]; injection Ha as _ <-; by apply Hsame.
    - destruct Ha as [Ha|Ha]; destruct (l !! i); cbn in Ha; try done; injection Ha as _ <-; by apply Hsame.
    - destruct Ha as [Ha|Ha]; injection Ha as _ <-; by apply Hsame.
    - destruct Ha as [Ha|Ha]; injection Ha as _ <-; by apply Hnil.
    - destruct Ha as [[_ ->]|[_ ->]]; by apply Hsame.
    - destruct Ha as [Ha|Ha]; injection Ha as _ <-; by apply Hsame.
    - destruct Ha as [[_ ->]|[_ ->]]; by apply Hsame.
    - destruct Ha as [Ha|Ha]; injection Ha as _ <-; by apply Hsame.
    - destruct Ha as [Ha|Ha]; injection Ha as _ <-; by apply Hsame.
  Qed.
  Lemma set_run_ext (ops : list (set_op T W)) : Forall (λ o, Forall P (set_keys o)) ops → run (set_step cmp) ops rb_new = run (set_step cmp') ops rb_new ∧ run (ms_step cmp) ops rb_new = run (ms_step cmp') ops rb_new.
  Proof using Hag.
    intros Hops. assert (seholds (rb_new : rb T bool) [] ∧ ∀ x : T, x ∈ [] → P x) as Hnew. { split; [apply seholds_new|]. intros x Hx. by apply elem_of_nil in Hx. }
    split; (eapply (run_ext _ _ (λ s l, seholds s l ∧ ∀ x, x ∈ l → P x)); [|exact Hops|exact Hnew]); intros o s l Ho [H HP]; (split; [by eapply set_step_ext|]); intros r s' E1.
    - destruct (set_any cmp o s l H) as [(r1 & s1 & l1 & E2 & Ha & H1)|[E2 _]]; rewrite E1 in E2; [|done]. injection E2 as <- <-. exists l1. split; [done|]. eapply set_allows_keys; [by left|done|done].
    - destruct (ms_any cmp o s l H) as [(r1 & s1 & l1 & E2 & Ha & H1)|[E2 _]]; rewrite E1 in E2; [|done]. injection E2 as <- <-. exists l1. split; [done|]. eapply set_allows_keys; [by right|done|done].
  Qed.
End sets.
