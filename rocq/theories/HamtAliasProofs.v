(** The trie whose keys are slices, seen through the bytes of the slices, is the trie of HamtModel.v. *)
From Verif Require Import Base GoSliceModel HamtModel HamtAliasModel.
Open Scope N_scope.

Section rel.
  Context {K T : Type} (R : K → key → Prop).
  Definition prel (x : K * T) (y : key * T) : Prop := R x.1 y.1 ∧ x.2 = y.2.
  Inductive erel : gentry K T → entry T → Prop :=
    | er_kv h kvs kvs' : Forall2 prel kvs kvs' → erel (GKv h kvs) (Kv h kvs')
    | er_bm p b ch ch' : Forall2 (option_Forall2 erel) ch ch' → erel (GBm p b ch) (Bm p b ch').
  Definition srel := Forall2 (option_Forall2 erel).
  Definition rrel {A B} (Q : A → B → Prop) (x : res A) (y : res B) : Prop :=
    match x, y with Ok a, Ok b => Q a b | Panic, Panic => True | Fuel, Fuel => True | _, _ => False end.
  Lemma rrel_ok {A B} (Q : A → B → Prop) x b : rrel Q x (Ok b) → ∃ a, x = Ok a ∧ Q a b.
  Proof. destruct x as [a| |]; [|done|done]. intros H. by exists a. Qed.
End rel.

Lemma erel_mono {K T} (R R' : K → key → Prop) : (∀ s k, R s k → R' s k) → ∀ (e : gentry K T) e', erel R e e' → erel R' e e'.
Proof.
  intros HR. fix IH 3. intros e e' H. destruct H as [h kvs kvs' H|p b ch ch' H]; constructor.
  - clear IH. eapply Forall2_impl; [exact H|]. intros x y [? ?]. split; [by apply HR | done].
  - induction H as [|o o' l l' Ho Hl IHl]; constructor; [|exact IHl]. destruct Ho as [e e' He|]; constructor. by apply IH.
Qed.

Section ops.
  Context {K T : Type} (R : K → key → Prop) (eqk : K → K → bool).
  Context (Heq : ∀ a a' b b', R a a' → R b b' → eqk a b = bool_decide (a' = b')).
  Notation erel := (erel (T := T) R).
  Notation srel := (srel (T := T) R).
  Notation prel := (prel (T := T) R).

  Lemma bitposnum_rel d e e' : erel e e' → g_bitposnum d e = bitposnum d e'.
  Proof. by destruct 1. Qed.
  Lemma assign_rel l l' i e e' : srel l l' → erel e e' → rrel srel (g_assign l i e) (assign l' i e').
  Proof.
    intros Hl He. unfold g_assign, assign. assert (length l = length l') as Hlen by (by eapply Forall2_length).
    destruct (decide (i < length l)%nat), (decide (i < length l')%nat); try lia; cbn; [|done]. apply Forall2_insert; [done|]. by constructor.
  Qed.
  Lemma place_all_rel bm d from from' : srel from from' → ∀ to to', srel to to' → rrel srel (g_place_all bm d from to) (place_all bm d from' to').
  Proof.
    induction 1 as [|o o' l l' Ho Hl IH]; intros to to' Ht; cbn [g_place_all place_all]; [done|]. destruct Ho as [e e' He|]; [|done].
    rewrite (bitposnum_rel _ _ _ He). pose proof (assign_rel to to' (index bm (bitposnum d e')) e e' Ht He) as Ha.
    destruct (g_assign _ _ _), (assign _ _ _); try done. by apply IH.
  Qed.
  Lemma place_some_rel bm d from from' : srel from from' → ∀ to to', srel to to' → rrel srel (g_place_some bm d from to) (place_some bm d from' to').
  Proof.
    induction 1 as [|o o' l l' Ho Hl IH]; intros to to' Ht; cbn [g_place_some place_some]; [done|]. destruct Ho as [e e' He|]; [|by apply IH].
    rewrite (bitposnum_rel _ _ _ He). pose proof (assign_rel to to' (index bm (bitposnum d e')) e e' Ht He) as Ha.
    destruct (g_assign _ _ _), (assign _ _ _); try done. by apply IH.
  Qed.
  Lemma nones_rel n : srel (replicate n None) (replicate n None).
  Proof. induction n; constructor; [constructor | done]. Qed.
  Lemma update_rel k k' v l l' : R k k' → Forall2 prel l l' → option_Forall2 (Forall2 prel) (g_update_kv eqk k v l) (update_kv k' v l').
  Proof using Heq.
    intros Hk. induction 1 as [|[x w] [x' w'] l l' [Hx Hw] Hl IH]; cbn [g_update_kv update_kv fst snd] in *; [constructor|]. subst w'.
    rewrite (Heq _ _ _ _ Hx Hk). destruct (bool_decide _). { constructor. constructor; [by split | done]. }
    destruct IH; constructor. constructor; [by split | done].
  Qed.
  Lemma find_rel k k' l l' : (∀ a a', R a a' → eqk a k = bool_decide (a' = k')) → Forall2 prel l l' → g_find_kv eqk k l = find_kv k' l'.
  Proof.
    intros Hk. induction 1 as [|[x w] [x' w'] l l' [Hx Hw] Hl IH]; cbn [g_find_kv find_kv fst snd] in *; [done|]. subst w'.
    rewrite (Hk _ _ Hx). by destruct (bool_decide _).
  Qed.
  Lemma unlink_rel k k' l l' : (∀ a a', R a a' → eqk a k = bool_decide (a' = k')) → Forall2 prel l l' → option_Forall2 (Forall2 prel) (g_unlink eqk k l) (unlink k' l').
  Proof.
    intros Hk. induction 1 as [|[x w] [x' w'] l l' [Hx Hw] Hl IH]; cbn [g_unlink unlink fst snd] in *; [constructor|]. subst w'.
    rewrite (Hk _ _ Hx). destruct (bool_decide _). { by constructor. }
    destruct IH; constructor. constructor; [by split | done].
  Qed.
  (** one slot *)
  Lemma slot_rel ch ch' i : srel ch ch' → option_Forall2 (option_Forall2 erel) (ch !! i) (ch' !! i).
  Proof.
    intros H. destruct (ch' !! i) as [o'|] eqn:E.
    - destruct (Forall2_lookup_r _ _ _ _ _ H E) as (o & -> & ?). by constructor.
    - rewrite lookup_ge_None in E. rewrite (lookup_ge_None_2 ch) by (rewrite (Forall2_length _ _ _ H); done). constructor.
  Qed.
  Definition brel (x : N * list (option (gentry K T))) (y : N * list (option (entry T))) : Prop := x.1 = y.1 ∧ srel x.2 y.2.
  Lemma insert_rel f : ∀ d h kv kv' bm ch ch', Forall2 prel kv kv' → srel ch ch' →
    rrel brel (g_insert eqk f d h kv bm ch) (bn_insert f d h kv' bm ch').
  Proof using Heq.
    induction f as [|f IH]; intros d h kv kv' bm ch ch' Hkv Hch; cbn [g_insert bn_insert]; [done|]. cbv zeta. case_match.
    - assert (Hlen : length ch = length ch') by (by eapply Forall2_length). rewrite Hlen.
      pose proof (assign_rel (replicate (S (length ch')) None) (replicate (S (length ch')) None) (index (N.lor bm (bitposf (posf h d))) (bitposf (posf h d))) (GKv h kv) (Kv h kv')
        (nones_rel _) (er_kv _ _ _ _ Hkv)) as Ha.
      destruct (g_assign _ _ _) as [to| |], (assign _ _ _) as [to'| |]; try done.
      pose proof (place_all_rel (N.lor bm (bitposf (posf h d))) d ch ch' Hch to to' Ha) as Hp. destruct (g_place_all _ _ _ _), (place_all _ _ _ _); done.
    - pose proof (slot_rel ch ch' (index bm (bitposf (posf h d))) Hch) as Hs. destruct Hs as [o o' Ho|]; [|done]. destruct Ho as [e e' He|]; [|done].
      assert (He0 := He). destruct He as [h' kvs kvs' Hk|p b c c' Hc].
      + destruct (h' =? h).
        * destruct Hkv as [|[k v] [k' v'] kv kv' [Hkk Hvv] Hkv]; [done|]. cbn [fst snd] in *. subst v'.
          pose proof (update_rel k k' v kvs kvs' Hkk Hk) as Hu. destruct Hu as [l l' Hl|].
          -- split; [done|]. apply Forall2_insert; [done|]. constructor. by constructor.
          -- split; [done|]. apply Forall2_insert; [done|]. constructor. constructor. constructor; [by split | done].
        * pose proof (IH (S d) h' kvs kvs' 0 [] [] Hk ltac:(constructor)) as H1.
          destruct (g_insert _ _ _ h' _ _ _) as [[b1 c1]| |], (bn_insert _ _ h' _ _ _) as [[b1' c1']| |]; try done. destruct H1 as [Hb1 Hc1]. cbn [fst snd] in *. subst b1'.
          pose proof (IH (S d) h kv kv' b1 c1 c1' Hkv Hc1) as H2.
          destruct (g_insert _ _ _ h _ _ _) as [[b2 c2]| |], (bn_insert _ _ h _ _ _) as [[b2' c2']| |]; try done. destruct H2 as [Hb2 Hc2]. cbn [fst snd] in *. subst b2'.
          split; [done|]. apply Forall2_insert; [done|]. constructor. by constructor.
      + pose proof (IH (S d) h kv kv' b c c' Hkv Hc) as H2.
        destruct (g_insert _ _ _ h _ _ _) as [[b2 c2]| |], (bn_insert _ _ h _ _ _) as [[b2' c2']| |]; try done. destruct H2 as [Hb2 Hc2]. cbn [fst snd] in *. subst b2'.
        split; [done|]. apply Forall2_insert; [done|]. constructor. by constructor.
  Qed.
  Lemma gfind_rel f : ∀ d h k k' bm ch ch', (∀ a a', R a a' → eqk a k = bool_decide (a' = k')) → srel ch ch' → g_find eqk f d h k bm ch = bn_find f d h k' bm ch'.
  Proof.
    induction f as [|f IH]; intros d h k k' bm ch ch' Hk Hch; cbn [g_find bn_find]; [done|]. cbv zeta. case_match; [done|].
    pose proof (slot_rel ch ch' (index bm (bitposf (posf h d))) Hch) as Hs. destruct Hs as [o o' Ho|]; [|done]. destruct Ho as [e e' He|]; [|done].
    destruct He as [h' kvs kvs' Hkv|p b c c' Hc].
    - case_match; [done|]. f_equal. by apply find_rel.
    - by apply IH.
  Qed.
  Definition trel (x : bool * N * list (option (gentry K T))) (y : bool * N * list (option (entry T))) : Prop := x.1 = y.1 ∧ srel x.2 y.2.
  Lemma erase_rel f : ∀ d h k k' bm ch ch', (∀ a a', R a a' → eqk a k = bool_decide (a' = k')) → srel ch ch' → rrel trel (g_erase eqk f d h k bm ch) (bn_erase f d h k' bm ch').
  Proof.
    induction f as [|f IH]; intros d h k k' bm ch ch' Hk Hch; cbn [g_erase bn_erase]; [done|]. cbv zeta. case_match; [done|].
    pose proof (slot_rel ch ch' (index bm (bitposf (posf h d))) Hch) as Hs. destruct Hs as [o o' Ho|]; [|done]. destruct Ho as [e e' He|]; [|done].
    destruct He as [h' kvs kvs' Hkv|p b c c' Hc].
    - case_match; [done|]. pose proof (unlink_rel k k' kvs kvs' Hk Hkv) as Hu. destruct Hu as [l l' Hl|]; [|done]. destruct Hl as [|x y l l' Hxy Hl].
      + rewrite (Forall2_length _ _ _ Hch).
        assert (Hi : srel (<[index bm (bitposf (posf h d)) := None]> ch) (<[index bm (bitposf (posf h d)) := None]> ch')) by (apply Forall2_insert; [done | constructor]).
        pose proof (place_some_rel (N.land bm (N.lxor (2 ^ 64 - 1) (bitposf (posf h d)))) d _ _ Hi _ _ (nones_rel (length ch' - 1))) as Hp.
        destruct (g_place_some _ _ _ _), (place_some _ _ _ _); done.
      + split; [done|]. apply Forall2_insert; [done|]. constructor. constructor. by constructor.
    - pose proof (IH (S d) h k k' b c c' Hk Hc) as H1.
      destruct (g_erase _ _ _ h _ _ _) as [[[ok b1] c1]| |], (bn_erase _ _ h _ _ _) as [[[ok' b1'] c1']| |]; try done. destruct H1 as [[= <- <-] Hc1]. cbn [fst snd] in *.
      rewrite (Forall2_length _ _ _ Hc1). case_match.
      + pose proof (slot_rel c1 c1' 0 Hc1) as Hs. destruct Hs as [o o' Ho|]; [|done]. destruct Ho as [e e' He|]; [|done].
        assert (He0 := He). destruct He as [h2 kv2 kv2' Hk2|p2 b2 c2 c2' Hc2]; (split; [done|]; apply Forall2_insert; [done|]; constructor); [done | by constructor].
      + split; [done|]. apply Forall2_insert; [done|]. constructor. by constructor.
  Qed.
  Lemma trav_app (l : list (key * T)) ks : trav_kvs (λ (k : key) (_ : T) (ks : list key), (true, ks ++ [k])) l ks = (true, ks ++ l.*1).
  Proof. revert ks. induction l as [|[k v] l IH]; intros ks; cbn [trav_kvs fst snd fmap list_fmap]; [by rewrite app_nil_r|]. rewrite IH, <- app_assoc. done. Qed.
  Lemma keys_rel f : ∀ ch ch' ks ks', srel ch ch' → Forall2 R ks ks' →
    rrel (Forall2 R) (g_keys f ch ks) (bn_traversal (λ (k : key) (_ : T) (ks : list key), (true, ks ++ [k])) f ch' ks').
  Proof.
    induction f as [|f IH]; intros ch ch' ks ks' Hch Hks; cbn [g_keys bn_traversal]; [done|].
    revert ks ks' Hks. induction Hch as [|o o' l l' Ho Hl IHl]; intros ks ks' Hks; [done|]. destruct Ho as [e e' He|]; [|done].
    destruct He as [h' kvs kvs' Hkv|p b c c' Hc].
    - cbv zeta. rewrite trav_app. cbn [fst snd]. apply IHl. apply Forall2_app; [done|]. clear -Hkv. induction Hkv as [|x y ? ? [Hx _] _ IHk]; constructor; [done | exact IHk].
    - pose proof (IH c c' ks ks' Hc Hks) as H1. destruct (g_keys _ _ _) as [k1| |], (bn_traversal _ _ _ _) as [k1'| |]; try done. by apply IHl.
  Qed.
End ops.
