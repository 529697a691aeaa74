(** Searches, traversal, IsRbTree, height. *)
From Verif Require Import Base Wp RbModel RbTree RbRot RbIns RbIns2 RbNav RbSpec.
Open Scope Z_scope.
Open Scope go_scope.

Section find.
  Context {K V : Type} (cmp : K → K → Z) (CO : CmpOK cmp).
  Implicit Types (s : rb K V) (t : tree K V) (ctx : list (frame K V)).
  Lemma fm_app_skip (P : K * V → Prop) (l1 l2 : list (nat * (K * V))) p : Forall (λ x, ¬ P x.2) l1 → first_match P l2 p → first_match P (l1 ++ l2) p.
  Proof using. clear cmp CO. intros H. destruct p as [a|]; cbn; [|intros; by apply Forall_app]. intros (L & kv & R & -> & HP & HL). exists (l1 ++ L), kv, R. split_and!; [by rewrite <-app_assoc|done|by apply Forall_app]. Qed.
  Lemma fm_app_l (P : K * V → Prop) (l1 l2 : list (nat * (K * V))) a : first_match P l1 (Some a) → first_match P (l1 ++ l2) (Some a).
  Proof using. clear cmp CO. intros (L & kv & R & -> & HP & HL). exists L, kv, (R ++ l2). split_and!; [by rewrite <-app_assoc|done|done]. Qed.
  Lemma fm_here (P : K * V → Prop) (l1 l2 : list (nat * (K * V))) a kv : Forall (λ x, ¬ P x.2) l1 → P kv → first_match P (l1 ++ (a, kv) :: l2) (Some a).
  Proof using. clear cmp CO. intros. by exists l1, kv, l2. Qed.
  Lemma find_lower_ok f k ctx t s : rbrep s (plug ctx t) → StronglySorted (kle cmp) (io t) → (length (io t) < f)%nat →
    ∃ p, find_lower cmp f (rootp t) k s = Ok (p, s) ∧ first_match (λ kv, cmp k kv.1 <= 0) (io t) p.
  Proof using CO.
    revert ctx t. induction f as [|f IH]; intros ctx t H Hs Hf; [lia|]. destruct t as [|l a c xk xv r]; [exists None; split; [done|constructor]|].
    cbn [find_lower rootp]. unfold mbind_. rewrite (rd_key _ _ _ _ _ _ _ _ H). cbn [io] in Hs, Hf. rewrite app_length in Hf. cbn [length] in Hf. apply SS_app in Hs as (Hl & Hr & Hlr). apply SS_cons in Hr as [Hr Hxr].
    destruct (Z.leb_spec (cmp k xk) 0) as [Hle|Hgt].
    - rewrite (rd_left _ _ _ _ _ _ _ _ H). destruct (IH (FL a c xk xv r :: ctx) l H Hl ltac:(lia)) as ([b|] & -> & Hm).
      + destruct Hm as (L & [kb vb] & R & El & HP & HL). pose proof El as El'. apply locate in El' as (cx & l' & c' & r' & E1 & _ & _).
        assert (rbrep s (plug (cx ++ FL a c xk xv r :: ctx) (N l' b c' kb vb r'))) as Hb by (rewrite plug_app, <-E1; exact H).
        rewrite (rd_key _ _ _ _ _ _ _ _ Hb), (rd_key _ _ _ _ _ _ _ _ H). specialize (Hlr (b, (kb, vb)) (a, (xk, xv)) ltac:(rewrite El; set_solver) ltac:(set_solver)). unfold kle in Hlr. cbn in Hlr.
        rewrite (proj2 (Z.leb_le _ _)) by done. exists (Some b). split; [done|]. apply fm_app_l. by exists L, (kb, vb), R.
      + exists (Some a). split; [done|]. by apply fm_here.
    - rewrite (rd_right _ _ _ _ _ _ _ _ H). destruct (IH (FR l a c xk xv :: ctx) r H Hr ltac:(lia)) as (p & -> & Hm). exists p. split; [done|]. cbn [io].
      apply fm_app_skip; [|change (first_match ?P ((a, (xk, xv)) :: io r) p) with (first_match P ([(a, (xk, xv))] ++ io r) p); apply fm_app_skip; [|done]].
      + apply Forall_forall. intros x Hx. specialize (Hlr x (a, (xk, xv)) Hx ltac:(set_solver)). unfold kle in Hlr. cbn in Hlr. intros Hc. pose proof (cmp_le_trans _ CO _ _ _ Hc Hlr). lia.
      + constructor; [cbn; lia|constructor].
  Qed.
  Lemma find_upper_ok f k ctx t s : rbrep s (plug ctx t) → StronglySorted (kle cmp) (io t) → (length (io t) < f)%nat →
    ∃ p, find_upper cmp f (rootp t) k s = Ok (p, s) ∧ first_match (λ kv, cmp k kv.1 < 0) (io t) p.
  Proof using CO.
    revert ctx t. induction f as [|f IH]; intros ctx t H Hs Hf; [lia|]. destruct t as [|l a c xk xv r]; [exists None; split; [done|constructor]|].
    cbn [find_upper rootp]. unfold mbind_. rewrite (rd_key _ _ _ _ _ _ _ _ H). cbn [io] in Hs, Hf. rewrite app_length in Hf. cbn [length] in Hf. apply SS_app in Hs as (Hl & Hr & Hlr). apply SS_cons in Hr as [Hr Hxr].
    destruct (Z.leb_spec 0 (cmp k xk)) as [Hle|Hgt].
    - rewrite (rd_right _ _ _ _ _ _ _ _ H). destruct (IH (FR l a c xk xv :: ctx) r H Hr ltac:(lia)) as (p & -> & Hm). exists p. split; [done|]. cbn [io].
      apply fm_app_skip; [|change (first_match ?P ((a, (xk, xv)) :: io r) p) with (first_match P ([(a, (xk, xv))] ++ io r) p); apply fm_app_skip; [|done]].
      + apply Forall_forall. intros x Hx. specialize (Hlr x (a, (xk, xv)) Hx ltac:(set_solver)). unfold kle in Hlr. cbn in Hlr. intros Hc. pose proof (cmp_lt_le_trans _ CO _ _ _ Hc Hlr). lia.
      + constructor; [cbn; lia|constructor].
    - rewrite (rd_left _ _ _ _ _ _ _ _ H). destruct (IH (FL a c xk xv r :: ctx) l H Hl ltac:(lia)) as ([b|] & -> & Hm).
      + destruct Hm as (L & [kb vb] & R & El & HP & HL). pose proof El as El'. apply locate in El' as (cx & l' & c' & r' & E1 & _ & _).
        assert (rbrep s (plug (cx ++ FL a c xk xv r :: ctx) (N l' b c' kb vb r'))) as Hb by (rewrite plug_app, <-E1; exact H).
        rewrite (rd_key _ _ _ _ _ _ _ _ Hb), (rd_key _ _ _ _ _ _ _ _ H). specialize (Hlr (b, (kb, vb)) (a, (xk, xv)) ltac:(rewrite El; set_solver) ltac:(set_solver)). unfold kle in Hlr. cbn in Hlr.
        rewrite (proj2 (Z.leb_le _ _)) by done. exists (Some b). split; [done|]. apply fm_app_l. by exists L, (kb, vb), R.
      + exists (Some a). split; [done|]. by apply fm_here.
  Qed.
  Lemma lower_ok k t s : rbrep s t → StronglySorted (kle cmp) (io t) →
    ∃ p, rb_FindLowerBoundNode cmp k s = Ok (p, s) ∧ first_match (λ kv, cmp k kv.1 <= 0) (io t) p.
  Proof using CO. intros H Hs. unfold rb_FindLowerBoundNode, mbind_, fuel, get_root. rewrite (rr_root _ _ H). apply (find_lower_ok _ _ []); [done|done|]. pose proof (count_ok _ _ H). lia. Qed.
  Lemma upper_ok k t s : rbrep s t → StronglySorted (kle cmp) (io t) →
    ∃ p, rb_FindUpperBoundNode cmp k s = Ok (p, s) ∧ first_match (λ kv, cmp k kv.1 < 0) (io t) p.
  Proof using CO. intros H Hs. unfold rb_FindUpperBoundNode, mbind_, fuel, get_root. rewrite (rr_root _ _ H). apply (find_upper_ok _ _ []); [done|done|]. pose proof (count_ok _ _ H). lia. Qed.
  Lemma findnode_ok k t s : rbrep s t → StronglySorted (kle cmp) (io t) →
    ∃ p, rb_FindNode cmp k s = Ok (p, s) ∧ first_match (λ kv, cmp k kv.1 = 0) (io t) p.
  Proof using CO.
    intros H Hs. destruct (lower_ok k t s H Hs) as (p & Ep & Hm). unfold rb_FindNode, mbind_. rewrite Ep. destruct p as [a|].
    - destruct Hm as (L & [ka va] & R & El & HP & HL). cbn in HP. rewrite (key_ok _ _ _ _ _ _ _ H El).
      assert (Forall (λ x : nat * (K * V), ¬ cmp k x.2.1 = 0) L) as HL'. { eapply Forall_impl; [exact HL|]. cbn. lia. }
      destruct (Z.eqb_spec (cmp ka k) 0) as [He|Hne].
      + exists (Some a). split; [done|]. exists L, (ka, va), R. split_and!; [done|cbn; by apply cmp_flip_eq|done].
      + exists None. split; [done|]. cbn. rewrite El. apply Forall_app. split; [done|]. rewrite El in Hs. apply SS_app in Hs as (_ & Hs & _). apply SS_cons in Hs as [_ Hs].
        assert (cmp k ka < 0) as Hlt. { pose proof (proj1 (cmp_flip_eq _ CO k ka)). lia. }
        constructor; [cbn; lia|]. apply Forall_forall. intros x Hx. specialize (Hs x Hx). unfold kle in Hs. cbn in Hs. pose proof (cmp_lt_le_trans _ CO _ _ _ Hlt Hs). cbn. lia.
    - exists None. split; [done|]. cbn in *. eapply Forall_impl; [exact Hm|]. cbn. lia.
  Qed.
  Lemma find_ok k t s : rbrep s t → StronglySorted (kle cmp) (io t) →
    ∃ o, rb_Find cmp k s = Ok (o, s) ∧ ∃ p, first_match (λ kv, cmp k kv.1 = 0) (io t) p ∧ o = (p ≫= λ a, snd <$> ((list_to_map (io t) : gmap nat (K * V)) !! a)).
  Proof using CO.
    intros H Hs. destruct (findnode_ok k t s H Hs) as (p & Ep & Hm). unfold rb_Find, mbind_. rewrite Ep. destruct p as [a|]; [|by exists None; split; [done|]; exists None].
    pose proof Hm as (L & [ka va] & R & El & HP & HL). rewrite (value_ok _ _ _ _ _ _ _ H El). exists (Some va). split; [done|]. exists (Some a). split; [done|]. cbn.
    rewrite (elem_of_list_to_map_1 (io t) a (ka, va)); [done|apply (rr_nodup _ _ H)|rewrite El; set_solver].
  Qed.
  (** findNode, the unused one: some node with an equal key, if any *)
  Lemma find_any_ok f k ctx t s : rbrep s (plug ctx t) → StronglySorted (kle cmp) (io t) → (length (io t) < f)%nat →
    ∃ p, find_node_loop cmp f (rootp t) k s = Ok (p, s) ∧ match p with Some a => ∃ kv, (a, kv) ∈ io t ∧ cmp k kv.1 = 0 | None => ∀ x, x ∈ io t → cmp k x.2.1 ≠ 0 end.
  Proof using CO.
    revert ctx t. induction f as [|f IH]; intros ctx t H Hs Hf; [lia|]. destruct t as [|l a c xk xv r]; [exists None; split; [done|cbn; set_solver]|].
    cbn [find_node_loop rootp]. unfold mbind_. rewrite (rd_key _ _ _ _ _ _ _ _ H). cbn [io] in Hs, Hf. rewrite app_length in Hf. cbn [length] in Hf. apply SS_app in Hs as (Hl & Hr & Hlr). apply SS_cons in Hr as [Hr Hxr].
    destruct (Z.ltb_spec (cmp k xk) 0) as [Hlt|Hge]; [|destruct (Z.eqb_spec (cmp k xk) 0) as [He|Hne]].
    - rewrite (rd_left _ _ _ _ _ _ _ _ H). destruct (IH (FL a c xk xv r :: ctx) l H Hl ltac:(lia)) as (p & -> & Hm). exists p. split; [done|]. cbn [io]. destruct p as [b|].
      + destruct Hm as (kv & Hin & He). exists kv. split; [set_solver|done].
      + intros x [Hx|[->|Hx]%elem_of_cons]%elem_of_app; [by apply Hm|cbn; lia|]. specialize (Hxr x Hx). unfold kle in Hxr. cbn in Hxr. pose proof (cmp_lt_le_trans _ CO _ _ _ Hlt Hxr). lia.
    - exists (Some a). split; [done|]. exists (xk, xv). split; [cbn; set_solver|done].
    - rewrite (rd_right _ _ _ _ _ _ _ _ H). destruct (IH (FR l a c xk xv :: ctx) r H Hr ltac:(lia)) as (p & -> & Hm). exists p. split; [done|]. cbn [io]. destruct p as [b|].
      + destruct Hm as (kv & Hin & He). exists kv. split; [set_solver|done].
      + intros x [Hx|[->|Hx]%elem_of_cons]%elem_of_app; [|cbn; lia|by apply Hm]. specialize (Hlr x (a, (xk, xv)) Hx ltac:(set_solver)). unfold kle in Hlr. cbn in Hlr. intros Hc.
        pose proof (cmp_le_trans _ CO k x.2.1 xk ltac:(lia) Hlr). lia.
  Qed.
End find.

Section rest.
  Context {K V : Type}.
  Implicit Types (s : rb K V) (t : tree K V) (ctx : list (frame K V)).
  Lemma traversal_ok {W} (vis : K → V → W → bool * W) f s t L R w : rbrep s t → io t = L ++ R → (length R < f)%nat →
    traversal_loop vis f (fst <$> head R) w s = Ok (visit vis R.*2 w, s).
  Proof using.
    revert L R w. induction f as [|f IH]; intros L R w H E1 Hf; [lia|]. destruct R as [|[a [k v]] R]; [done|].
    rewrite fmap_cons. cbn [snd visit]. cbn [traversal_loop head fmap option_fmap option_map fst]. unfold mbind_. rewrite (key_ok _ _ _ _ _ _ _ H E1), (value_ok _ _ _ _ _ _ _ H E1). cbn [snd].
    destruct (vis k v w).1; cbn [negb]; [|reflexivity]. rewrite (next_ok _ _ _ _ _ _ _ H E1). eapply (IH (L ++ [(a, (k, v))])); [done|by rewrite <-app_assoc|cbn in Hf; lia].
  Qed.
  Lemma Traversal_ok {W} (vis : K → V → W → bool * W) s t w : rbrep s t → rb_Traversal vis w s = Ok (visit vis (io t).*2 w, s).
  Proof using. intros H. unfold rb_Traversal, mbind_, fuel. rewrite (first_ok _ _ H). eapply (traversal_ok vis _ s t [] (io t)); [done|done|]. pose proof (count_ok _ _ H). lia. Qed.
  Lemma chain_ok s t L R : rbrep s t → io t = L ++ R → chain s (fst <$> head R) R.
  Proof using.
    intros H. revert L. induction R as [|[a [k v]] R IH]; intros L E1; cbn; [constructor|]. econstructor.
    - by eapply key_ok. - by eapply value_ok. - by eapply next_ok. - apply (IH (L ++ [(a, (k, v))])). by rewrite <-app_assoc.
  Qed.
  Lemma rchain_ok s t L R : rbrep s t → io t = L ++ R → rchain s (fst <$> last L) (reverse L).
  Proof using.
    intros H. revert R. induction L as [|[a [k v]] L IH] using rev_ind; intros R E1; [constructor|]. rewrite last_snoc, reverse_snoc. rewrite <-app_assoc in E1. cbn in E1. econstructor.
    - by eapply key_ok. - by eapply value_ok. - by eapply prev_ok. - by eapply IH.
  Qed.
  Lemma contents_ok s t : rbrep s t → contents s (io t).
  Proof using. intros H. eexists. split; [by apply first_ok|]. by eapply (chain_ok s t [] (io t)). Qed.
  Lemma chain_fun s p l1 l2 : chain s p l1 → chain s p l2 → l1 = l2.
  Proof using. intros H. revert l2. induction H; intros l2 H2'; inversion H2'; subst; [done|]. assert (k0 = k ∧ v0 = v ∧ q0 = q) as (-> & -> & ->) by (repeat split; congruence). f_equal. auto. Qed.
  Lemma contents_fun s l1 l2 : contents s l1 → contents s l2 → l1 = l2.
  Proof using. intros (p & E1 & H1) (q & E2 & H2). assert (p = q) as <- by congruence. by eapply chain_fun. Qed.
  Lemma contents_io s t l : rbrep s t → contents s l → l = io t.
  Proof using. intros H Hc. eapply contents_fun; [done|]. by apply contents_ok. Qed.

  (** IsRbTree, on any colouring *)
  Lemma test_ok f ctx t s : rbrep s (plug ctx t) → (length (io t) < f)%nat →
    ∃ b p ok, test f (rootp t) s = Ok ((b, p, ok), s) ∧
      (ok = true → ∃ n c, rbt n c t ∧ b = Z.of_nat n + 1 ∧ (ctx = [] → c = BLACK)) ∧ (ok = false → ∀ n c, rbt n c t → ctx = [] ∧ c = RED).
  Proof using.
    revert ctx t. induction f as [|f IH]; intros ctx t H Hf; [lia|]. destruct t as [|l a c k v r].
    { exists 1, 0, true. split; [done|]. split; [|done]. intros _. exists O, BLACK. split_and!; [constructor|done|done]. }
    cbn [test rootp]. unfold mbind_, get_root. rewrite (rd_color _ _ _ _ _ _ _ _ H).
    cbn [io] in Hf. rewrite app_length in Hf. cbn [length] in Hf.
    destruct (peq (Some a) (rb_root s) && negb c) eqn:Er.
    { apply andb_true_iff in Er as [E1 E2]. unfold peq in E1. apply bool_decide_eq_true in E1. destruct c; [done|].
      exists 1, 2, false. split; [done|]. split; [done|]. intros _ n c Hn. inversion Hn; subst. split; [|done].
      destruct ctx as [|fr ctx]; [done|]. exfalso. pose proof (proj1 (foc_split s (fr :: ctx) _) H) as (_ & Hc & Hnd & _). rewrite <-E1 in Hc. clear - Hc Hnd.
      apply NoDup_app in Hnd as (_ & Hnd & _). assert (a ∈ cads (fr :: ctx)) as Ha; [|apply (Hnd a Ha); rewrite ads_N; set_solver].
      assert (∀ cx p, cx ≠ [] → repc (rb_heap s) cx p (Some a) → a ∈ cads cx) as Hx; [|by eapply Hx].
      clear. induction cx as [|[b cb kb vb rb'|lb b cb kb vb] cx IH]; intros p Hne Hc; [done|..]; cbn in Hc; destruct Hc as (_ & _ & Hc); [rewrite cads_FL|rewrite cads_FR]; (destruct cx as [|fr' cx]; [cbn in Hc; injection Hc as ->; by left|]); right; apply elem_of_app; right; by eapply IH. }
    rewrite (rd_left _ _ _ _ _ _ _ _ H). cbn [rootp].
    destruct (IH (FL a c k v r :: ctx) l H ltac:(lia)) as (lb & lp & lok & -> & Hlt & Hlf).
    destruct lok; cbn [negb].
    2:{ exists lb, lp, false. split; [done|]. split; [done|]. intros _ n c' Hn. exfalso. inversion Hn; subst; [destruct (Hlf eq_refl n BLACK)|destruct (Hlf eq_refl n0 cl)]; done. }
    rewrite (rd_right _ _ _ _ _ _ _ _ H).
    destruct (IH (FR l a c k v :: ctx) r H ltac:(lia)) as (rb' & rp & rok & -> & Hrt & Hrf).
    destruct rok; cbn [negb].
    2:{ exists rb', rp, false. split; [done|]. split; [done|]. intros _ n c' Hn. exfalso. inversion Hn; subst; [destruct (Hrf eq_refl n BLACK)|destruct (Hrf eq_refl n0 cr)]; done. }
    destruct (Hlt eq_refl) as (nl & cl & Hl & El & _). destruct (Hrt eq_refl) as (nr & cr & Hr & Err & _). clear Hlt Hlf Hrt Hrf.
    assert (∀ n1 n2 c1 c2 t, rbt n1 c1 t → rbt n2 c2 t → n1 = n2 ∧ c1 = c2) as Hfun.
    { clear. intros n1 n2 c1 c2 t H. revert n2 c2. induction H; intros n2 c2 H2'; inversion H2'; subst; [done|..]; split; try done.
      - by eapply IHrbt1. - f_equal. by eapply IHrbt1. }
    destruct (Z.eqb_spec rb' lb) as [Heq|Hne]; cbn [negb].
    2:{ exists lb, 5, false. split; [done|]. split; [done|]. intros _ n c' Hn. exfalso. inversion Hn as [|? ? ? ? ? ? H1 H2|? ? ? ? ? ? ? ? H1 H2]; subst; destruct (Hfun _ _ _ _ _ H1 Hl), (Hfun _ _ _ _ _ H2 Hr); lia. }
    assert (nr = nl) as -> by lia. clear Heq.
    pose proof (proj1 (foc_split _ _ _) H) as ((_ & Rl & Rr) & _).
    destruct c; cbn [negb].
    - exists (lb + 1), 0, true. split; [done|]. split; [|done]. intros _. exists (S nl), BLACK. split_and!; [by econstructor|lia|done].
    - rewrite (tcol_get _ _ _ Rl), (tcol_get _ _ _ Rr). cbn [rootp]. rewrite (rbt_col _ _ _ Hl), (rbt_col _ _ _ Hr).
      destruct cl; cbn [negb orb]; [destruct cr; cbn [negb orb]|].
      + exists lb, 0, true. split; [done|]. split; [|done]. intros _. exists nl, RED. split_and!; [by econstructor|done|]. intros ->.
        exfalso. pose proof (rr_root _ _ H) as Hroot. cbn in Hroot. rewrite Hroot in Er. unfold peq in Er. rewrite bool_decide_eq_true_2 in Er by done. done.
      + exists 0, 4, false. split; [done|]. split; [done|]. intros _ n c' Hn. exfalso. inversion Hn as [|? ? ? ? ? ? H1 H2|]; subst. by destruct (Hfun _ _ _ _ _ H2 Hr).
      + exists 0, 4, false. split; [done|]. split; [done|]. intros _ n c' Hn. exfalso. inversion Hn as [|? ? ? ? ? ? H1 H2|]; subst. by destruct (Hfun _ _ _ _ _ H1 Hl).
  Qed.
  Lemma isrb_ok s t : rbrep s t → ∃ b, rb_IsRbTree s = Ok (b, s) ∧ (b = true ↔ ∃ n, rbt n BLACK t).
  Proof using.
    intros H. unfold rb_IsRbTree, mbind_, fuel, get_root. rewrite (rr_root _ _ H). pose proof (count_ok _ _ H).
    destruct (test_ok (S (rb_next s)) [] t s H ltac:(lia)) as (b & p & ok & -> & H1 & H2). exists ok. split; [done|]. destruct ok.
    - split; [|done]. intros _. destruct (H1 eq_refl) as (n & c & Hn & _ & Hc). rewrite (Hc eq_refl) in Hn. by exists n.
    - split; [done|]. intros [n Hn]. by destruct (H2 eq_refl n BLACK Hn).
  Qed.

  (** paths *)
  Lemma path_rb s par t n c cs : rep (rb_heap s) par t → rbt n c t → path s (rootp t) cs → blacks cs = n ∧ no_red_red cs ∧ match cs with [] => c = BLACK | c' :: _ => c' = c end ∧ (length cs <= 2 * n + (if c then 0 else 1))%nat.
  Proof using.
    intros Hr Ht. revert par cs Hr. induction Ht as [|n l a k v r Hl IHl Hr IHr|n cl cr l a k v r Hl IHl Hr IHr]; intros par cs Hrep Hp.
    - inversion Hp; subst. done.
    - destruct Hrep as (Ha & Rl & Rr). inversion Hp as [|? nd q cs' Ha' Hq Hp']; subst. rewrite Ha in Ha'. injection Ha' as <-. cbn [n_left n_right n_color] in *.
      assert (blacks cs' = n ∧ no_red_red cs' ∧ match cs' with [] => BLACK = BLACK | c' :: _ => c' = BLACK end ∧ (length cs' <= 2 * n + 0)%nat) as (B & NR & Hh & Hlen). { destruct Hq as [-> | ->]; [by eapply IHl|by eapply IHr]. }
      split_and!; [done| |done|unfold RED; cbn [length]; lia]. cbn. destruct cs'; [done|]. by subst.
    - destruct Hrep as (Ha & Rl & Rr). inversion Hp as [|? nd q cs' Ha' Hq Hp']; subst. rewrite Ha in Ha'. injection Ha' as <-. cbn [n_left n_right n_color] in *.
      assert (blacks cs' = n ∧ no_red_red cs' ∧ (length cs' <= 2 * n + 1)%nat) as (B & NR & Hlen). { destruct Hq as [-> | ->]; [edestruct IHl as (? & ? & ? & ?); [done|done|]|edestruct IHr as (? & ? & ? & ?); [done|done|]]; split_and!; try done; destruct cl, cr; lia. }
      split_and!; [|cbn; by destruct cs'|done|cbn [length]; lia]. unfold blacks in *. rewrite filter_cons_True by done. cbn [length]. by rewrite B.
  Qed.
  Lemma rbt_size n c t : rbt n c t → (2 ^ n <= length (io t) + 1)%nat.
  Proof using. induction 1; cbn [io]; rewrite ?app_length; cbn [length]; [done|lia|]. rewrite Nat.pow_succ_r'. lia. Qed.
End rest.
