(** How many rounds each Next and Prev takes, and what they add up to. *)
From Verif Require Import Base Wp RbModel RbTree RbRot RbIns RbIns2 RbNav RbSpec RbFind RbCostModel RbCostProofs TreeWalkCostModel.
Open Scope nat_scope.

Section costs.
  Context {K V : Type}.
  Implicit Types (s : rb K V) (t : tree K V) (ctx : list (frame K V)).
  Notation sz t := (length (io t)).
  (** nodes on the left spine; rounds of succ_loop when leaving the hole of a context; rounds of Next *)
  Fixpoint lsp t : nat := match t with E => 0 | N l _ _ _ _ _ => S (lsp l) end.
  Fixpoint cexit ctx : nat := match ctx with FR _ _ _ _ _ :: ctx => S (cexit ctx) | _ => 1 end.
  Definition ncost t (e : nat) : nat := match t with E => e | _ => lsp t end.
  (** rounds of Next at each node in order; e: the rounds for leaving t *)
  Fixpoint costs t (e : nat) : list nat := match t with E => [] | N l _ _ _ _ r => costs l 1 ++ ncost r e :: costs r (S e) end.
  Lemma costs_length t e : length (costs t e) = sz t.
  Proof using. revert e. induction t as [|l IHl a c k v r IHr]; intros e; cbn [costs io]; [done|]. rewrite !app_length. cbn [length]. by rewrite IHl, IHr. Qed.
  Lemma costs_plug ctx t : ∃ P Q, costs (plug ctx t) 1 = P ++ costs t (cexit ctx) ++ Q ∧ length P = length (lic ctx).
  Proof using.
    revert t. induction ctx as [|[a c k v r|l a c k v] ctx IH]; intros t; cbn [plug plug1 lic cexit].
    - exists [], []. by rewrite app_nil_r.
    - destruct (IH (N t a c k v r)) as (P & Q & E1 & E2). cbn [costs] in E1. exists P, ((ncost r (cexit ctx) :: costs r (S (cexit ctx))) ++ Q). by rewrite E1, <-!app_assoc.
    - destruct (IH (N l a c k v t)) as (P & Q & E1 & E2). cbn [costs] in E1. exists (P ++ costs l 1 ++ [ncost t (cexit ctx)]), Q. rewrite E1. split; [by rewrite <-!app_assoc|]. rewrite !app_length, E2, costs_length. done.
  Qed.
  Lemma cost_at ctx l a c k v r : costs (plug ctx (N l a c k v r)) 1 !! length (lic ctx ++ io l) = Some (ncost r (cexit ctx)).
  Proof using.
    destruct (costs_plug ctx (N l a c k v r)) as (P & Q & E1 & E2). rewrite E1. cbn [costs]. rewrite app_length, <-E2, <-(costs_length l 1), lookup_app_r by lia.
    rewrite <-!app_assoc. rewrite lookup_app_r by lia. replace (_ - _ - _) with 0 by lia. done.
  Qed.
  (** sums *)
  Lemma sum_app' (a b : list nat) : sum_list (a ++ b) = sum_list a + sum_list b.
  Proof using. induction a as [|x a IH]; cbn [app sum_list sum_list_with]; [done|]. unfold sum_list in *. cbn [sum_list_with]. rewrite IH. lia. Qed.
  Lemma sum_cons x (a : list nat) : sum_list (x :: a) = x + sum_list a. Proof using. done. Qed.
  Lemma sum_all t e : sum_list (costs t e) + lsp t <= 3 * sz t + e.
  Proof using.
    revert e. induction t as [|l IHl a c k v r IHr]; intros e; cbn [costs lsp io]; [cbn; lia|]. rewrite sum_app', sum_cons, app_length. cbn [length]. specialize (IHl 1). specialize (IHr (S e)).
    destruct r as [|rl ra rc rk rv rr]; [cbn [ncost costs sum_list sum_list_with io length] in *; unfold sum_list in *; cbn [sum_list_with] in *; lia|]. set (r := N rl _ _ _ _ _) in *. change (ncost r e) with (lsp r). lia.
  Qed.
  Lemma take_cat {A} n (x y : list A) : take n (x ++ y) = take n x ++ take (n - length x) y. Proof using. apply firstn_app. Qed.
  Lemma sum_front t e n : 1 <= e → n <= sz t → sum_list (take n (costs t e)) + lsp t <= 3 * n + height t + e.
  Proof using.
    revert e n. induction t as [|l IHl a c k v r IHr]; intros e n He Hn; cbn [costs lsp io height] in *; [rewrite take_nil; cbn; lia|].
    rewrite app_length in Hn. cbn [length] in Hn. rewrite take_cat, sum_app', costs_length. destruct (decide (n <= sz l)) as [Hl|Hl].
    - replace (n - sz l) with 0 by lia. specialize (IHl 1 n ltac:(lia) Hl). cbn [take]. change (sum_list []) with 0. lia.
    - rewrite (take_ge (costs l 1)) by (rewrite costs_length; lia). replace (n - sz l) with (S (n - S (sz l))) by lia. cbn [take]. rewrite sum_cons. pose proof (sum_all l 1) as Hs.
      specialize (IHr (S e) (n - S (sz l)) ltac:(lia) ltac:(lia)). destruct r as [|rl ra rc rk rv rr]; [cbn [ncost costs lsp height] in *; try rewrite take_nil in *; change (sum_list []) with 0 in *; lia|]. set (r := N rl _ _ _ _ _) in *. change (ncost r e) with (lsp r). lia.
  Qed.
  Lemma sum_back t e i : sum_list (drop i (costs t e)) <= 3 * (sz t - i) + height t + e.
  Proof using.
    revert e i. induction t as [|l IHl a c k v r IHr]; intros e i; cbn [costs io height] in *; [rewrite drop_nil; cbn; lia|]. rewrite app_length. cbn [length]. destruct (decide (i <= sz l)) as [Hl|Hl].
    - rewrite drop_app_le by (rewrite costs_length; lia). rewrite sum_app', sum_cons. specialize (IHl 1 i). pose proof (sum_all r (S e)) as Hs.
      destruct r as [|rl ra rc rk rv rr]; [cbn [ncost costs lsp height] in *; try rewrite take_nil in *; change (sum_list []) with 0 in *; lia|]. set (r := N rl _ _ _ _ _) in *. change (ncost r e) with (lsp r). lia.
    - rewrite drop_app_ge by (rewrite costs_length; lia). rewrite costs_length. replace (i - sz l) with (S (i - S (sz l))) by lia. cbn [drop]. specialize (IHr (S e) (i - S (sz l))). lia.
  Qed.
  Lemma sum_range t e i n : 1 <= e → i + n <= sz t → sum_list (take n (drop i (costs t e))) <= 3 * n + 2 * height t + e.
  Proof using.
    revert e i n. induction t as [|l IHl a c k v r IHr]; intros e i n He Hn; cbn [costs io height] in *; [rewrite drop_nil, take_nil; cbn; lia|].
    rewrite app_length in Hn. cbn [length] in Hn. destruct (decide (i <= sz l)) as [Hl|Hl].
    - rewrite drop_app_le by (rewrite costs_length; lia). rewrite take_cat, sum_app', drop_length, costs_length. destruct (decide (i + n <= sz l)) as [Hl2|Hl2].
      + replace (n - (sz l - i)) with 0 by lia. cbn [take]. change (sum_list []) with 0. specialize (IHl 1 i n ltac:(lia) Hl2). lia.
      + rewrite (take_ge (drop i (costs l 1))) by (rewrite drop_length, costs_length; lia). replace (n - (sz l - i)) with (S (i + n - S (sz l))) by lia. cbn [take]. rewrite sum_cons.
        pose proof (sum_back l 1 i) as H1. pose proof (sum_front r (S e) (i + n - S (sz l)) ltac:(lia) ltac:(lia)) as H2.
        destruct r as [|rl ra rc rk rv rr]; [cbn [ncost costs lsp height] in *; try rewrite take_nil in *; change (sum_list []) with 0 in *; lia|]. set (r := N rl _ _ _ _ _) in *. change (ncost r e) with (lsp r). lia.
    - rewrite drop_app_ge by (rewrite costs_length; lia). rewrite costs_length. replace (i - sz l) with (S (i - S (sz l))) by lia. cbn [drop]. specialize (IHr (S e) (i - S (sz l)) n ltac:(lia) ltac:(lia)). lia.
  Qed.

  (** the mirror image *)
  Fixpoint mirror t : tree K V := match t with E => E | N l a c k v r => N (mirror r) a c k v (mirror l) end.
  Definition mirror_frame (f : frame K V) : frame K V := match f with FL a c k v r => FR (mirror r) a c k v | FR l a c k v => FL a c k v (mirror l) end.
  Lemma mirror_plug ctx t : mirror (plug ctx t) = plug (mirror_frame <$> ctx) (mirror t).
  Proof using. revert t. induction ctx as [|[] ctx IH]; intros t; cbn [plug plug1 fmap list_fmap mirror_frame]; [done|..]; rewrite IH; done. Qed.
  Lemma mirror_size t : sz (mirror t) = sz t.
  Proof using. induction t as [|l IHl a c k v r IHr]; cbn [mirror io]; [done|]. rewrite !app_length. cbn [length]. lia. Qed.
  Lemma mirror_height t : height (mirror t) = height t.
  Proof using. induction t as [|l IHl a c k v r IHr]; cbn [mirror height]; [done|]. lia. Qed.
  Lemma mirror_lic ctx : length (lic (mirror_frame <$> ctx)) = length (ric ctx).
  Proof using.
    induction ctx as [|[a c k v r|l a c k v] ctx IH]; cbn [fmap list_fmap mirror_frame lic ric]; [done|..]; [|exact IH]. rewrite !app_length. cbn [length]. rewrite app_length. pose proof (mirror_size r). lia.
  Qed.

  Lemma leaf_or t : t = E ∨ t ≠ E. Proof using. destruct t; [by left|by right]. Qed.
  (** what Next and Prev take *)
  Lemma min_spend ctx t s f : rbrep s (plug ctx t) → t ≠ E → lsp t <= f → minimum_spend f (rootp t) s = Ok ((fst <$> head (io t), f - lsp t), s).
  Proof using.
    revert f ctx. induction t as [|l IHl a c k v r _]; intros f ctx H Ht Hf; [done|]. cbn [lsp] in Hf. destruct f as [|f]; [lia|]. cbn [minimum_spend rootp]. unfold mbind_. rewrite (rd_left _ _ _ _ _ _ _ _ H).
    destruct (leaf_or l) as [->|Hl]; [cbn [rootp io lsp app head fmap option_fmap option_map fst]; unfold mret_; repeat f_equal; cbn [lsp]; lia|].
    assert (is_Some (rootp l)) as [b Hb] by (destruct l; by eauto). rewrite Hb, <-Hb, (IHl f (FL a c k v r :: ctx) H Hl) by lia. cbn [io lsp]. do 3 f_equal. by destruct l as [|l1 a1 c1 k1 v1 r1]; [done|]; cbn [io]; destruct (io l1).
  Qed.
  Lemma max_spend ctx t s f : rbrep s (plug ctx t) → t ≠ E → lsp (mirror t) <= f → maximum_spend f (rootp t) s = Ok ((fst <$> last (io t), f - lsp (mirror t)), s).
  Proof using.
    revert f ctx. induction t as [|l _ a c k v r IHr]; intros f ctx H Ht Hf; [done|]. cbn [lsp mirror] in Hf. destruct f as [|f]; [lia|]. cbn [maximum_spend rootp]. unfold mbind_. rewrite (rd_right _ _ _ _ _ _ _ _ H).
    destruct (leaf_or r) as [->|Hl]. { cbn [rootp io lsp mirror]. rewrite last_snoc. cbn. unfold mret_. repeat f_equal. lia. }
    assert (is_Some (rootp r)) as [b Hb] by (destruct r; by eauto). rewrite Hb, <-Hb, (IHr f (FR l a c k v :: ctx) H Hl) by lia. cbn [io lsp mirror]. do 3 f_equal.
    rewrite last_app, last_cons. by destruct (last (io r)) eqn:El; [|destruct r as [|l1 a1 c1 k1 v1 r1]; [done|]; apply last_None in El; cbn [io] in El; destruct (io l1)].
  Qed.
  Lemma succ_spend_ok ctx t x s f : rbrep s (plug ctx t) → rootp t = Some x → cexit ctx <= f → succ_spend f (Some x) (cpar ctx) s = Ok ((fst <$> head (ric ctx), f - cexit ctx), s).
  Proof using.
    revert f t x. induction ctx as [|[a c k v r|l a c k v] ctx IH]; intros f t x H Hx Hf; (destruct f as [|f]; [cbn in Hf; lia|]); cbn [succ_spend cpar faddr cexit] in *.
    - unfold mret_. cbn. do 3 f_equal. lia.
    - cbn [plug plug1] in H; unfold mbind_; rewrite (rd_right _ _ _ _ _ _ _ _ H); unfold peq. rewrite bool_decide_eq_false_2; [unfold mret_; cbn; do 3 f_equal; lia|]. intros E1.
      symmetry in E1. apply rootp_in in E1. apply rootp_in in Hx.
      pose proof (rr_nodup _ _ H) as N1. rewrite ads_plug, ads_N in N1. apply NoDup_app in N1 as (_ & _ & N1). apply NoDup_app in N1 as (_ & N1 & _). apply (N1 x); [done|set_solver].
    - cbn [plug plug1] in H; unfold mbind_; rewrite (rd_right _ _ _ _ _ _ _ _ H); unfold peq. rewrite bool_decide_eq_true_2 by done. rewrite (rd_parent _ _ _ _ _ _ _ _ H). rewrite (IH f (N l a c k v t) a H) by (done || lia). cbn [ric]. do 2 f_equal.
  Qed.
  Lemma pred_spend_ok ctx l x c k v r s f : rbrep s (plug ctx (N l x c k v r)) → cexit (mirror_frame <$> ctx) <= f →
    pred_spend f (Some x) s = Ok ((fst <$> last (lic ctx), f - cexit (mirror_frame <$> ctx)), s).
  Proof using.
    revert f l x c k v r. induction ctx as [|[a ca ka va ra|la a ca ka va] ctx IH]; intros f l x c k v r H Hf; (destruct f as [|f]; [cbn in Hf; lia|]); cbn [pred_spend cexit fmap list_fmap mirror_frame] in *;
      unfold mbind_; rewrite (rd_parent _ _ _ _ _ _ _ _ H); cbn [cpar faddr].
    - unfold mret_. cbn. do 3 f_equal. lia.
    - rewrite (rd_left s ctx _ _ _ _ _ _ H); unfold peq. rewrite bool_decide_eq_true_2 by done. cbn [lic]. rewrite (IH f _ _ _ _ _ _ H) by lia. done.
    - rewrite (rd_left s ctx _ _ _ _ _ _ H); unfold peq. rewrite bool_decide_eq_false_2. { rewrite (rd_parent _ _ _ _ _ _ _ _ H). cbn [lic cpar faddr]. rewrite !last_app. unfold mret_. cbn. do 3 f_equal. lia. }
      intros E1. apply rootp_in in E1. cbn [plug plug1] in H. pose proof (rr_nodup _ _ H) as N1. rewrite ads_plug, !ads_N in N1. apply NoDup_app in N1 as (_ & _ & N1). apply NoDup_app in N1 as (_ & N1 & _). apply (N1 x); [done|set_solver].
  Qed.
  Lemma next_spend_ok s t L R a k v : rbrep s t → io t = L ++ (a, (k, v)) :: R →
    ∃ c, costs t 1 !! length L = Some c ∧ ∀ f, c <= f → next_spend f (Some a) s = Ok ((fst <$> head R, f - c), s).
  Proof using.
    intros H E1. destruct (locate _ _ _ _ _ _ E1) as (ctx & l & c & r & -> & -> & ->). exists (ncost r (cexit ctx)). split; [apply cost_at|]. intros f Hf. unfold next_spend, mbind_. rewrite (rd_right _ _ _ _ _ _ _ _ H).
    destruct (leaf_or r) as [->|Hr].
    - cbn [rootp ncost io app] in *. rewrite (rd_parent _ _ _ _ _ _ _ _ H). by rewrite (succ_spend_ok ctx _ a s f H).
    - assert (is_Some (rootp r)) as [b Hb] by (destruct r; by eauto). assert (ncost r (cexit ctx) = lsp r) as Hn by by destruct r. rewrite Hn in *. rewrite Hb, <-Hb, (min_spend (FR l a c k v :: ctx) r s f H Hr Hf). do 3 f_equal.
      by destruct r as [|l1 a1 c1 k1 v1 r1]; [done|]; cbn [io]; destruct (io l1).
  Qed.
  Lemma prev_spend_ok s t L R a k v : rbrep s t → io t = L ++ (a, (k, v)) :: R →
    ∃ c d, costs (mirror t) 1 !! length R = Some c ∧ d <= c ∧ ∀ f, d <= f → prev_spend f (Some a) s = Ok ((fst <$> last L, f - d), s).
  Proof using.
    intros H E1. destruct (locate _ _ _ _ _ _ E1) as (ctx & l & c & r & -> & -> & ->). rewrite mirror_plug. cbn [mirror]. exists (ncost (mirror l) (cexit (mirror_frame <$> ctx))).
    assert (length (io r ++ ric ctx) = length (lic (mirror_frame <$> ctx) ++ io (mirror r))) as ->. { rewrite !app_length, mirror_lic, mirror_size. lia. } rewrite cost_at.
    unfold prev_spend, mbind_. rewrite (rd_left _ _ _ _ _ _ _ _ H). destruct (leaf_or l) as [->|Hl].
    - cbn [rootp mirror ncost io]. rewrite app_nil_r, (rd_parent _ _ _ _ _ _ _ _ H). destruct ctx as [|[b cb kb vb rb'|lb b cb kb vb] ctx].
      + exists 0. split; [done|]. split; [lia|]. intros f _. cbn. unfold mret_. by rewrite Nat.sub_0_r.
      + eexists. split; [done|]. split; [reflexivity|]. intros f Hf. cbn [cpar faddr]. rewrite (rd_right s ctx _ _ _ _ _ _ H); unfold peq. rewrite bool_decide_eq_false_2. { by apply (pred_spend_ok (FL b cb kb vb rb' :: ctx)) with (2 := Hf) in H. }
        intros E2. apply rootp_in in E2. cbn [plug plug1] in H. pose proof (rr_nodup _ _ H) as N1. rewrite ads_plug, !ads_N in N1. apply NoDup_app in N1 as (_ & _ & N1). apply NoDup_app in N1 as (_ & N1 & _). apply (N1 a); set_solver.
      + exists 0. split; [done|]. split; [lia|]. intros f _. cbn [cpar faddr]. rewrite (rd_right s ctx _ _ _ _ _ _ H); unfold peq. rewrite bool_decide_eq_true_2 by done. rewrite (rd_parent _ _ _ _ _ _ _ _ H). cbn [lic cpar faddr]. rewrite !last_app. unfold mret_. cbn. by rewrite Nat.sub_0_r.
    - assert (is_Some (rootp l)) as [b Hb] by (destruct l; by eauto). assert (ncost (mirror l) (cexit (mirror_frame <$> ctx)) = lsp (mirror l)) as -> by by destruct l. eexists. split; [done|]. split; [reflexivity|]. intros f Hf.
      rewrite Hb, <-Hb, (max_spend (FL a c k v r :: ctx) l s f H Hl Hf). do 3 f_equal. rewrite last_app. by destruct (last (io l)) eqn:El; [|destruct l as [|l1 a1 c1 k1 v1 r1]; [done|]; apply last_None in El; cbn [io] in El; destruct (io l1)].
  Qed.

  (** walks *)
  Lemma walk_ok s t L R n : rbrep s t → io t = L ++ R → n <= length R → 1 <= length R →
    walk n (fst <$> head R) s = Ok (fst <$> head (drop n R), s)
    ∧ ∀ f, sum_list (take n (drop (length L) (costs t 1))) <= f → walk_within f n (fst <$> head R) s = Ok (fst <$> head (drop n R), s).
  Proof using.
    intros H. revert L R. induction n as [|n IH]; intros L R E1 Hn H1; [done|]. destruct R as [|[a [k v]] R]; [cbn in H1; lia|]. cbn [length] in Hn.
    destruct (next_spend_ok _ _ _ _ _ _ _ H E1) as (c & Hc & Hf). cbn [walk walk_within head fmap option_fmap option_map fst]. unfold mbind_. rewrite (next_ok _ _ _ _ _ _ _ H E1). cbn [drop].
    assert (io t = (L ++ [(a, (k, v))]) ++ R) as E2 by by rewrite <-app_assoc.
    rewrite (drop_S _ _ _ Hc). cbn [take]. rewrite sum_cons. destruct (decide (n = 0)) as [->|Hz].
    - cbn [take]. change (sum_list []) with 0. split; [done|]. intros f Hf2. rewrite Hf by lia. done.
    - destruct (IH _ _ E2 ltac:(lia) ltac:(lia)) as [IH1 IH2]. split; [exact IH1|]. intros f Hf2. rewrite Hf by lia. cbn [fst snd]. apply IH2. rewrite app_length. cbn [length]. rewrite Nat.add_1_r. lia.
  Qed.
  Lemma walk_back_ok s t L R n : rbrep s t → io t = L ++ R → n <= length L → 1 <= length L →
    walk_back n (fst <$> last L) s = Ok (fst <$> last (take (length L - n) L), s)
    ∧ ∀ f, sum_list (take n (drop (length R) (costs (mirror t) 1))) <= f → walk_back_within f n (fst <$> last L) s = Ok (fst <$> last (take (length L - n) L), s).
  Proof using.
    intros H. revert L R. induction n as [|n IH]; intros L R E1 Hn H1; [by rewrite Nat.sub_0_r, firstn_all|]. destruct L as [|[a [k v]] L _] using rev_ind; [cbn in H1; lia|]. rewrite app_length in *. cbn [length] in Hn, H1 |- *. rewrite <-app_assoc in E1. cbn [app] in E1.
    destruct (prev_spend_ok _ _ _ _ _ _ _ H E1) as (c & d & Hc & Hd & Hf). rewrite last_snoc. cbn [walk_back walk_back_within fmap option_fmap option_map fst]. unfold mbind_. rewrite (prev_ok _ _ _ _ _ _ _ H E1).
    replace (length L + 1 - S n) with (length L - n) by lia. rewrite take_app_le by lia.
    rewrite (drop_S _ _ _ Hc). cbn [take]. rewrite sum_cons. destruct (decide (n = 0)) as [->|Hz].
    - cbn [take]. change (sum_list []) with 0. rewrite Nat.sub_0_r, firstn_all. split; [done|]. intros f Hf2. rewrite Hf by lia. done.
    - destruct (IH _ _ E1 ltac:(lia) ltac:(lia)) as [IH1 IH2]. split; [exact IH1|]. intros f Hf2. rewrite Hf by lia. cbn [fst snd]. apply IH2. cbn [length]. lia.
  Qed.
  (** the number of calls of the visitor *)
  Fixpoint calls {W} (vis : K → V → W → bool * W) (l : list (K * V)) (w : W) : nat :=
    match l with [] => 0 | (k, v) :: l => S (if (vis k v w).1 then calls vis l (vis k v w).2 else 0) end.
  Lemma calls_le {W} (vis : K → V → W → bool * W) l w : calls vis l w <= length l.
  Proof using. revert w. induction l as [|[k v] l IH]; intros w; cbn [calls length]; [lia|]. destruct (vis k v w).1; [specialize (IH (vis k v w).2)|]; lia. Qed.
  Lemma trav_spend_ok {W} (vis : K → V → W → bool * W) s t L R w g f : rbrep s t → io t = L ++ R →
    f < g → calls vis R.*2 w + 1 + sum_list (take (calls vis R.*2 w) (drop (length L) (costs t 1))) <= f →
    traversal_spend vis g f (fst <$> head R) w s = Ok (visit vis R.*2 w, s).
  Proof using.
    intros H. revert L R w f. induction g as [|g IH]; intros L R w f E1 Hg Hf; [lia|]. destruct f as [|f]; [lia|]. destruct R as [|[a [k v]] R]; [done|].
    destruct (next_spend_ok _ _ _ _ _ _ _ H E1) as (c & Hc & Hn). rewrite fmap_cons in *. cbn [snd visit calls] in *. cbn [traversal_spend head fmap option_fmap option_map fst]. unfold mbind_. rewrite (key_ok _ _ _ _ _ _ _ H E1), (value_ok _ _ _ _ _ _ _ H E1). cbn [snd].
    rewrite (drop_S _ _ _ Hc) in Hf. cbn [take] in Hf. rewrite sum_cons in Hf.
    revert Hf. destruct (vis k v w).1; intros Hf; cbn [negb]; [|reflexivity]. rewrite Hn by lia. cbn [fst snd]. apply (IH (L ++ [(a, (k, v))])); [by rewrite <-app_assoc|lia|]. rewrite app_length. cbn [length]. replace (length L + 1) with (S (length L)) by lia. lia.
  Qed.
  Lemma first_spend_ok s t f : rbrep s t → lsp t <= f → first_spend f s = Ok ((fst <$> head (io t), f - lsp t), s).
  Proof using.
    intros H Hf. unfold first_spend, mbind_, get_root. rewrite (rr_root _ _ H). destruct (leaf_or t) as [->|Ht]. { cbn. unfold mret_. by rewrite Nat.sub_0_r. }
    assert (is_Some (rootp t)) as [b Hb] by (destruct t; by eauto). rewrite Hb, <-Hb. by apply (min_spend []).
  Qed.
End costs.
