(** Trees with addresses, one-hole contexts, and what it means for a heap to hold a tree. *)
From Verif Require Import Base Wp RbModel.
Section trees.
  Context {K V : Type}.
  Implicit Types (h : gmap nat (node K V)) (s : rb K V).
  Inductive tree := E | N (l : tree) (a : nat) (c : bool) (k : K) (v : V) (r : tree).
  Definition rootp (t : tree) : ptr := match t with E => None | N _ a _ _ _ _ => Some a end.
  Fixpoint io (t : tree) : list (nat * (K * V)) := match t with E => [] | N l a _ k v r => io l ++ (a, (k, v)) :: io r end.
  Definition ads (t : tree) : list nat := (io t).*1.
  #[local] Arguments ads : simpl never.
  Fixpoint rep h (par : ptr) (t : tree) : Prop :=
    match t with
    | E => True
    | N l a c k v r => h !! a = Some (MkNode par (rootp l) (rootp r) c k v) ∧ rep h (Some a) l ∧ rep h (Some a) r
    end.
  Inductive frame := FL (a : nat) (c : bool) (k : K) (v : V) (r : tree) | FR (l : tree) (a : nat) (c : bool) (k : K) (v : V).
  Definition plug1 (f : frame) (t : tree) : tree := match f with FL a c k v r => N t a c k v r | FR l a c k v => N l a c k v t end.
  Fixpoint plug (ctx : list frame) (t : tree) : tree := match ctx with [] => t | f :: ctx => plug ctx (plug1 f t) end.
  Definition faddr (f : frame) : nat := match f with FL a _ _ _ _ => a | FR _ a _ _ _ => a end.
  Definition cpar (ctx : list frame) : ptr := match ctx with [] => None | f :: _ => Some (faddr f) end.
  Fixpoint lic (ctx : list frame) : list (nat * (K * V)) :=
    match ctx with [] => [] | FL _ _ _ _ _ :: ctx => lic ctx | FR l a _ k v :: ctx => lic ctx ++ io l ++ [(a, (k, v))] end.
  Fixpoint ric (ctx : list frame) : list (nat * (K * V)) :=
    match ctx with [] => [] | FL a _ k v r :: ctx => (a, (k, v)) :: io r ++ ric ctx | FR _ _ _ _ _ :: ctx => ric ctx end.
  Definition cads (ctx : list frame) : list nat := (lic ctx).*1 ++ (ric ctx).*1.
  #[local] Arguments cads : simpl never.
  Fixpoint repc h (ctx : list frame) (p root : ptr) : Prop :=
    match ctx with
    | [] => root = p
    | FL a c k v r :: ctx => h !! a = Some (MkNode (cpar ctx) p (rootp r) c k v) ∧ rep h (Some a) r ∧ repc h ctx (Some a) root
    | FR l a c k v :: ctx => h !! a = Some (MkNode (cpar ctx) (rootp l) p c k v) ∧ rep h (Some a) l ∧ repc h ctx (Some a) root
    end.
  Record rbrep s (t : tree) : Prop := {
    rr_rep : rep (rb_heap s) None t;
    rr_root : rb_root s = rootp t;
    rr_nodup : NoDup (ads t);
    rr_lt : Forall (λ a, a < rb_next s)%nat (ads t);
  }.

  Lemma io_plug ctx t : io (plug ctx t) = lic ctx ++ io t ++ ric ctx.
  Proof using.
    revert t. induction ctx as [|[a c k v r|l a c k v] ctx IH]; intros t; cbn; [by rewrite app_nil_r|rewrite IH; cbn..].
    - by rewrite <-!app_assoc.
    - by rewrite <-!app_assoc.
  Qed.
  Lemma ads_plug ctx t : ads (plug ctx t) ≡ₚ cads ctx ++ ads t.
  Proof using. unfold ads, cads. rewrite io_plug, !fmap_app. rewrite (Permutation_app_comm (io t).*1). by rewrite app_assoc. Qed.
  Lemma ads_N l a c k v r : ads (N l a c k v r) = ads l ++ a :: ads r.
  Proof using. unfold ads. cbn. by rewrite fmap_app. Qed.
  Lemma cads_FL a c k v r ctx : cads (FL a c k v r :: ctx) ≡ₚ a :: ads r ++ cads ctx.
  Proof using. unfold cads, ads. cbn. rewrite fmap_app. rewrite <-Permutation_middle. constructor. rewrite !(Permutation_app_comm (lic ctx).*1). by rewrite <-app_assoc. Qed.
  Lemma cads_FR a c k v l ctx : cads (FR l a c k v :: ctx) ≡ₚ a :: ads l ++ cads ctx.
  Proof using.
    unfold cads, ads. cbn. rewrite !fmap_app. cbn. rewrite <-!app_assoc. cbn. rewrite !(Permutation_app_comm (lic ctx).*1). rewrite <-!app_assoc. cbn. rewrite <-Permutation_middle. done.
  Qed.
  Lemma rep_plug h ctx t root : (rep h None (plug ctx t) ∧ root = rootp (plug ctx t)) ↔ (rep h (cpar ctx) t ∧ repc h ctx (rootp t) root).
  Proof using.
    revert t. induction ctx as [|[a c k v r|l a c k v] ctx IH]; intros t; cbn; [done|rewrite IH; cbn; tauto..].
  Qed.
  Lemma rep_frame h h' par t : (∀ a, a ∈ ads t → h' !! a = h !! a) → rep h par t → rep h' par t.
  Proof using.
    revert par. induction t as [|l IHl a c k v r IHr]; intros par Hh; cbn; [done|]. rewrite ads_N in Hh. intros (Ha & Hl & Hr).
    rewrite Hh by set_solver. split; [done|]. split; [apply IHl|apply IHr]; set_solver.
  Qed.
  Lemma repc_frame h h' ctx p root : (∀ a, a ∈ cads ctx → h' !! a = h !! a) → repc h ctx p root → repc h' ctx p root.
  Proof using.
    revert p. induction ctx as [|[a c k v r|l a c k v] ctx IH]; intros p Hh; cbn; [done| |].
    - setoid_rewrite cads_FL in Hh. intros (Ha & Hr & Hc). rewrite Hh by set_solver. split; [done|]. split; [eapply rep_frame; [|done]; set_solver|apply IH; set_solver].
    - setoid_rewrite cads_FR in Hh. intros (Ha & Hr & Hc). rewrite Hh by set_solver. split; [done|]. split; [eapply rep_frame; [|done]; set_solver|apply IH; set_solver].
  Qed.
  Lemma rep_insert h par t a n : a ∉ ads t → rep h par t → rep (<[a := n]> h) par t.
  Proof using. intros Ha. apply rep_frame. intros b Hb. rewrite lookup_insert_ne; [done|]. set_solver. Qed.
  Lemma repc_insert h ctx p root a n : a ∉ cads ctx → repc h ctx p root → repc (<[a := n]> h) ctx p root.
  Proof using. intros Ha. apply repc_frame. intros b Hb. rewrite lookup_insert_ne; [done|]. set_solver. Qed.
  Lemma rep_in h par t a : rep h par t → a ∈ ads t → is_Some (h !! a).
  Proof using.
    revert par. induction t as [|l IHl b c k v r IHr]; intros par; cbn; [set_solver|]. rewrite ads_N. intros (? & ? & ?).
    intros [?|[->|?]%elem_of_cons]%elem_of_app; eauto.
  Qed.
  Lemma rootp_in t a : rootp t = Some a → a ∈ ads t.
  Proof using. destruct t; cbn; [done|]. rewrite ads_N. intros. set_solver. Qed.

  (** focusing *)
  Lemma foc_split s ctx t : rbrep s (plug ctx t) ↔
    (rep (rb_heap s) (cpar ctx) t ∧ repc (rb_heap s) ctx (rootp t) (rb_root s) ∧ NoDup (cads ctx ++ ads t) ∧ Forall (λ a, a < rb_next s)%nat (cads ctx ++ ads t)).
  Proof using.
    split.
    - intros [H1 H2 H3 H4]. destruct (proj1 (rep_plug (rb_heap s) ctx t (rb_root s)) (conj H1 H2)). rewrite ads_plug in H3, H4. done.
    - intros (H1 & H2 & H3 & H4). destruct (proj2 (rep_plug (rb_heap s) ctx t (rb_root s)) (conj H1 H2)). split; try done; by rewrite ads_plug.
  Qed.
  Lemma foc_get s ctx l a c k v r : rbrep s (plug ctx (N l a c k v r)) → get (Some a) s = Ok (MkNode (cpar ctx) (rootp l) (rootp r) c k v, s).
  Proof using. intros ((Ha & _) & _)%foc_split. unfold get. by rewrite Ha. Qed.
  Definition upd_heap s h : rb K V := MkRb h (rb_next s) (rb_root s) (rb_size s).
  (** the same tree's bookkeeping outside the heap and root *)
  Definition same s s' : Prop := rb_next s' = rb_next s ∧ rb_size s' = rb_size s.
  Lemma same_refl s : same s s. Proof using. done. Qed.
  Lemma same_trans s1 s2 s3 : same s1 s2 → same s2 s3 → same s1 s3.
  Proof using. unfold same. intuition congruence. Qed.
  (** changing colour, key or value at the focus *)
  Lemma foc_put s ctx l a c k v r f c' k' v' : rbrep s (plug ctx (N l a c k v r)) →
    (∀ p q q', f (MkNode p q q' c k v) = MkNode p q q' c' k' v') →
    wp (put (Some a) f) (λ _ s', rbrep s' (plug ctx (N l a c' k' v' r)) ∧ same s s') s.
  Proof using.
    intros ((Ha & Hl & Hr) & Hc & Hnd & Hlt)%foc_split Hf. unfold put. eapply wp_eq; [by rewrite Ha|]. split; [|done]. apply foc_split. cbn.
    rewrite ads_N in *. apply NoDup_app in Hnd as (N1 & N2 & N3). apply NoDup_app in N3 as (N3 & N4 & N5). apply NoDup_cons in N5 as [N5 N6].
    split_and!; [rewrite lookup_insert, Hf; done|apply rep_insert; [|done]; set_solver|apply rep_insert; [|done]; set_solver|apply repc_insert; [|done]; set_solver| |done].
    apply NoDup_app. split_and!; [done|set_solver|]. apply NoDup_app. split_and!; [done|set_solver|]. by apply NoDup_cons.
  Qed.
  (** linking a different subtree root below the context: rotations' and Delete's
      "if p == nil root = q else if x == p.left p.left = q else p.right = q", both forms *)
  Definition relink_l (xp x q : ptr) : M (rb K V) unit :=
    match xp with
    | None => set_root q
    | _ => mbind_ (left xp) (λ xpl, if peq x xpl then put xp (with_left q) else put xp (with_right q))
    end.
  Definition relink_r (xp x q : ptr) : M (rb K V) unit :=
    match xp with
    | None => set_root q
    | _ => mbind_ (right xp) (λ xpr, if peq x xpr then put xp (with_right q) else put xp (with_left q))
    end.
  Lemma relink_l_ok s ctx x q : repc (rb_heap s) ctx (Some x) (rb_root s) → NoDup (cads ctx) → x ∉ cads ctx →
    wp (relink_l (cpar ctx) (Some x) q) (λ _ s', repc (rb_heap s') ctx q (rb_root s') ∧ (∀ a, a ∉ cads ctx → rb_heap s' !! a = rb_heap s !! a) ∧ same s s') s.
  Proof using.
    intros Hc Hnd Hx. destruct ctx as [|[a c k v r|l a c k v] ctx]; cbn in *.
    - eapply wp_eq; [reflexivity|]. done.
    - rewrite cads_FL in Hnd, Hx. destruct Hc as (Ha & Hr & Hc). unfold left. apply wp_bind. eapply wp_eq. { unfold mbind_, get. rewrite Ha. reflexivity. } cbn.
      unfold peq. rewrite bool_decide_eq_true_2 by done. unfold put. eapply wp_eq. { rewrite Ha. reflexivity. } cbn.
      apply NoDup_cons in Hnd as [N1 N2]. split; [split_and!|].
      + by rewrite lookup_insert. + apply rep_insert; [set_solver|done]. + apply repc_insert; [set_solver|done].
      + split; [|done]. intros b. rewrite cads_FL. intros. rewrite lookup_insert_ne; [done|]. set_solver.
    - rewrite cads_FR in Hnd, Hx. destruct Hc as (Ha & Hl & Hc). unfold left. apply wp_bind. eapply wp_eq. { unfold mbind_, get. rewrite Ha. reflexivity. } cbn.
      unfold peq. rewrite bool_decide_eq_false_2. 2:{ intros E1. symmetry in E1. apply rootp_in in E1. set_solver. } unfold put. eapply wp_eq. { rewrite Ha. reflexivity. } cbn.
      apply NoDup_cons in Hnd as [N1 N2]. split; [split_and!|].
      + by rewrite lookup_insert. + apply rep_insert; [set_solver|done]. + apply repc_insert; [set_solver|done].
      + split; [|done]. intros b. rewrite cads_FR. intros. rewrite lookup_insert_ne; [done|]. set_solver.
  Qed.
  Lemma relink_r_ok s ctx x q : repc (rb_heap s) ctx (Some x) (rb_root s) → NoDup (cads ctx) → x ∉ cads ctx →
    wp (relink_r (cpar ctx) (Some x) q) (λ _ s', repc (rb_heap s') ctx q (rb_root s') ∧ (∀ a, a ∉ cads ctx → rb_heap s' !! a = rb_heap s !! a) ∧ same s s') s.
  Proof using.
    intros Hc Hnd Hx. destruct ctx as [|[a c k v r|l a c k v] ctx]; cbn in *.
    - eapply wp_eq; [reflexivity|]. done.
    - rewrite cads_FL in Hnd, Hx. destruct Hc as (Ha & Hr & Hc). unfold right. apply wp_bind. eapply wp_eq. { unfold mbind_, get. rewrite Ha. reflexivity. } cbn.
      unfold peq. rewrite bool_decide_eq_false_2. 2:{ intros E1. symmetry in E1. apply rootp_in in E1. set_solver. } unfold put. eapply wp_eq. { rewrite Ha. reflexivity. } cbn.
      apply NoDup_cons in Hnd as [N1 N2]. split; [split_and!|].
      + by rewrite lookup_insert. + apply rep_insert; [set_solver|done]. + apply repc_insert; [set_solver|done].
      + split; [|done]. intros b. rewrite cads_FL. intros. rewrite lookup_insert_ne; [done|]. set_solver.
    - rewrite cads_FR in Hnd, Hx. destruct Hc as (Ha & Hl & Hc). unfold right. apply wp_bind. eapply wp_eq. { unfold mbind_, get. rewrite Ha. reflexivity. } cbn.
      unfold peq. rewrite bool_decide_eq_true_2 by done. unfold put. eapply wp_eq. { rewrite Ha. reflexivity. } cbn.
      apply NoDup_cons in Hnd as [N1 N2]. split; [split_and!|].
      + by rewrite lookup_insert. + apply rep_insert; [set_solver|done]. + apply repc_insert; [set_solver|done].
      + split; [|done]. intros b. rewrite cads_FR. intros. rewrite lookup_insert_ne; [done|]. set_solver.
  Qed.
  (** "if q != nil { q.parent = p }" *)
  Definition reparent (q p : ptr) : M (rb K V) unit := match q with None => mret_ tt | _ => put q (with_parent p) end.
  Lemma reparent_ok s t par p : rep (rb_heap s) par t → NoDup (ads t) →
    wp (reparent (rootp t) p) (λ _ s', rep (rb_heap s') p t ∧ (∀ a, a ∉ ads t → rb_heap s' !! a = rb_heap s !! a) ∧ same s s' ∧ rb_root s' = rb_root s) s.
  Proof using.
    intros Hr Hnd. destruct t as [|l a c k v r]; cbn in *; [by eapply wp_eq|]. destruct Hr as (Ha & Hl & Hr). unfold put. eapply wp_eq. { rewrite Ha. reflexivity. } cbn.
    rewrite ads_N in *. apply NoDup_app in Hnd as (N1 & N2 & N3). apply NoDup_cons in N3 as [N3 N4]. split; [split_and!|].
    - by rewrite lookup_insert. - apply rep_insert; [set_solver|done]. - apply rep_insert; [set_solver|done].
    - split; [|done]. intros b Hb. rewrite lookup_insert_ne; [done|]. set_solver.
  Qed.
End trees.
Arguments tree : clear implicits. Arguments frame : clear implicits.
#[global] Arguments ads : simpl never. #[global] Arguments cads : simpl never.
