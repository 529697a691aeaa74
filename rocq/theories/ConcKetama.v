(** Property C57: goroutine-safe Ketama. *)
From Verif Require Import Base History RbModel MapModel BloomModel BloomProofs KetamaModel KetamaSpec KetamaProofs KetamaProps ConcModel ConcSpec ConcProofs ConcProps ConcSections ConcPlay ConcRo ConcKetamaModel.
From Verif Require Import Wp RbTree RbRot RbIns RbIns2 RbDel RbNav RbDel2 RbSpec RbFind RbProps RbApi MapSpec MapProofs MapProps.
Open Scope Z_scope.
Open Scope go_scope.

(** the model of concurrent Get run alone is Get *)
Lemma ketama_get_alone dig replicas key s : match kt_Get dig key s with
  | Ok (r, s') => exec (flatten section_lock (whole (section_step dig replicas)) (kt_method dig (KGet key))) s = (Some (KNode r), s')
  | Panic => exec (flatten section_lock (whole (section_step dig replicas)) (kt_method dig (KGet key))) s = (None, s)
  | Fuel => True end.
Proof.
  unfold kt_method, kt_Get. cbn [flatten section_lock locked whole bindp exec section_step]. unfold kt_Empty, mbind_, map_Size, rb_Size, mret_. destruct (get_size s) as [[n s1]| |] eqn:En; [|done|done]. assert (s1 = s) as -> by by apply ro_size in En.
  destruct (n =? 0); cbn [exec]; [done|]. unfold ints. destruct (gen_hash_ints dig (ksalt ++ key) 1) as [hs| |]; [|done|done]. unfold nth_int. destruct (hs !! 0%nat) as [x|]; [|done].
  unfold mret_. cbn [flatten section_lock locked whole bindp exec section_step]. unfold mbind_, mret_. by destruct (kt_get_locked x s) as [[r s']| |].
Qed.

(** C57 is false: Get panics when a Remove empties the ring between its two critical sections *)
Theorem ketama_concurrent_get_refuted : ∃ dig : bytes → bytes, (∀ d, length (dig d) = 64%nat) ∧
  ∃ c, execution (λ o, flatten section_lock (whole (section_step dig defaultReplicas)) (kt_method dig o)) kt_new
    [EInv 0%nat (KAdd [[1]%N]); ERet 0%nat (Some KUnit); EInv 1%nat (KGet [2]%N); EInv 2%nat (KRemove [[1]%N]); ERet 2%nat (Some KUnit); ERet 1%nat None] c.
Proof.
  exists toy. split; [exact toy_length|].
  apply (history_sound (λ o, flatten section_lock (whole (section_step toy defaultReplicas)) (kt_method toy o)) _
    [ACall 0 (KAdd [[1]%N]); AStep 0; AStep 0; AStep 0; AStep 0; ARet 0; ACall 1 (KGet [2]%N); AStep 1; AStep 1; AStep 1;
     ACall 2 (KRemove [[1]%N]); AStep 2; AStep 2; AStep 2; AStep 2; ARet 2; AStep 1; AStep 1; AStep 1; AStep 1; ARet 1]).
  vm_compute. reflexivity.
Qed.
Print Assumptions ketama_concurrent_get_refuted.

Section ketama.
  Context (dig : bytes → bytes) (Hdig : ∀ d, length (dig d) = 64%nat) (replicas : Z) (Hrep : 0 <= replicas).
  Context (body : kt_section → prog (rb BinNums.N bytes) (option kt_res)).
  Context (Himp : implements (section_step dig replicas) body) (Hdis : disciplined section_lock body).
  Notation method := (λ o, flatten section_lock body (kt_method dig o)).
  Notation entry := (nat * kt_section * option kt_res)%type.
  Implicit Types (r : ring) (L : list entry).

  (** what a section does to the ring *)
  Definition sec_after r (o : kt_section) : ring :=
    match o with SecAdd nodes => foldl (add_node dig replicas) r nodes | SecRemove nodes => foldl (remove_node dig replicas) r nodes | _ => r end.
  Definition sec_object (o : kt_section) r (a : option kt_res) (r' : ring) : Prop :=
    r' = sec_after r o ∧
    match o with
    | SecEmpty => ∃ b, a = Some (KBool b) ∧ (b = true ↔ r = ∅)
    | SecAdd _ | SecRemove _ => a = Some KUnit
    | SecGet q => if decide (r = ∅) then a = None else ∃ n, a = Some (KNode (Some n)) ∧ owner r q n
    end.
  Lemma get_empty s q : kholds s ∅ → kt_get_locked q s = Panic.
  Proof using.
    clear. intros (l & [(t & Ht & <-) Ha] & Hl). pose proof (tinv_rep _ _ _ Ht) as Hp. unfold kt_get_locked, map_LowerBound. unfold mbind_ at 1. destruct (hd_search_lower u64cmp u64_ok s t q Ht) as (L & R & -> & E2 & E3).
    assert ((io t).*2 = []) as E0. { destruct ((io t).*2) as [|[p n] l] eqn:E; [done|]. specialize (Hl p). rewrite lookup_empty in Hl. symmetry in Hl. assert (lookup_k u64cmp p ((p, n) :: l) = Some n) as E'; [|congruence]. apply in_lookup; [done | left]. }
    assert (io t = []) as Et by (by destruct (io t)). rewrite Et in E2. symmetry in E2. apply app_eq_nil in E2 as [-> ->]. cbn [hd head fmap option_fmap option_map mi_IsValid].
    unfold map_First, mbind_, mi_Value. rewrite (hd_first _ _ Hp), Et. done.
  Qed.
  Lemma sec_ok o s r : kholds s r → match section_step dig replicas o s with Ok (a, s') => ∃ r', sec_object o r (Some a) r' ∧ kholds s' r' | Panic => sec_object o r None r | Fuel => False end.
  Proof using Hdig Hrep.
    intros Hk. destruct o as [|nodes|nodes|q]; cbn [section_step]; unfold mbind_ at 1.
    - unfold kt_Empty, mbind_. destruct (k_size s r Hk) as (n & -> & Hn). cbn [mret_]. exists r. split; [|done]. split; [done|]. exists (n =? 0). split; [done|]. rewrite <- Hn. lia.
    - destruct (add_ok dig Hdig replicas Hrep nodes s r Hk) as (s' & -> & H'). by eexists.
    - destruct (remove_ok dig Hdig replicas Hrep nodes s r Hk) as (s' & -> & H'). by eexists.
    - destruct (decide (r = ∅)) as [->|Hne].
      + rewrite get_empty by done. split; [done|]. by rewrite decide_True.
      + destruct (get_ok s r q Hk Hne) as (n & -> & Ho). exists r. split; [|done]. split; [done|]. rewrite decide_False by done. by exists n.
  Qed.
  Lemma sections_legal L : ∀ s s' r, kholds s r → one_by_one body L s s' → legal sec_object L r.
  Proof using Hdig Hrep Himp.
    induction L as [|[[i o] a] L IH]; intros s s' r Hk; cbn [one_by_one legal]; [done|]. intros (s1 & E & H). specialize (Himp o s). pose proof (sec_ok o s r Hk) as Ho.
    destruct (section_step dig replicas o s) as [[x s2]| |]; [| |done].
    - rewrite E in Himp. injection Himp as -> ->. destruct Ho as (r' & Ho & Hk'). exists r'. split; [done|]. by eapply IH.
    - rewrite E in Himp. injection Himp as -> ->. exists r. split; [done|]. by eapply IH.
  Qed.
  (** the sections of all concurrent calls take effect one by one and in an order that respects the
      order of calls, each doing what the ring demands; the second section of Get panics if the ring is
      then empty *)
  Theorem ketama_sections_partial h c : execution method kt_new h c → ∃ L, arranges (kt_method dig) h L ∧ legal sec_object L ∅.
  Proof using Hdig Hrep Himp Hdis.
    intros Hex. destruct (sections_atomic section_lock body (kt_method dig) (λ o, proj1 (Hdis o)) (λ o, proj2 (Hdis o)) _ _ _ Hex) as (L & s' & Ha & H1).
    exists L. split; [done|]. eapply sections_legal; [apply kholds_new | done].
  Qed.

  (** the ring before the n-th section *)
  Definition ring_at L (n : nat) : ring := foldl (λ r x, sec_after r x.1.2) ∅ (take n L).
  Lemma legal_at L : ∀ r n i o a, legal sec_object L r → L !! n = Some (i, o, a) → ∃ r', sec_object o (foldl (λ r x, sec_after r x.1.2) r (take n L)) a r'.
  Proof using.
    clear. induction L as [|[[j o'] a'] L IH]; intros r n i o a Hl E; [done|]. cbn [legal] in Hl. destruct Hl as (r1 & H1 & H2). destruct n as [|n].
    - injection E as -> -> ->. by exists r1.
    - cbn [take foldl fst snd]. destruct H1 as [-> _]. by eapply IH.
  Qed.
  Lemma of_call_lookup L : ∀ i k o a, of_call i L !! k = Some (o, a) → ∃ n, L !! n = Some (i, o, a) ∧ length (of_call i (take n L)) = k.
  Proof using.
    clear. induction L as [|[[j o'] a'] L IH]; intros i k o a; [done|]. unfold of_call. cbn [omap list_omap]. change (lin_id (j, o', a')) with j. destruct (decide (j = i)) as [->|Hne].
    - destruct k as [|k]; cbn [lookup list_lookup]; [intros [= -> ->]; by exists 0%nat|]. intros E. destruct (IH i k o a E) as (n & E1 & E2). exists (S n). split; [done|].
      cbn [take omap list_omap]. change (lin_id (i, o', a')) with i. rewrite decide_True by done. cbn [length]. by rewrite <- E2.
    - intros E. destruct (IH i k o a E) as (n & E1 & E2). exists (S n). split; [done|]. cbn [take omap list_omap]. change (lin_id (j, o', a')) with j. rewrite decide_False by done. by rewrite <- E2.
  Qed.
  Lemma of_call_take L i m n : (m <= n)%nat → (length (of_call i (take m L)) <= length (of_call i (take n L)))%nat.
  Proof using. clear. intros H. assert (take n L = take m L ++ take (n - m) (drop m L)) as -> by (rewrite take_take_drop; f_equal; lia). unfold of_call. rewrite omap_app, app_length. lia. Qed.
  Lemma of_call_two L i o1 a1 o2 a2 : of_call i L = [(o1, a1); (o2, a2)] → ∃ m n, (m < n)%nat ∧ L !! m = Some (i, o1, a1) ∧ L !! n = Some (i, o2, a2).
  Proof using.
    clear. intros E. destruct (of_call_lookup L i 0 o1 a1) as (m & H1 & H2); [by rewrite E|]. destruct (of_call_lookup L i 1 o2 a2) as (n & H3 & H4); [by rewrite E|].
    exists m, n. split; [|done]. destruct (decide (m < n)%nat) as [|Hn]; [done|]. pose proof (of_call_take L i n m ltac:(lia)). lia.
  Qed.
  Lemma hash_ok key : ∃ hs, gen_hash_ints dig (ksalt ++ key) 1 = Ok hs ∧ hs !! 0%nat = Some (point dig key 0).
  Proof using Hdig. destruct (ints_ok dig Hdig key 1 kt_new ltac:(lia)) as (l & E & _ & H). unfold ints in E. destruct (gen_hash_ints dig (ksalt ++ key) 1) as [hs| |]; [|done..]. injection E as ->. exists l. split; [done|]. apply H. lia. Qed.
  (** the ways a Get can have gone so far *)
  Lemma get_runs key l cd : runs (kt_method dig (KGet key)) l cd →
    l = [] ∨ (∃ a, l = [(SecEmpty, a)] ∧ (cd = CRet (match a with Some (KBool true) => Some (KNode None) | _ => None end) ∨ a = Some (KBool false))) ∨
    (∃ a, l = [(SecEmpty, Some (KBool false)); (SecGet (point dig key 0), a)] ∧ cd = CRet a).
  Proof using Hdig.
    cbn [kt_method]. destruct (hash_ok key) as (hs & Eh & Eh0). rewrite Eh, Eh0. intros H. inversion H as [|o k a l' c' H1]; subst; [by left|]. right.
    assert (Hnil : ∀ (x : option kt_res) l1 c1, runs (CRet x : code kt_section (option kt_res) (option kt_res)) l1 c1 → l1 = [] ∧ c1 = CRet x) by (intros x l1 c1 Hx; by inversion Hx).
    destruct a as [[|x|[|]]|].
    - apply Hnil in H1 as [-> ->]. left. eexists. split; [done|]. by left.
    - apply Hnil in H1 as [-> ->]. left. eexists. split; [done|]. by left.
    - apply Hnil in H1 as [-> ->]. left. eexists. split; [done|]. by left.
    - inversion H1 as [|o k a l2 c2 H2]; subst; [left; eexists; split; [done | by right]|]. apply Hnil in H2 as [-> ->]. right. by eexists.
    - apply Hnil in H1 as [-> ->]. left. eexists. split; [done|]. by left.
  Qed.
  Lemma same_op h c i o o' : execution method kt_new h c → EInv i o ∈ h → EInv i o' ∈ h → o = o'.
  Proof using.
    clear. intros Hex Ho Ho'. apply elem_of_list_split in Ho as (h1 & h2 & ->). pose proof (calls_unique _ _ _ _ Hex h1 h2 i o o' eq_refl) as H.
    apply elem_of_app in Ho' as [Ho'|[[= ->]|Ho']%elem_of_cons]; [|done|]; destruct H; apply elem_of_app; auto.
  Qed.
  (** a Get that returns answers as the ring demands at an instant of the call (the sections of a call
      are within the call, see [arranges]); if it panics the ring was not empty at one instant of the
      call and empty at a later one *)
  Theorem ketama_get_partial h c : execution method kt_new h c → ∃ L, arranges (kt_method dig) h L ∧ legal sec_object L ∅ ∧
    ∀ i key res, EInv i (KGet key) ∈ h → ERet i res ∈ h → ∃ n o a, L !! n = Some (i, o, a) ∧
      match res with
      | Some (KNode None) => ring_at L n = ∅
      | Some (KNode (Some m)) => owner (ring_at L n) (point dig key 0) m
      | None => ring_at L n = ∅ ∧ ∃ n' a', (n' < n)%nat ∧ L !! n' = Some (i, SecEmpty, a') ∧ ring_at L n' ≠ ∅
      | _ => False
      end.
  Proof using Hdig Hrep Himp Hdis.
    intros Hex. destruct (ketama_sections_partial h c Hex) as (L & Ha & Hl). exists L. split_and!; [done | done|]. intros i key res Hi Hres.
    destruct (arr_returned _ _ _ Ha i res Hres) as (o & Ho & Hrun). assert (o = KGet key) as -> by by eapply same_op.
    apply get_runs in Hrun as Hcase. destruct Hcase as [E|[(a & E & Hc)|(a & E & Hc)]].
    - rewrite E in Hrun. inversion Hrun.
    - destruct (of_call_lookup L i 0 SecEmpty a) as (n & H1 & _); [by rewrite E|]. exists n, SecEmpty, a. split; [done|]. destruct (legal_at L ∅ n i _ _ Hl H1) as (r' & _ & b & -> & Hb).
      destruct b.
      + destruct Hc as [[= ->]|[=]]. by apply Hb.
      + exfalso. rewrite E in Hrun. destruct (hash_ok key) as (hs & Eh & Eh0). cbn [kt_method] in Hrun. rewrite Eh, Eh0 in Hrun. inversion Hrun as [|? ? ? ? ? Hx]; subst. inversion Hx.
    - injection Hc as ->. destruct (of_call_two L i _ _ _ _ E) as (m & n & Hmn & H1 & H2). exists n. eexists _, _. split; [done|].
      destruct (legal_at L ∅ m i _ _ Hl H1) as (r1 & _ & b & [= <-] & Hb). destruct (legal_at L ∅ n i _ _ Hl H2) as (r2 & _ & Hg). destruct (decide _) as [He|He].
      + subst a. split; [done|]. exists m. eexists. split_and!; [done | done|]. intros Hm. by apply Hb in Hm.
      + by destruct Hg as (nd & -> & Hg).
  Qed.

  (** the object a Ketama is meant to be *)
  Definition kt_object (o : kt_op) r (a : option kt_res) (r' : ring) : Prop := r' = after dig replicas r o ∧ ∃ x, a = Some x ∧ answer dig r o x.
  Definition op_of (h : list (event kt_op (option kt_res))) (i : nat) : option kt_op :=
    head (omap (λ e, match e with EInv j o => if decide (j = i) then Some o else None | _ => None end) h).
  (** the section at which a call takes effect *)
  Definition effect (h : list (event kt_op (option kt_res))) (x : entry) : option (nat * kt_op * option kt_res) :=
    match op_of h x.1.1 with
    | Some (KGet key) =>
        match x.1.2, x.2 with
        | SecEmpty, Some (KBool true) => Some (x.1.1, KGet key, Some (KNode None))
        | SecEmpty, _ => None
        | _, a => Some (x.1.1, KGet key, a)
        end
    | Some o => Some (x.1.1, o, x.2)
    | None => None
    end.
  Lemma op_of_spec h c i o : execution method kt_new h c → EInv i o ∈ h → op_of h i = Some o.
  Proof using.
    intros Hex Ho. unfold op_of. destruct (omap _ h) as [|o' l] eqn:E.
    - exfalso. assert (o ∈ ([] : list kt_op)) as H; [|by apply elem_of_nil in H]. rewrite <- E. apply elem_of_list_omap. exists (EInv i o). split; [done|]. by rewrite decide_True.
    - cbn. f_equal. assert (o' ∈ o' :: l) as H by left. rewrite <- E in H. apply elem_of_list_omap in H as (e & He & E'). destruct e as [j o1|]; [|done]. destruct (decide (j = i)) as [->|]; [|done]. injection E' as ->. by eapply same_op.
  Qed.
  Lemma of_call_at L n i o a : L !! n = Some (i, o, a) → of_call i L !! length (of_call i (take n L)) = Some (o, a).
  Proof using.
    clear. intros E. assert (of_call i L = of_call i (take n L) ++ (o, a) :: of_call i (drop (S n) L)) as ->; [|by apply list_lookup_middle].
    transitivity (of_call i (take n L ++ (i, o, a) :: drop (S n) L)); [by rewrite (take_drop_middle _ _ _ E)|]. unfold of_call. rewrite omap_app. cbn [omap list_omap]. change (lin_id (i, o, a)) with i. by rewrite decide_True by done.
  Qed.
  Lemma of_call_strict L m n i o a : L !! m = Some (i, o, a) → (m < n)%nat → (length (of_call i (take m L)) < length (of_call i (take n L)))%nat.
  Proof using.
    clear. intros E H. pose proof (of_call_take L i (S m) n ltac:(lia)). rewrite (take_S_r _ _ _ E) in H0. rewrite of_call_same, app_length in H0. cbn in H0. lia.
  Qed.
  Lemma add_keeps nodes : ∀ r, r ≠ ∅ → foldl (add_node dig replicas) r nodes ≠ ∅.
  Proof using.
    clear. induction nodes as [|n nodes IH]; intros r Hr; cbn [foldl]; [done|]. apply IH. apply map_choose in Hr as (p & x & Hp). intros E.
    pose proof (add_lookup dig replicas n r p) as H. by rewrite Hp, E, lookup_empty in H.
  Qed.
  Lemma ring_keeps L m n : (∀ x nodes, x ∈ L → x.1.2 ≠ SecRemove nodes) → (m <= n)%nat → ring_at L m ≠ ∅ → ring_at L n ≠ ∅.
  Proof using.
    clear. intros Hno Hmn Hm. unfold ring_at in *. assert (take n L = take m L ++ take (n - m) (drop m L)) as -> by (rewrite take_take_drop; f_equal; lia). rewrite foldl_app.
    assert (∀ x nodes, x ∈ take (n - m) (drop m L) → x.1.2 ≠ SecRemove nodes) as Hno'. { intros x nodes Hx. apply Hno. rewrite <- (take_drop m L). apply elem_of_app. right. rewrite <- (take_drop (n - m) (drop m L)). apply elem_of_app. by left. }
    revert Hno' Hm. generalize (take (n - m) (drop m L)) as L2. generalize (foldl (λ r x, sec_after r x.1.2) ∅ (take m L)) as r. clear. intros r L2. revert r. induction L2 as [|x L2 IH]; intros r Hno Hr; cbn [foldl]; [done|].
    apply IH; [intros y nodes Hy; apply Hno; by right|]. destruct (x.1.2) eqn:E; cbn [sec_after]; try done; [by apply add_keeps|]. exfalso. eapply Hno; [left | done].
  Qed.
  Lemma before_omap {X Y} (g : X → option Y) (l : list X) m n x0 y0 x y : l !! m = Some x0 → l !! n = Some y0 → (m < n)%nat → g x0 = Some x → g y0 = Some y → before x y (omap g l).
  Proof using.
    clear. intros E1 E2 Hmn G1 G2. rewrite <- (take_drop_middle _ _ _ E1). assert (drop (S m) l !! (n - S m)%nat = Some y0) as E3 by (rewrite lookup_drop, <- E2; f_equal; lia).
    rewrite <- (take_drop_middle _ _ _ E3). rewrite omap_app. cbn [omap list_omap]. rewrite G1. rewrite omap_app. cbn [omap list_omap]. rewrite G2. by eexists _, _, _.
  Qed.
  Lemma single_runs o so l cd : (o = KEmpty ∧ so = SecEmpty) ∨ (∃ nodes, o = KAdd nodes ∧ so = SecAdd nodes) ∨ (∃ nodes, o = KRemove nodes ∧ so = SecRemove nodes) →
    runs (kt_method dig o) l cd → l = [] ∨ ∃ a, l = [(so, a)] ∧ cd = CRet a.
  Proof using.
    clear. intros Ho Hr. assert (kt_method dig o = COp so CRet) as E by (destruct Ho as [[-> ->]|[(? & -> & ->)|(? & -> & ->)]]; done). rewrite E in Hr.
    inversion Hr as [|? ? a l' ? H1]; subst; [by left|]. right. inversion H1; subst. by eexists.
  Qed.
  (** in executions without Remove, Get and Add and Empty are linearizable and none of them panics *)
  Theorem ketama_without_remove_partial h c : execution method kt_new h c → (∀ i nodes, EInv i (KRemove nodes) ∉ h) →
    (∃ K : list (nat * kt_op * option kt_res), linearizes h K ∧ legal kt_object K ∅) ∧ ∀ i, ERet i None ∉ h.
  Proof using Hdig Hrep Himp Hdis.
    intros Hex Hno. destruct (ketama_sections_partial h c Hex) as (L & Ha & Hl).
    (* what an entry can be *)
    assert (Hkind : ∀ n i so a, L !! n = Some (i, so, a) → ∃ o, op_of h i = Some o ∧ EInv i o ∈ h ∧
      match o with KAdd nodes => so = SecAdd nodes ∧ of_call i L = [(so, a)] | KRemove _ => False | KEmpty => so = SecEmpty ∧ of_call i L = [(so, a)]
      | KGet key => (so = SecEmpty ∧ (of_call i L = [(SecEmpty, a)] ∨ a = Some (KBool false) ∧ ∃ a', of_call i L = [(SecEmpty, Some (KBool false)); (SecGet (point dig key 0), a')]))
          ∨ (so = SecGet (point dig key 0) ∧ of_call i L = [(SecEmpty, Some (KBool false)); (SecGet (point dig key 0), a)]) end).
    { intros n i so a E. destruct (arr_called _ _ _ Ha (i, so, a)) as (o & Ho); [by eapply elem_of_list_lookup_2|]. change (lin_id (i, so, a)) with i in Ho. exists o. split_and!; [by eapply op_of_spec | done |].
      destruct (arr_runs _ _ _ Ha i o Ho) as (cd & Hr). pose proof (of_call_at L n i so a E) as Hat.
      destruct o as [nodes|nodes|key|].
      - destruct (single_runs (KAdd nodes) (SecAdd nodes) _ _ ltac:(right; left; by eexists) Hr) as [E0|(a' & E0 & _)]; rewrite E0 in Hat; [done|]. apply list_lookup_singleton_Some in Hat as [_ [= <- <-]]. done.
      - by apply Hno in Ho.
      - destruct (get_runs _ _ _ Hr) as [E0|[(a' & E0 & _)|(a' & E0 & _)]]; rewrite E0 in Hat.
        + done.
        + apply list_lookup_singleton_Some in Hat as [_ [= <- <-]]. left. split; [done|]. by left.
        + destruct (length (of_call i (take n L))) as [|[|k]]; [|by injection Hat as <- <-; right | done]. injection Hat as <- <-. left. split; [done|]. right. split; [done|]. by exists a'.
      - destruct (single_runs KEmpty SecEmpty _ _ ltac:(by left) Hr) as [E0|(a' & E0 & _)]; rewrite E0 in Hat; [done|]. apply list_lookup_singleton_Some in Hat as [_ [= <- <-]]. done. }
    assert (Hnorem : ∀ x nodes, x ∈ L → x.1.2 ≠ SecRemove nodes).
    { intros [[i so] a] nodes (n & E)%elem_of_list_lookup. cbn. intros ->. destruct (Hkind n i _ a E) as (o & _ & _ & Hk). destruct o; [by destruct Hk | done | by destruct Hk as [[? _]|[? _]] | by destruct Hk]. }
    assert (Hid : ∀ x y, effect h x = Some y → lin_id y = x.1.1 ∧ op_of h x.1.1 = Some y.1.2).
    { intros [[i so] a] y. unfold effect. cbn [fst snd]. destruct (op_of h i) as [[]|]; [intros [= <-]; done..| | intros [= <-]; done | done]. destruct so; [destruct a as [[| |[]]|]|..]; intros [= <-]; done. }
    assert (Huniq : ∀ n1 n2 x1 x2 y1 y2, L !! n1 = Some x1 → L !! n2 = Some x2 → effect h x1 = Some y1 → effect h x2 = Some y2 → lin_id y1 = lin_id y2 → n1 = n2).
    { intros n1 n2 [[i so1] a1] [[j so2] a2] y1 y2 E1 E2 F1 F2 Ey. rewrite (proj1 (Hid _ _ F1)), (proj1 (Hid _ _ F2)) in Ey. cbn in Ey. subst j.
      pose proof (of_call_at _ _ _ _ _ E1) as A1. pose proof (of_call_at _ _ _ _ _ E2) as A2.
      assert (length (of_call i (take n1 L)) = length (of_call i (take n2 L))) as El.
      { destruct (Hkind _ _ _ _ E1) as (o & Eo & _ & K1). destruct (Hkind _ _ _ _ E2) as (o' & Eo' & _ & K2). rewrite Eo in Eo'. injection Eo' as <-.
        assert (Hsing : ∀ z, of_call i L = [z] → length (of_call i (take n1 L)) = length (of_call i (take n2 L))). { intros z Ez. rewrite Ez in A1, A2. apply list_lookup_singleton_Some in A1 as [-> _], A2 as [-> _]. done. }
        destruct o as [nodes|nodes|key|]; [by eapply Hsing, K1 | done | | by eapply Hsing, K1].
        unfold effect in F1, F2. cbn [fst snd] in F1, F2. rewrite Eo in F1, F2.
        destruct K1 as [(-> & [K1|(-> & a' & K1)])|(-> & K1)]; [by eapply Hsing | done |].
        destruct K2 as [(-> & [K2|(-> & a' & K2)])|(-> & K2)]; [by eapply Hsing | done |].
        rewrite K1 in A1, A2. destruct (length (of_call i (take n1 L))) as [|[|k1]]; [done | | done]. by destruct (length (of_call i (take n2 L))) as [|[|k2]]. }
      destruct (decide (n1 < n2)%nat) as [Hlt|]; [pose proof (of_call_strict _ _ _ _ _ _ E1 Hlt); lia|]. destruct (decide (n2 < n1)%nat) as [Hlt|]; [pose proof (of_call_strict _ _ _ _ _ _ E2 Hlt); lia|]. lia. }
    (* each kept entry is a correct step *)
    assert (Hstep : ∀ n i so a, L !! n = Some (i, so, a) → match effect h (i, so, a) with Some y => kt_object y.1.2 (ring_at L n) y.2 (sec_after (ring_at L n) so) ∧ is_Some y.2 | None => sec_after (ring_at L n) so = ring_at L n end).
    { intros n i so a E. destruct (Hkind _ _ _ _ E) as (o & Eo & _ & K). destruct (legal_at L ∅ n i so a Hl E) as (r' & _ & Hs). change (foldl _ ∅ (take n L)) with (ring_at L n) in Hs.
      unfold effect. cbn [fst snd]. rewrite Eo. destruct o as [nodes|nodes|key|].
      - destruct K as [-> _]. subst a. cbn. split; [|by eexists]. split; [done|]. by eexists.
      - done.
      - destruct K as [(-> & _)|(-> & K)].
        + destruct Hs as (b & -> & Hb). destruct b; cbn [sec_after]; [|done]. split; [|by eexists]. split; [done|]. exists (KNode None). split; [done|]. exists None. split; [done|]. by apply Hb.
        + assert (ring_at L n ≠ ∅) as Hne.
          { destruct (of_call_two _ _ _ _ _ _ K) as (m1 & n1 & Hlt & M1 & M2). assert (n1 = n) as ->.
            { eapply (Huniq n1 n _ _ (i, KGet key, a) (i, KGet key, a) M2 E); [unfold effect; cbn [fst snd]; by rewrite Eo | unfold effect; cbn [fst snd]; by rewrite Eo | reflexivity]. }
            destruct (legal_at L ∅ m1 i _ _ Hl M1) as (r1 & _ & b & [= <-] & Hb). change (foldl _ ∅ (take m1 L)) with (ring_at L m1) in Hb. apply (ring_keeps L m1 n Hnorem); [lia|]. intros He. by apply Hb in He. }
          rewrite decide_False in Hs by done. destruct Hs as (nd & -> & Hs). cbn [sec_after]. split; [|by eexists]. split; [done|]. eexists. split; [done|]. by exists (Some nd).
      - destruct K as [-> _]. destruct Hs as (b & -> & Hb). cbn. split; [|by eexists]. split; [done|]. eexists. split; [done|]. by exists b. }
    assert (Hret : ∀ i (r : option kt_res), ERet i r ∈ h → ∃ x y, x ∈ L ∧ effect h x = Some y ∧ lin_id y = i ∧ y.2 = r).
    { intros i r Hr. destruct (arr_returned _ _ _ Ha i r Hr) as (o & Ho & Hrun). pose proof (op_of_spec _ _ _ _ Hex Ho) as Eo.
      assert (Hone : ∀ so a, of_call i L !! 0%nat = Some (so, a) → (i, so, a) ∈ L). { intros so a E. destruct (of_call_lookup L i _ so a E) as (n & E1 & _). by eapply elem_of_list_lookup_2. }
      assert (Htwo : ∀ so a, of_call i L !! 1%nat = Some (so, a) → (i, so, a) ∈ L). { intros so a E. destruct (of_call_lookup L i _ so a E) as (n & E1 & _). by eapply elem_of_list_lookup_2. }
      destruct o as [nodes|nodes|key|].
      - destruct (single_runs (KAdd nodes) (SecAdd nodes) _ _ ltac:(right; left; by eexists) Hrun) as [E0|(a' & E0 & [= <-])]; [rewrite E0 in Hrun; inversion Hrun|].
        eexists (i, _, r), _. split; [apply Hone; by rewrite E0|]. unfold effect. cbn [fst snd]. rewrite Eo. done.
      - by apply Hno in Ho.
      - destruct (get_runs _ _ _ Hrun) as [E0|[(a' & E0 & Hc)|(a' & E0 & [= <-])]].
        + rewrite E0 in Hrun. inversion Hrun.
        + assert ((i, SecEmpty, a') ∈ L) as Hin by (apply Hone; by rewrite E0). pose proof Hin as (n & E1)%elem_of_list_lookup. destruct (legal_at L ∅ n i _ _ Hl E1) as (r1 & _ & b & -> & Hb).
          destruct b; [|exfalso; rewrite E0 in Hrun; destruct (hash_ok key) as (hs & Eh & Eh0); cbn [kt_method] in Hrun; rewrite Eh, Eh0 in Hrun; inversion Hrun as [|? ? ? ? ? Hx]; subst; inversion Hx].
          destruct Hc as [[= ->]|[=]]. eexists _, _. split; [exact Hin|]. unfold effect. cbn [fst snd]. rewrite Eo. done.
        + eexists (i, _, r), _. split; [apply Htwo; by rewrite E0|]. unfold effect. cbn [fst snd]. rewrite Eo. done.
      - destruct (single_runs KEmpty SecEmpty _ _ ltac:(by left) Hrun) as [E0|(a' & E0 & [= <-])]; [rewrite E0 in Hrun; inversion Hrun|].
        eexists (i, _, r), _. split; [apply Hone; by rewrite E0|]. unfold effect. cbn [fst snd]. rewrite Eo. done. }
    split.
    - exists (omap (effect h) L). split; [split|].
      + assert (Hnd : ∀ (L1 L2 : list entry), L = L1 ++ L2 → NoDup (map lin_id (omap (effect h) L2))).
        { intros L1 L2. revert L1. induction L2 as [|x L2 IH]; intros L1 EL; cbn [omap list_omap map]; [constructor|]. specialize (IH (L1 ++ [x])). rewrite <- app_assoc in IH. specialize (IH EL).
          destruct (effect h x) as [y|] eqn:Ex; cbn [map]; [|done]. constructor; [|done]. intros (y' & Ey & (x' & Hx' & Ex')%elem_of_list_omap)%elem_of_list_fmap.
          apply elem_of_list_lookup in Hx' as (k & Hk). assert (length L1 = length L1 + S k)%nat; [|lia]. eapply (Huniq _ _ x x' y y'); [ | |done|done|done].
          - rewrite EL. by apply list_lookup_middle.
          - rewrite EL, lookup_app_r by lia. by replace (length L1 + S k - length L1)%nat with (S k) by lia. }
        by apply (Hnd []).
      + intros i o r (x & Hx & Ex)%elem_of_list_omap. destruct (Hid _ _ Ex) as [E1 E2]. change (lin_id (i, o, r)) with i in E1. cbn in E2. rewrite <- E1 in E2. destruct (arr_called _ _ _ Ha x Hx) as (o' & Ho'). change (lin_id x) with x.1.1 in Ho'. rewrite <- E1 in Ho'.
        rewrite (op_of_spec _ _ _ _ Hex Ho') in E2. by injection E2 as ->.
      + intros i r Hr. destruct (Hret i r Hr) as (x & [[i' o] r'] & Hx & Ex & Ei & Er). cbn in Ei, Er. subst. exists o. apply elem_of_list_omap. by exists x.
      + intros h1 h2 h3 i r j o x y Eh (x0 & Hx & Ex)%elem_of_list_omap (y0 & Hy & Ey)%elem_of_list_omap Ei Ej. apply elem_of_list_lookup in Hx as (m & Hm), Hy as (n & Hn).
        apply (before_omap (effect h) L m n x0 y0 x y Hm Hn); [|exact Ex | exact Ey]. apply (arr_order _ _ _ Ha h1 h2 h3 i r j o m n x0 y0 Eh Hm Hn).
        * rewrite <- Ei. symmetry. apply (Hid _ _ Ex).
        * rewrite <- Ej. symmetry. apply (Hid _ _ Ey).
      + assert (Hleg : ∀ (L1 L2 : list entry), L = L1 ++ L2 → legal kt_object (omap (effect h) L2) (ring_at L (length L1))).
        { intros L1 L2. revert L1. induction L2 as [|[[i so] a] L2 IH]; intros L1 EL; cbn [omap list_omap legal]; [done|]. specialize (IH (L1 ++ [(i, so, a)])). rewrite <- app_assoc in IH. specialize (IH EL).
          assert (L !! length L1 = Some (i, so, a)) as E by (rewrite EL; by apply list_lookup_middle). specialize (Hstep _ _ _ _ E).
          assert (ring_at L (length (L1 ++ [(i, so, a)])) = sec_after (ring_at L (length L1)) so) as Er. { unfold ring_at. rewrite app_length. cbn [length]. rewrite Nat.add_1_r, (take_S_r _ _ _ E), foldl_app. done. }
          rewrite Er in IH. destruct (effect h (i, so, a)) as [[[i' o'] r']|]; cbn [legal]; [|by rewrite Hstep in IH]. destruct Hstep as [Hstep _]. by eexists. }
        by apply (Hleg []).
    - intros i Hr. destruct (Hret i None Hr) as ([[i' so] a] & y & Hx & Ex & _ & Ey). apply elem_of_list_lookup in Hx as (n & Hn). specialize (Hstep _ _ _ _ Hn). rewrite Ex in Hstep. destruct Hstep as [_ [z Hz]]. congruence.
  Qed.
End ketama.
Print Assumptions ketama_sections_partial. Print Assumptions ketama_get_partial. Print Assumptions ketama_without_remove_partial.
(** bodies that meet the hypotheses exist: the section that takes RLock changes nothing *)
Theorem ketama_readers_read dig replicas : readers_read section_lock (section_step dig replicas).
Proof.
  intros o s r s' Hl. destruct o; [|done..]. cbn [section_step]. unfold kt_Empty, mbind_, map_Size, rb_Size. destruct (get_size s) as [[n s1]| |] eqn:E; [|done..]. apply ro_size in E as ->. by intros [= _ <-].
Qed.
(** an execution without Remove in which a Get overlaps an Add *)
Example ketama_overlap : ∃ c, execution (λ o, flatten section_lock (whole (section_step toy defaultReplicas)) (kt_method toy o)) kt_new
  [EInv 0%nat (KAdd [[1]%N]); EInv 1%nat (KGet [2]%N); ERet 1%nat (Some (KNode None)); ERet 0%nat (Some KUnit); EInv 2%nat (KGet [2]%N); ERet 2%nat (Some (KNode (Some [1]%N)))] c.
Proof.
  apply (history_sound (λ o, flatten section_lock (whole (section_step toy defaultReplicas)) (kt_method toy o)) _
    [ACall 0 (KAdd [[1]%N]); ACall 1 (KGet [2]%N); AStep 1; AStep 1; AStep 0; AStep 1; ARet 1; AStep 0; AStep 0; AStep 0; ARet 0; ACall 2 (KGet [2]%N); AStep 2; AStep 2; AStep 2; AStep 2; AStep 2; AStep 2; AStep 2; ARet 2]).
  vm_compute. reflexivity.
Qed.
Print Assumptions ketama_readers_read.
