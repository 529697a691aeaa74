(** Property C88: constructors and their options. *)
From Verif Require Import Base History OptionsModel OptionsSpec.
Local Open Scope nat_scope.

(** the loop allocates identities from the counter on and keeps a fold of the options *)
Section loop.
  Context {O R : Type} (apply : O → R → M nat R).
  (** [P l r n]: what holds of the options and of the counter after the options [l] *)
  Lemma apply_all_ok (P : list O → R → nat → Prop) l0 :
    (∀ l r n o, P l r n → ∃ r' n', apply o r n = Ok (r', n') ∧ P (l ++ [o]) r' n') →
    ∀ l r n, P l0 r n → ∃ r' n', apply_all apply l r n = Ok (r', n') ∧ P (l0 ++ l) r' n'.
  Proof.
    intros H l. revert l0. induction l as [|o l IH]; intros l0 r n HP.
    - exists r, n. by rewrite app_nil_r.
    - destruct (H l0 r n o HP) as (r1 & n1 & E & H1). destruct (IH _ _ _ H1) as (r2 & n2 & E2 & H2). exists r2, n2. rewrite <- app_assoc in H2. split; [|exact H2].
      cbn [apply_all]. unfold mbind_. by rewrite E.
  Qed.
End loop.
(** a lock [k] made since [n0], iff asked for *)
Definition lock_from (n0 n : nat) (want : Prop) (k : locker) : Prop := match k with Fake => ¬ want | Mutex i => want ∧ n0 ≤ i < n end.
Lemma lock_from_iff n0 n want k : lock_from n0 n want k → (want ↔ ∃ i, k = Mutex i).
Proof. destruct k as [|i]; cbn; [naive_solver|]. intros [? _]. naive_solver. Qed.

Lemma lopt_ok l n : ∃ k n', apply_all apply_lopt l Fake n = Ok (k, n') ∧ n ≤ n' ∧ lock_from n n' (LSafe ∈ l) k.
Proof.
  apply (apply_all_ok apply_lopt (λ l k n', n ≤ n' ∧ lock_from n n' (LSafe ∈ l) k) []).
  - intros l' r n1 [] [Hn _]. eexists _, _. split; [reflexivity|]. split; [lia|]. cbn. split; [|lia]. apply elem_of_app. right. by left.
  - split; [done|]. cbn. apply not_elem_of_nil.
Qed.
Lemma last_omap_snoc {O X} (f : O → option X) l o : last (omap f (l ++ [o])) = match f o with Some x => Some x | None => last (omap f l) end.
Proof. rewrite omap_app. cbn. destruct (f o); [by rewrite last_snoc | by rewrite app_nil_r]. Qed.
Lemma sopt_ok l n : ∃ r n', apply_all apply_sopt l (10%Z, Fake) n = Ok (r, n') ∧ n ≤ n' ∧ lock_from n n' (SSafe ∈ l) r.2 ∧
  r.1 = last_number (λ o, match o with SMaxLevel n => Some n | _ => None end) 10 l.
Proof.
  apply (apply_all_ok apply_sopt (λ l r n', n ≤ n' ∧ lock_from n n' (SSafe ∈ l) r.2 ∧ r.1 = last_number (λ o, match o with SMaxLevel n => Some n | _ => None end) 10 l) []).
  - intros l' [z k] n1 o (Hn & Hk & Hz). cbn [fst snd] in *. unfold last_number in *. rewrite last_omap_snoc. destruct o as [|z']; eexists _, _; (split; [reflexivity|]); cbn [fst snd].
    + split; [lia|]. split; [|done]. split; [|lia]. apply elem_of_app. right. by left.
    + split; [done|]. split; [|done]. destruct k as [|i]; cbn in *; rewrite elem_of_app, elem_of_list_singleton; naive_solver.
  - split; [done|]. split; [cbn; apply not_elem_of_nil | done].
Qed.
Lemma kopt_ok l n : ∃ r n', apply_all apply_kopt l (10%Z, Fake) n = Ok (r, n') ∧ n ≤ n' ∧ lock_from n n' (KSafe ∈ l) r.2 ∧
  r.1 = last_number (λ o, match o with KReplicas n => Some n | _ => None end) 10 l.
Proof.
  apply (apply_all_ok apply_kopt (λ l r n', n ≤ n' ∧ lock_from n n' (KSafe ∈ l) r.2 ∧ r.1 = last_number (λ o, match o with KReplicas n => Some n | _ => None end) 10 l) []).
  - intros l' [z k] n1 o (Hn & Hk & Hz). cbn [fst snd] in *. unfold last_number in *. rewrite last_omap_snoc. destruct o as [|z']; eexists _, _; (split; [reflexivity|]); cbn [fst snd].
    + split; [lia|]. split; [|done]. split; [|lia]. apply elem_of_app. right. by left.
    + split; [done|]. split; [|done]. destruct k as [|i]; cbn in *; rewrite elem_of_app, elem_of_list_singleton; naive_solver.
  - split; [done|]. split; [cbn; apply not_elem_of_nil | done].
Qed.
Lemma vopt_ok l n : ∃ r n', apply_all apply_vopt l 0%Z n = Ok (r, n') ∧ n' = n ∧ r = last_number (λ o, match o with VCapacity n => Some n end) 0 l.
Proof.
  apply (apply_all_ok apply_vopt (λ l r n', n' = n ∧ r = last_number (λ o, match o with VCapacity n => Some n end) 0 l) []); [|done].
  intros l' r n1 [z] [-> ->]. eexists _, _. split; [reflexivity|]. split; [done|]. unfold last_number. by rewrite last_omap_snoc.
Qed.

Section props.
  Context {C : Type}.
  Implicit Types (c : ctor C) (o : made C).
  Definition cids (x : cont C) : list nat := match x with DequeAt i | ListAt i => [i] | User _ => [] end.
  Definition lids (k : locker) : list nat := match k with Mutex i => [i] | Fake => [] end.
  Notation ck := (λ o : copt C, match o with CSafe => None | CContainer c => Some (KUser c) | CList => Some KList end).
  Lemma copt_ok l n : ∃ r n', apply_all apply_copt l (DequeAt n, Fake) (S n) = Ok (r, n') ∧ n < n' ∧ (CSafe ∈ l ↔ ∃ i, r.2 = Mutex i) ∧
    kind_of r.1 = default KDeque (last (omap ck l)) ∧ NoDup (lids r.2 ++ cids r.1) ∧ Forall (λ i, n ≤ i < n') (lids r.2 ++ cids r.1).
  Proof.
    apply (apply_all_ok apply_copt (λ l r n', n < n' ∧ (CSafe ∈ l ↔ ∃ i, r.2 = Mutex i) ∧
      kind_of r.1 = default KDeque (last (omap ck l)) ∧ NoDup (lids r.2 ++ cids r.1) ∧ Forall (λ i, n ≤ i < n') (lids r.2 ++ cids r.1)) []).
    - intros l' [x k] n1 o (Hn & Hk & Hc & Hd & Hf). cbn [fst snd] in *. rewrite last_omap_snoc. apply Forall_app in Hf as [Hf1 Hf2].
      destruct o as [|u|]; eexists _, _; (split; [reflexivity|]); cbn [fst snd lids cids kind_of].
      + split; [lia|]. split. { split; [by eexists|]. intros _. apply elem_of_app. right. by left. }
        split; [done|]. split.
        * cbn. apply NoDup_cons. split; [|by apply NoDup_app in Hd as (_ & _ & ?)]. intros Hin. rewrite Forall_forall in Hf2. apply Hf2 in Hin. lia.
        * cbn. constructor; [lia|]. eapply Forall_impl; [exact Hf2|]. cbn. lia.
      + split; [done|]. split. { rewrite <- Hk, elem_of_app, elem_of_list_singleton. naive_solver. }
        split; [done|]. rewrite app_nil_r. split; [by apply NoDup_app in Hd as (? & _ & _) | done].
      + split; [lia|]. split. { rewrite <- Hk, elem_of_app, elem_of_list_singleton. naive_solver. }
        split; [done|]. split.
        * apply NoDup_app. split; [by apply NoDup_app in Hd as (? & _ & _)|]. split; [|apply NoDup_singleton].
          intros i Hi ->%elem_of_list_singleton. rewrite Forall_forall in Hf1. apply Hf1 in Hi. lia.
        * apply Forall_app. split; [eapply Forall_impl; [exact Hf1|]; cbn; lia|]. constructor; [lia | done].
    - cbn. split; [lia|]. split. { split; [intros H; by apply elem_of_nil in H | naive_solver]. } split; [done|]. split; [apply NoDup_singleton|]. constructor; [lia | done].
  Qed.
  Lemma ids_eq o : ids o = lids (md_lock o) ++ match md_cont o with Some x => cids x | None => [] end.
  Proof. unfold ids, lids, cids. destruct o as [k z [[]|]]; done. Qed.
  Lemma lids_from n n' want k : lock_from n n' want k → NoDup (lids k) ∧ Forall (λ i, n ≤ i < n') (lids k).
  Proof. destruct k as [|i]; cbn. { intros _. split; constructor. } intros [_ ?]. split; [apply NoDup_singleton|]. by constructor. Qed.

  (** one constructor call *)
  Lemma construct_ok c n : (can_make c → ∃ o n', construct c n = Ok (o, n') ∧ n ≤ n' ∧ made_as c o ∧ NoDup (ids o) ∧ Forall (λ i, n ≤ i < n') (ids o)) ∧
    (¬ can_make c → construct c n = Panic).
  Proof.
    assert (HL : ∀ l, ∃ k n', apply_all apply_lopt l Fake n = Ok (k, n') ∧ n ≤ n' ∧ (LSafe ∈ l ↔ ∃ i, k = Mutex i) ∧ NoDup (lids k) ∧ Forall (λ i, n ≤ i < n') (lids k)).
    { intros l. destruct (lopt_ok l n) as (k & n' & E & Hn & Hk). exists k, n'. split; [done|]. split; [done|]. split; [by eapply lock_from_iff | by eapply lids_from]. }
    Local Ltac lockonly HL l := split; [intros _ | cbn; intros H; by destruct H];
      destruct (HL l) as (k & n' & E & Hn & Hk & Hd & Hf); exists (MkMade k None None), n'; cbn [construct]; unfold hamt_New, pq_New, map_New, multimap_New, set_New, multiset_New, bloom_New, bloom_FromData, mbind_;
      rewrite E; split; [done|]; split; [done|]; split; [split; [done|]; split; done|]; rewrite ids_eq; cbn [md_lock md_cont]; rewrite app_nil_r; done.
    destruct c as [l|l|l|l|l|l|l|l|l|l|l|l|l]; try (lockonly HL l).
    - destruct (sopt_ok l n) as (r & n' & E & Hn & Hk & Hz). cbn [construct can_make wants_number]. unfold skip_New, mbind_. rewrite E. rewrite <- Hz.
      destruct (r.1 <? 0)%Z eqn:Ez; [apply Z.ltb_lt in Ez | apply Z.ltb_ge in Ez].
      + split; [intros (m & [= <-] & ?); lia | done].
      + split; [|intros H; destruct H; eauto]. intros _. eexists _, _. split; [reflexivity|]. split; [done|]. split.
        * split; [by eapply lock_from_iff|]. split; [|done]. cbn. by rewrite Hz.
        * rewrite ids_eq. cbn [md_lock md_cont]. rewrite app_nil_r. by eapply lids_from.
    - destruct (kopt_ok l n) as (r & n' & E & Hn & Hk & Hz). split; [intros _ | cbn; intros H; by destruct H]. cbn [construct]. unfold ketama_New, mbind_. rewrite E.
      eexists _, _. split; [reflexivity|]. split; [done|]. split.
      + split; [by eapply lock_from_iff|]. split; [|done]. cbn. by rewrite Hz.
      + rewrite ids_eq. cbn [md_lock md_cont]. rewrite app_nil_r. by eapply lids_from.
    - destruct (copt_ok l n) as (r & n' & E & Hn & Hk & Hc & Hd & Hf). split; [intros _ | cbn; intros H; by destruct H]. cbn [construct]. unfold queue_New, fresh, mbind_. rewrite E.
      eexists _, _. split; [reflexivity|]. split; [lia|]. split; [split; [done|]; split; [done|]; cbn; by rewrite Hc|]. by rewrite ids_eq.
    - destruct (copt_ok l n) as (r & n' & E & Hn & Hk & Hc & Hd & Hf). split; [intros _ | cbn; intros H; by destruct H]. cbn [construct]. unfold stack_New, fresh, mbind_. rewrite E.
      eexists _, _. split; [reflexivity|]. split; [lia|]. split; [split; [done|]; split; [done|]; cbn; by rewrite Hc|]. by rewrite ids_eq.
    - destruct (vopt_ok l n) as (r & n' & E & -> & ->). cbn [construct can_make wants_number]. unfold vector_New, mbind_. rewrite E. cbv beta iota.
      destruct (_ <? 0)%Z eqn:Ez; [apply Z.ltb_lt in Ez | apply Z.ltb_ge in Ez].
      + split; [intros (m & [= <-] & ?); lia | done].
      + split; [|intros H; destruct H; eauto]. intros _. eexists _, _. split; [reflexivity|]. split; [done|]. split; [|split; constructor].
        split; [cbn; naive_solver | done].
  Qed.

  (** C88.  For every history of constructor calls with any lists of options, in any order, with
      repetitions, the same option value passed to several calls: the calls succeed (a Skiplist or Vector
      unless its number is negative), every object is goroutine-safe exactly if asked for, has the last
      number given (else 10 levels, 10 replicas, capacity 0) and the container asked for last (else a
      deque), and no two objects share a mutex, deque or list made by a constructor. *)
  Theorem options_build_as_asked (cs : list (ctor C)) n : Forall can_make cs → ∃ os n', run construct cs n = Ok (os, n') ∧
    Forall2 made_as cs os ∧ NoDup (concat (ids <$> os)).
  Proof.
    intros H. assert (Hg : ∃ os n', run construct cs n = Ok (os, n') ∧ n ≤ n' ∧ Forall2 made_as cs os ∧ NoDup (concat (ids <$> os)) ∧ Forall (λ i, n ≤ i < n') (concat (ids <$> os))).
    { revert n. induction H as [|c cs Hc _ IH]; intros n. { exists [], n. split; [done|]. split; [done|]. split; [constructor|]. split; constructor. }
      destruct (proj1 (construct_ok c n) Hc) as (o & n1 & E & Hn & Hm & Hd & Hf). destruct (IH n1) as (os & n2 & E2 & Hn2 & Hm2 & Hd2 & Hf2).
      exists (o :: os), n2. cbn [run]. rewrite E, E2. split; [done|]. split; [lia|]. split; [by constructor|]. cbn. split.
      - apply NoDup_app. split; [done|]. split; [|done]. intros i Hi Hi'. rewrite Forall_forall in Hf, Hf2. apply Hf in Hi. apply Hf2 in Hi'. lia.
      - apply Forall_app. split; (eapply Forall_impl; [eassumption|]); cbn; lia. }
    destruct Hg as (os & n' & E & _ & Hm & Hd & _). by exists os, n'.
  Qed.
  (** a Skiplist with a negative maximum level or a Vector with a negative capacity: New panics *)
  Theorem negative_option_panics c n : ¬ can_make c → construct c n = Panic.
  Proof. apply construct_ok. Qed.
End props.

(** concrete: one option value used for two queues; they get different mutexes and different lists *)
Example options_nonvacuous : run construct [NQueue [CSafe; CContainer 7%nat; CList]; NQueue [CSafe; CContainer 7; CList]; NSkip [SMaxLevel 3; SSafe; SMaxLevel 5]; NStack [CContainer 7]] 0 =
  Ok ([MkMade (Mutex 1) None (Some (ListAt 2)); MkMade (Mutex 4) None (Some (ListAt 5)); MkMade (Mutex 6) (Some 5%Z) None; MkMade Fake None (Some (User 7%nat))], 8).
Proof. done. Qed.
Example options_hyp : Forall can_make [NQueue [CSafe; CContainer 7%nat; CList]; NSkip [SMaxLevel 3; SSafe; SMaxLevel 5]; NVector [VCapacity (-1); VCapacity 4]].
Proof. repeat constructor; by eexists. Qed.
Print Assumptions options_build_as_asked.
Print Assumptions negative_option_panics.
