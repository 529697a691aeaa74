(** C80: the skip list with any comparison function, and its part of C79. *)
From Verif Require Import Base History ListLib RbModel RbSpec MapSpec MapProofs MapProps ComparatorModel ComparatorProps AnyCmpSpec AnyCmpExt AnyCmpMap AnyCmpRbProps.
From Verif Require Import SkipModel SkipSpec SkipProofs SkipOps SkipProps AnyCmpSkip AnyCmpSkipExt.
Open Scope Z_scope.
Open Scope go_scope.

(** what each operation may return, and the pairs it may leave, in iteration order *)
Section spec.
  Context {K V W : Type} (cmp : K → K → Z).
  Definition skip_allows (o : sk_op K V W) (l : list (K * V)) (r : sk_res K V W) (l' : list (K * V)) : Prop :=
    match o with
    | SInsert _ k v => r = SUnit ∧
        ((∃ L kv R, l = L ++ kv :: R ∧ cmp kv.1 k = 0 ∧ l' = L ++ (kv.1, v) :: R) ∨
         (∃ L R, l = L ++ R ∧ l' = L ++ (k, v) :: R ∧ (∀ x, last L = Some x → cmp x.1 k < 0) ∧ (∀ x, head R = Some x → 0 < cmp x.1 k)))
    | SGet k => l' = l ∧ (r = SVal None ∨ ∃ kv, kv ∈ l ∧ cmp kv.1 k = 0 ∧ r = SVal (Some kv.2))
    | SRemove k => (r = SBool false ∧ l' = l) ∨ (r = SBool true ∧ ∃ L kv R, l = L ++ kv :: R ∧ cmp kv.1 k = 0 ∧ l' = L ++ R)
    | SLen => r = SInt (Z.of_nat (length l)) ∧ l' = l
    | SKeys => r = SKeyList l.*1 ∧ l' = l
    | STraverse vis w => r = SVis (visit vis l w) ∧ l' = l
    end.
  Definition sk_keys (o : sk_op K V W) : list K := match o with SInsert _ k _ | SGet k | SRemove k => [k] | _ => [] end.
End spec.
(** a Traversal meets these pairs in this order *)
Definition skip_shows {K V} (s : skip K V) (l : list (K * V)) : Prop := ∀ U (vis : K → V → U → bool * U) u, sk_Traversal vis u s = Ok (visit vis l u, s).

Section props.
  Context {K V W : Type} (cmp : K → K → Z).
  Implicit Types (l : list (K * V)) (ops : list (sk_op K V W)).
  Definition skholds (max : nat) (s : skip K V) l : Prop := ∃ xs, inv neg max s xs l.
  Lemma skip_any (max : nat) (o : sk_op K V W) s l : sk_op_ok o → skholds max s l → ∃ r s' l', sk_step cmp o s = Ok (r, s') ∧ skip_allows cmp o l r l' ∧ skholds max s' l'.
  Proof using.
    intros Ho [xs H]. destruct o as [w k v|k|k| | |vis w]; cbn [sk_step skip_allows]; unfold mbind_.
    - destruct (insert_skip_any cmp max s xs l w k v H Ho) as (s' & xs' & l' & -> & H' & Hl). eexists _, s', l'. split_and!; [reflexivity|done|done|by exists xs'].
    - destruct (get_any cmp max s xs l k H) as (o & -> & Ho'). eexists _, s, l. split_and!; [reflexivity|done| |by exists xs]. destruct o as [v|]; [|by left]. right. destruct Ho' as (kv & H1 & H2 & ->). by exists kv.
    - destruct (remove_skip_any cmp max s xs l k H) as (b & s' & xs' & l' & -> & H' & Hl). eexists _, s', l'. split_and!; [reflexivity| |by exists xs']. destruct Hl as [[-> ->]|[-> Hl]]; [by left|by right].
    - unfold sk_Len. rewrite (inv_len _ _ _ _ _ H). eexists _, s, l. split_and!; [reflexivity|done|done|by exists xs].
    - unfold sk_Keys. rewrite (sk_Traversal_ok neg _ _ max s xs l H), visit_keys. eexists _, s, l. split_and!; [reflexivity|done|done|by exists xs].
    - rewrite (sk_Traversal_ok neg vis w max s xs l H). eexists _, s, l. split_and!; [reflexivity|done|done|by exists xs].
  Qed.
  Lemma skholds_shows (max : nat) (s : skip K V) l : skholds max s l → skip_shows s l.
  Proof using. intros [xs H] U vis u. apply (sk_Traversal_ok neg vis u max s xs l H). Qed.
  Lemma skip_run (max : nat) ops : ∀ s l, Forall sk_op_ok ops → skholds max s l → ∃ rs s' l', run (sk_step cmp) ops s = Ok (rs, s') ∧ exec (skip_allows cmp) ops l rs l' ∧ skholds max s' l'.
  Proof using.
    induction ops as [|o ops IH]; intros s l Hok H; cbn [run]. { exists [], s, l. split_and!; [done|constructor|done]. }
    apply Forall_cons in Hok as [Ho Hok]. destruct (skip_any max o s l Ho H) as (r & s1 & l1 & -> & Ha & H1). destruct (IH s1 l1 Hok H1) as (rs & s2 & l2 & -> & He & H2).
    exists (r :: rs), s2, l2. split_and!; [done|by econstructor|done].
  Qed.
  Lemma skholds_new max : 1 <= max <= 64 → ∃ s0 : skip K V, sk_New max = Ok s0 ∧ skholds (Z.to_nat max) s0 [].
  Proof using. intros Hm. destruct (new_inv (K := K) (V := V) neg (Z.to_nat max)) as (s0 & E0 & Hinv); [lia|]. rewrite Z2Nat.id in E0 by lia. exists s0. split; [done|by exists []]. Qed.
  (** C80: every history returns *)
  Theorem skiplist_any_comparator max ops : 1 <= max <= 64 → Forall sk_op_ok ops →
    ∃ s0 rs s l, sk_New max = Ok s0 ∧ run (sk_step cmp) ops s0 = Ok (rs, s) ∧ exec (skip_allows cmp) ops [] rs l ∧ skip_shows s l.
  Proof using.
    intros Hm Hok. destruct (skholds_new max Hm) as (s0 & E0 & H0). destruct (skip_run _ ops s0 [] Hok H0) as (rs & s & l & E1 & He & H1).
    exists s0, rs, s, l. split_and!; [done|done|done|by eapply skholds_shows].
  Qed.
  (** ... and compares nothing but keys passed to it *)
  Theorem skiplist_only_given_keys_compared (cmp' : K → K → Z) (P : K → Prop) max ops : (∀ x y, P x → P y → cmp x y = cmp' x y) → 1 <= max <= 64 → Forall sk_op_ok ops → Forall (λ o, Forall P (sk_keys o)) ops →
    ∃ s0, sk_New max = Ok s0 ∧ run (sk_step cmp) ops s0 = run (sk_step cmp') ops s0.
  Proof using.
    intros Hag Hm Hok Hops. destruct (skholds_new max Hm) as (s0 & E0 & H0). exists s0. split; [done|].
    refine (run_ext _ _ (λ s l, skholds (Z.to_nat max) s l ∧ skeysP P l) (λ o, sk_op_ok o ∧ Forall P (sk_keys o)) _ ops s0 [] _ _); [|by apply Forall_and|split; [done|intros kv Hkv; by apply elem_of_nil in Hkv]].
    clear - Hag. intros o s l [Ho HPk] [[xs H] HP]. split.
    - destruct o as [w k v|k|k| | |vis w]; cbn [sk_step sk_keys] in *; try done; apply Forall_cons in HPk as [Hk _].
      + apply bind_ext1. by eapply insert_ext_skip.
      + apply bind_ext1. by eapply get_ext.
      + apply bind_ext1. by eapply remove_ext_skip.
    - intros r s' E1. destruct (skip_any _ o s l Ho (ex_intro _ xs H)) as (r1 & s1 & l1 & E2 & Ha & H1). rewrite E1 in E2. injection E2 as <- <-. exists l1. split; [done|]. intros kv Hkv.
      destruct o as [w k v|k|k| | |vis w]; cbn [skip_allows sk_keys] in Ha, HPk.
      + apply Forall_cons in HPk as [Hk _]. destruct Ha as [_ [(L & kv' & R & -> & _ & ->)|(L & R & -> & -> & _)]]; (apply elem_of_app in Hkv as [Hkv|[->|Hkv]%elem_of_cons]; [apply HP; apply elem_of_app; by left| |apply HP; apply elem_of_app; right]).
        * cbn. apply HP, elem_of_app. right. apply elem_of_list_here.
        * by right.
        * done.
        * done.
      + destruct Ha as [-> _]. by apply HP.
      + destruct Ha as [[_ ->]|(_ & L & kv' & R & -> & _ & ->)]; [by apply HP|]. apply HP. rewrite elem_of_app in Hkv |- *. rewrite elem_of_cons. tauto.
      + destruct Ha as [_ ->]. by apply HP.
      + destruct Ha as [_ ->]. by apply HP.
      + destruct Ha as [_ ->]. by apply HP.
  Qed.
End props.
Print Assumptions skiplist_any_comparator. Print Assumptions skiplist_only_given_keys_compared.

(** float keys ordered by OrderedTypeCmp *)
Section floats.
  Context {V W : Type} (F : format).
  (** without NaN keys the skip list is the finite map it denotes *)
  Theorem float_skiplist_partial (HF : F = float32 ∨ F = float64) max (ops : list (sk_op float V W)) : 1 <= max <= 64 → Forall sk_op_ok ops → Forall (λ o, Forall (is_num F) (sk_keys o)) ops →
    ∃ s0 s rs l, sk_New max = Ok s0 ∧ run (sk_step (dflt F)) ops s0 = Ok (rs, s) ∧ srun (sk_spec (FloatComparator F)) ops [] = Some (rs, l).
  Proof using.
    assert (CmpOK (FloatComparator F)) as HC by (destruct HF as [-> | ->]; apply builtin_comparators_ok). intros Hm Hok Hn.
    destruct (skiplist_only_given_keys_compared (dflt F) (FloatComparator F) (is_num F) max ops (agree_num F) Hm Hok Hn) as (s0 & E0 & E1).
    destruct (skiplist_is_finite_map (FloatComparator F) HC max ops Hm Hok) as (s0' & s & rs & l & E0' & E2 & E3 & _). rewrite E0 in E0'. injection E0' as <-. exists s0, s, rs, l. by rewrite E1.
  Qed.
End floats.
(** C79 for the skip list: 5 is inserted, then a NaN; the NaN goes to the front and stops every search,
    so Get(5) does not find 5 although Len is 2 and Keys lists it *)
Theorem inserted_float_in_skiplist_refuted : ∃ k x : float, isNaN float64 k = false ∧
  ∃ s0 s, sk_New 10 = Ok s0 ∧ run (sk_step (dflt float64)) ([SInsert 600 k 1; SInsert 7 x 2; SLen; SKeys; SGet k; SRemove k; SInsert 8 k 3; SLen] : list (sk_op float Z Z)) s0 =
    Ok ([SUnit; SUnit; SInt 2; SKeyList [x; k]; SVal None; SBool false; SUnit; SInt 3], s).
Proof. exists (f_pos 5), f_nan. split; [vm_compute; reflexivity|]. eexists _, _. split; [vm_compute; reflexivity|vm_compute; reflexivity]. Qed.
Print Assumptions float_skiplist_partial. Print Assumptions inserted_float_in_skiplist_refuted.

(** everything is less than everything: a key is never found, and every insertion adds a pair *)
Example mad_skip : ∃ s0 s, sk_New 4 = Ok s0 ∧ run (sk_step (W := Z) (λ _ _ : Z, -1)) [SInsert 3 1 10; SInsert 9 1 11; SGet 1; SRemove 1; SKeys; SLen] s0 = Ok ([SUnit; SUnit; SVal None; SBool false; SKeyList [1; 1]; SInt 2], s).
Proof. eexists _, _. split; [vm_compute; reflexivity|vm_compute; reflexivity]. Qed.
Example mad_skip_ok : Forall sk_op_ok ([SInsert 3 1 10; SGet 1] : list (sk_op Z Z Z)). Proof. repeat constructor; lia. Qed.
