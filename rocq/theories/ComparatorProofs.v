From Verif Require Import Base ComparatorModel ComparatorSpec.

Ltac ints :=
  constructor; intros;
  repeat match goal with |- context [?a =? ?b] => destruct (Z.eqb_spec a b) end;
  repeat match goal with |- context [?a <? ?b] => destruct (Z.ltb_spec a b) end;
  try lia; naive_solver lia.

(** Equality of keys that is not Leibniz equality is given by a map into [Z]. *)
Lemma three_way_CmpOK {T} (eq lt : T → T → Prop) cmp :
  three_way eq lt cmp → (∀ a b c, eq a b → lt b c → lt a c) → (∀ a b c, lt a b → eq b c → lt a c) →
  (∀ a b c, eq a b → eq b c → eq a c) → (∀ a b, eq a b → eq b a) → CmpOK cmp.
Proof.
  intros [R E L G T'] H1 H2 H3 H4. split.
  - intros a b. destruct (R a b) as [X|[X|X]].
    + assert (cmp b a = 1) as -> by (apply G, L; done). by rewrite X.
    + assert (cmp b a = 0) as -> by (apply E, H4, E; done). by rewrite X.
    + assert (cmp b a = -1) as -> by (apply L, G; done). by rewrite X.
  - intros a b c X Y.
    assert (lt a b ∨ eq a b) as [X'|X'].
    { destruct (R a b) as [Z|[Z|Z]]; [left; by apply L|right; by apply E|lia]. }
    all: assert (lt b c ∨ eq b c) as [Y'|Y'];
      [destruct (R b c) as [Z|[Z|Z]]; [left; by apply L|right; by apply E|lia]| |].
    all: first [assert (lt a c) as W by eauto; apply L in W; lia
               |assert (eq a c) as W by eauto; apply E in W; lia].
Qed.

Lemma str_eqb_spec a b : str_eqb a b = true ↔ a = b.
Proof.
  revert b. induction a as [|x a IH]; intros [|y b]; simpl; try done.
  rewrite andb_true_iff, Z.eqb_eq, IH. naive_solver.
Qed.
Lemma str_ltb_spec a b : str_ltb a b = true ↔ str_lt a b.
Proof.
  revert b. induction a as [|x a IH]; intros [|y b]; simpl.
  - split; [done|]. intros (p & [(y & r & E1 & E)|(x & y & r1 & r2 & E & _)]); destruct p; simplify_eq/=.
  - split; [|done]. intros _. exists []. left. eauto.
  - split; [done|]. intros (p & [(z & r & _ & E)|(z & w & r1 & r2 & _ & E & _)]); destruct p; simplify_eq/=.
  - destruct (Z.ltb_spec x y); [|destruct (Z.ltb_spec y x)].
    + split; [|done]. intros _. exists []. right. exists x, y, a, b. done.
    + split; [done|]. intros (p & [(z & r & E1 & E2)|(z & w & r1 & r2 & E1 & E2 & E3)]); destruct p; simplify_eq/=; lia.
    + assert (x = y) as -> by lia. rewrite IH. split.
      * intros (p & [(z & r & E1 & E2)|(z & w & r1 & r2 & E1 & E2 & E3)]); exists (y :: p); simplify_eq/=.
        -- left. eauto.
        -- right. eauto 10.
      * intros (p & [(z & r & E1 & E2)|(z & w & r1 & r2 & E1 & E2 & E3)]); destruct p as [|q p]; simplify_eq/=; try lia.
        -- exists p. left. eauto.
        -- exists p. right. eauto 10.
Qed.
Lemma str_ltb_trans a b c : str_ltb a b = true → str_ltb b c = true → str_ltb a c = true.
Proof.
  revert b c. induction a as [|x a IH]; intros [|y b] [|z c]; simpl; try done.
  destruct (Z.ltb_spec x y), (Z.ltb_spec y x), (Z.ltb_spec y z), (Z.ltb_spec z y), (Z.ltb_spec x z), (Z.ltb_spec z x);
    try lia; try done. apply IH.
Qed.
Lemma str_tri a b : str_eqb a b = false → str_ltb a b = negb (str_ltb b a).
Proof.
  revert b. induction a as [|x a IH]; intros [|y b]; simpl; try done.
  destruct (Z.eqb_spec x y); simpl.
  - subst. rewrite Z.ltb_irrefl. apply IH.
  - intros _. destruct (Z.ltb_spec x y), (Z.ltb_spec y x); try lia; done.
Qed.
Lemma str_eqb_comm a b : str_eqb a b = str_eqb b a.
Proof. revert b. induction a as [|x a IH]; intros [|y b]; simpl; try done. by rewrite IH, Z.eqb_sym. Qed.
Lemma str_ltb_irrefl a : str_ltb a a = false.
Proof. induction a; simpl; [done|]. by rewrite Z.ltb_irrefl. Qed.

Lemma string_three_way : three_way eq str_lt StringComparator.
Proof.
  unfold StringComparator. constructor; intros.
  - destruct (str_eqb a b), (str_ltb a b); auto.
  - rewrite <-str_eqb_spec. destruct (str_eqb a b), (str_ltb a b); naive_solver.
  - rewrite <-str_ltb_spec. destruct (str_eqb a b) eqn:E; [|destruct (str_ltb a b); naive_solver].
    apply str_eqb_spec in E as ->. rewrite str_ltb_irrefl. done.
  - rewrite <-str_ltb_spec. destruct (str_eqb a b) eqn:E.
    + apply str_eqb_spec in E as ->. rewrite str_ltb_irrefl. done.
    + rewrite (str_tri _ _ E). destruct (str_ltb b a); naive_solver.
  - rewrite <-str_ltb_spec in *. eauto using str_ltb_trans.
Qed.

Lemma bool_three_way : three_way eq (fun a b => a = false ∧ b = true) BoolComparator.
Proof. constructor; intros; repeat match goal with b : bool |- _ => destruct b end; cbn; naive_solver. Qed.

Lemma ordered_int_three_way : three_way eq Z.lt (OrderedTypeCmp Z.eqb Z.ltb).
Proof. unfold OrderedTypeCmp. ints. Qed.
Lemma ordered_str_three_way : three_way eq str_lt (OrderedTypeCmp str_eqb str_ltb).
Proof. apply string_three_way. Qed.

(** Floats *)
Lemma float_three_way F : three_way (f_eq F) (f_lt F) (FloatComparator F).
Proof.
  unfold FloatComparator, f_eq, f_lt, f_eqb, f_ltb. constructor; intros.
  all: repeat match goal with
       | |- context [isNaN ?G ?a] => destruct (isNaN G a) eqn:?
       end; simpl in *.
  all: repeat match goal with |- context [?a =? ?b] => destruct (Z.eqb_spec a b) end; simpl.
  all: repeat match goal with |- context [?a <? ?b] => destruct (Z.ltb_spec a b) end; simpl.
  all: try lia; try naive_solver lia.
Qed.
Lemma float_cmp_ok F : CmpOK (FloatComparator F).
Proof.
  apply three_way_CmpOK with (f_eq F) (f_lt F); [apply float_three_way|..];
    unfold f_eq, f_lt; intros; try naive_solver lia.
Qed.

(** The order on bit patterns is the order of the numbers: the scaled value is strictly
    monotone in (exponent, mantissa) and infinities exceed every finite value. *)
Lemma f_mag_mono F a b : 0 < ew F → 0 < mw F → f_wf F a → f_wf F b →
  (f_exp a < f_exp b ∨ (f_exp a = f_exp b ∧ f_man a < f_man b)) → f_mag F a < f_mag F b.
Proof.
  intros Hew Hmw [Ha1 Ha2] [Hb1 Hb2] H. unfold f_mag.
  destruct (Z.eqb_spec (f_exp a) 0), (Z.eqb_spec (f_exp b) 0).
  - lia.
  - assert (1 <= 2 ^ (f_exp b - 1)) by (pose proof (Z.pow_pos_nonneg 2 (f_exp b - 1)); lia).
    nia.
  - lia.
  - destruct H as [H|[H1 H2]].
    + assert (2 ^ (f_exp b - 1) = 2 ^ (f_exp b - 1 - (f_exp a - 1)) * 2 ^ (f_exp a - 1)) as ->.
      { rewrite <-Z.pow_add_r by lia. f_equal. lia. }
      assert (2 <= 2 ^ (f_exp b - 1 - (f_exp a - 1))).
      { change 2 with (2 ^ 1) at 1. apply Z.pow_le_mono_r; lia. }
      pose proof (Z.pow_pos_nonneg 2 (f_exp a - 1)). nia.
    + rewrite H1. pose proof (Z.pow_pos_nonneg 2 (f_exp b - 1)). nia.
Qed.

Lemma ordered_float_nonan F a b c :
  isNaN F a = false → isNaN F b = false → isNaN F c = false →
  let cmp := OrderedTypeCmp (f_eqb F) (f_ltb F) in
  (cmp a b = 0 ↔ f_val F a = f_val F b) ∧ (cmp a b = -1 ↔ f_val F a < f_val F b) ∧
  cmp b a = - cmp a b ∧ (cmp a b <= 0 → cmp b c <= 0 → cmp a c <= 0).
Proof.
  unfold OrderedTypeCmp, f_eqb, f_ltb. intros -> -> ->. simpl.
  repeat match goal with |- context [?a =? ?b] => destruct (Z.eqb_spec a b) end; simpl;
  repeat match goal with |- context [?a <? ?b] => destruct (Z.ltb_spec a b) end; simpl;
  repeat split; intros; try done; lia.
Qed.

(** Complex *)
Lemma complex128_ok a b : c_nonan float64 a → c_nonan float64 b →
  (Complex128Comparator a b = 0 ↔ c_eq float64 a b) ∧
  (Complex128Comparator a b = -1 ↔ c_lt float64 a b) ∧
  (Complex128Comparator a b = 1 ↔ c_lt float64 b a).
Proof.
  unfold Complex128Comparator, c_eqb, c_eq, c_lt, f_eqb, f_ltb. intros [-> ->] [-> ->]. cbn [negb andb].
  generalize (f_val float64 (re a)), (f_val float64 (re b)), (f_val float64 (im a)), (f_val float64 (im b)).
  clear. intros x y z w.
  destruct (Z.eqb_spec x y), (Z.eqb_spec z w), (Z.ltb_spec x y), (Z.ltb_spec z w); cbn [andb]; lia.
Qed.

Lemma reverse_ok {T} (cmp : T → T → Z) :
  CmpOK cmp → (∀ a b, - 2 ^ 63 < cmp a b < 2 ^ 63) →
  CmpOK (Reverse cmp) ∧ (∀ a b, Z.sgn (Reverse cmp a b) = Z.sgn (cmp b a)) ∧
  (∀ a b, Reverse (Reverse cmp) a b = cmp a b).
Proof.
  intros OK R. unfold Reverse, neg64.
  assert (∀ a b, (if cmp a b =? - 2 ^ 63 then cmp a b else - cmp a b) = - cmp a b) as E.
  { intros a b. specialize (R a b). destruct (Z.eqb_spec (cmp a b) (- 2^63)); lia. }
  split_and!.
  - split; intros *; rewrite !E.
    + pose proof (cmp_flip _ OK a b). lia.
    + intros H1 H2. pose proof (cmp_flip _ OK a b). pose proof (cmp_flip _ OK b c). pose proof (cmp_flip _ OK a c).
      pose proof (cmp_le_trans _ OK c b a ltac:(lia) ltac:(lia)). lia.
  - intros a b. rewrite E. pose proof (cmp_flip _ OK a b). lia.
  - intros a b. rewrite !E. specialize (R a b). destruct (Z.eqb_spec (- cmp a b) (- 2^63)); lia.
Qed.

Lemma int_comparators_lemma :
  Forall (three_way (T:=Z) eq Z.lt)
    [IntComparator; UintComparator; Int8Comparator; Uint8Comparator; Int16Comparator; Uint16Comparator;
     Int32Comparator; Uint32Comparator; Int64Comparator; Uint64Comparator; UintptrComparator;
     OrderedTypeCmp Z.eqb Z.ltb].
Proof.
  repeat (apply Forall_cons; split); try apply Forall_nil; try done.
  all: unfold IntComparator, UintComparator, Int8Comparator, Uint8Comparator, Int16Comparator, Uint16Comparator,
     Int32Comparator, Uint32Comparator, Int64Comparator, Uint64Comparator, UintptrComparator, OrderedTypeCmp; ints.
Qed.

Lemma int_cmp_ok : CmpOK IntComparator.
Proof.
  eapply three_way_CmpOK with eq Z.lt; try (intros; lia).
  pose proof int_comparators_lemma as H. by inversion H.
Qed.
Lemma string_cmp_ok : CmpOK StringComparator.
Proof. apply three_way_CmpOK with eq str_lt; [apply string_three_way|intros; by subst..]. Qed.
Lemma bool_cmp_ok : CmpOK BoolComparator.
Proof. eapply three_way_CmpOK; [apply bool_three_way|intros; by subst..]. Qed.

Lemma builtin_ok_lemma :
  CmpOK IntComparator ∧ CmpOK Uint64Comparator ∧ CmpOK StringComparator ∧ CmpOK BoolComparator ∧
  CmpOK Float32Comparator ∧ CmpOK Float64Comparator.
Proof.
  split_and!; [apply int_cmp_ok|apply int_cmp_ok|apply string_cmp_ok|apply bool_cmp_ok|apply float_cmp_ok|apply float_cmp_ok].
Qed.

Lemma ordered_float_bad :
  ∃ a b, f_wf float64 a ∧ f_wf float64 b ∧
    let cmp := OrderedTypeCmp (f_eqb float64) (f_ltb float64) in
    cmp a a ≠ 0 ∧ cmp a b > 0 ∧ cmp b a > 0.
Proof.
  exists (MkFloat false 2047 1), (MkFloat false 0 0). unfold f_wf, float64; simpl.
  repeat split; try lia; vm_compute; done.
Qed.
Lemma c_lt_trans F a b c : c_lt F a b → c_lt F b c → c_lt F a c.
Proof. unfold c_lt. lia. Qed.
Lemma complex64_bad :
  ∃ a b, c_nonan float32 a ∧ c_nonan float32 b ∧ c_lt float32 a b ∧
    Complex64Comparator a b = 1 ∧ Complex64Comparator b a = 1.
Proof.
  exists (MkComplex (MkFloat false 0 0) (MkFloat false 0 0)), (MkComplex (MkFloat false 127 0) (MkFloat false 0 0)).
  split_and!; try (vm_compute; done). left. vm_compute. done.
Qed.
Lemma reverse_applies_lemma : CmpOK IntComparator ∧ (∀ a b, - 2 ^ 63 < IntComparator a b < 2 ^ 63) ∧
  Reverse IntComparator 3 5 = 1.
Proof.
  split_and!; [apply int_cmp_ok| |reflexivity]. intros a b. unfold IntComparator.
  destruct (a =? b), (a <? b); lia.
Qed.
