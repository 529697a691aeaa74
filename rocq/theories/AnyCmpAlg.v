(** Union, Intersect and Diff with any comparison function. *)
From Verif Require Import Base Wp History RbModel RbTree RbRot RbIns RbIns2 RbDel RbNav RbDel2 RbSpec RbFind RbProps RbApi MapModel MapSpec MapProofs SetModel SetSpec SetProofs AnyCmpRb AnyCmpSpec AnyCmpMap AnyCmpSet.
Open Scope Z_scope.
Open Scope go_scope.
#[local] Opaque rb_First rb_Last rb_FindNode rb_FindLowerBoundNode rb_FindUpperBoundNode rb_Find rb_Insert rb_Delete rb_Clear rb_Traversal set_value key value next prev rb_Size it_Key it_Next.

Section alg.
  Context {T : Type} (cmp : T → T → Z).
  Implicit Types (s o n : rb T bool) (t : tree T bool) (l : list T).
  Notation els R := (R.*2.*1).
  Lemma ins_any n ln x : seholds n ln → ∃ n' ln', rb_Insert cmp x set_Empty_const n = Ok (tt, n') ∧ seholds n' ln' ∧ ln' ≡ₚ ln ++ [x].
  Proof using.
    intros (t & H & <-). destruct (s_insert_any cmp n t x H) as (n' & L & R & E1 & E2 & H' & _). exists n', (L ++ x :: R). split_and!; [done|done|]. rewrite E2. rewrite <-Permutation_middle. by rewrite (Permutation_app_comm (L ++ R)).
  Qed.
  Lemma merge_any (ie il ig : bool) s ts o to (PS PO : T → Prop) : rbinv s ts → rbinv o to →
    ∀ f Ls Rs Lo Ro n ln, io ts = Ls ++ Rs → io to = Lo ++ Ro → (length Rs + length Ro < f)%nat → seholds n ln →
    (∀ x y, x ∈ els Rs → y ∈ els Ro → cmp x y = 0 → PS x ∧ PO y) →
    ∃ Ls' Rs' Lo' Ro' n' ln' Se Sl Oe Og, merge_loop cmp ie il ig f (hd Rs) (hd Ro) (s, o, n) = Ok ((hd Rs', hd Ro'), (s, o, n')) ∧
      io ts = Ls' ++ Rs' ∧ io to = Lo' ++ Ro' ∧ (length Rs' <= length Rs)%nat ∧ (length Ro' <= length Ro)%nat ∧
      seholds n' ln' ∧ els Rs ≡ₚ Se ++ Sl ++ els Rs' ∧ els Ro ≡ₚ Oe ++ Og ++ els Ro' ∧ Forall PS Se ∧ Forall PO Oe ∧
      ln' ≡ₚ ln ++ (if ie then Se else []) ++ (if il then Sl else []) ++ (if ig then Og else []) ∧ (Rs' = [] ∨ Ro' = []).
  Proof using.
    intros Hs Ho f. pose proof (triv_tinv s ts Hs) as Hts. pose proof (triv_tinv o to Ho) as Hto.
    induction f as [|f IH]; intros Ls Rs Lo Ro n ln Es Eo Hf Hn HP; [lia|]. cbn [merge_loop].
    destruct Rs as [|[a [xa va]] Rs].
    { exists Ls, [], Lo, Ro, n, ln, [], [], [], []. split_and!; try done; [|by left]. destruct ie, il, ig; by rewrite !app_nil_r. }
    destruct Ro as [|[b [xb vb]] Ro].
    { exists Ls, ((a, (xa, va)) :: Rs), Lo, [], n, ln, [], [], [], []. split_and!; try done; [|by right]. destruct ie, il, ig; by rewrite !app_nil_r. }
    assert (hd ((a, (xa, va)) :: Rs) = Some a) as E0 by done. rewrite E0. clear E0. assert (hd ((b, (xb, vb)) :: Ro) = Some b) as E0 by done. rewrite E0. clear E0. change (it_IsValid (Some a) && it_IsValid (Some b)) with true. cbv iota.
    assert (on_s (it_Key (Some a)) (s, o, n) = Ok (xa, (s, o, n))) as Ka. { unfold on_s. cbn [fst snd]. by rewrite (it_key_hd triv s ts Ls a (xa, va) Rs Hts Es). }
    assert (on_o (it_Key (Some b)) (s, o, n) = Ok (xb, (s, o, n))) as Kb. { unfold on_o. cbn [fst snd]. by rewrite (it_key_hd triv o to Lo b (xb, vb) Ro Hto Eo). }
    assert (∀ n, on_s (it_Next (Some a)) (s, o, n) = Ok (hd Rs, (s, o, n))) as Na. { intros n1. unfold on_s. cbn [fst snd]. by rewrite (it_next_hd triv s ts Ls a (xa, va) Rs Hts Es). }
    assert (∀ n, on_o (it_Next (Some b)) (s, o, n) = Ok (hd Ro, (s, o, n))) as Nb. { intros n1. unfold on_o. cbn [fst snd]. by rewrite (it_next_hd triv o to Lo b (xb, vb) Ro Hto Eo). }
    unfold mbind_ at 1. rewrite Ka. unfold mbind_ at 1. rewrite Kb. cbv zeta.
    assert (io ts = (Ls ++ [(a, (xa, va))]) ++ Rs) as Es' by by rewrite <-app_assoc. assert (io to = (Lo ++ [(b, (xb, vb))]) ++ Ro) as Eo' by by rewrite <-app_assoc.
    rewrite !fmap_cons in HP. cbn [fst snd] in HP. cbn [length] in Hf.
    assert (∀ (c : bool) (k : M three T) x, k (s, o, n) = Ok (x, (s, o, n)) → ∃ n' ln', (if c then let! y := k in on_n (rb_Insert cmp y set_Empty_const) else mret_ tt) (s, o, n) = Ok (tt, (s, o, n')) ∧ seholds n' ln' ∧ ln' ≡ₚ ln ++ (if c then [x] else [])) as Hins.
    { intros [] k x Hk. 2:{ exists n, ln. rewrite app_nil_r. done. } destruct (ins_any n ln x Hn) as (n' & ln' & E1 & H1 & P1). exists n', ln'. split_and!; [|done|done]. unfold mbind_. rewrite Hk. unfold on_n. cbn [fst snd]. by rewrite E1. }
    destruct (Z.eqb_spec (cmp xa xb) 0) as [Hc|Hc]; [|destruct (Z.ltb_spec (cmp xa xb) 0) as [Hlt|Hge]].
    - destruct (Hins ie _ _ Ka) as (n1 & ln1 & E1 & H1 & P1). unfold mbind_ at 1. rewrite E1. unfold mbind_ at 1. rewrite Na. unfold mbind_ at 1. rewrite Nb.
      destruct (IH _ Rs _ Ro n1 ln1 Es' Eo' ltac:(lia) H1) as (Ls' & Rs' & Lo' & Ro' & n' & ln' & Se & Sl & Oe & Og & E2 & F1 & F2 & F3 & F4 & F5 & F6 & F7 & F8 & F9 & F10 & F11). { intros x y Hx Hy. apply HP; by right. }
      destruct (HP xa xb ltac:(by left) ltac:(by left) Hc) as [Q1 Q2].
      exists Ls', Rs', Lo', Ro', n', ln', (xa :: Se), Sl, (xb :: Oe), Og. split_and!; try done; [cbn [length]; lia|cbn [length]; lia|rewrite !fmap_cons; cbn [fst snd app]; by rewrite F6|rewrite !fmap_cons; cbn [fst snd app]; by rewrite F7|by constructor|by constructor|].
      rewrite F10, P1. destruct ie; [|by rewrite app_nil_r]. rewrite <-app_assoc. done.
    - destruct (Hins il _ _ Ka) as (n1 & ln1 & E1 & H1 & P1). unfold mbind_ at 1. rewrite E1. unfold mbind_ at 1. rewrite Na.
      destruct (IH _ Rs _ ((b, (xb, vb)) :: Ro) n1 ln1 Es' Eo ltac:(cbn [length]; lia) H1) as (Ls' & Rs' & Lo' & Ro' & n' & ln' & Se & Sl & Oe & Og & E2 & F1 & F2 & F3 & F4 & F5 & F6 & F7 & F8 & F9 & F10 & F11). { intros x y Hx Hy. apply HP; [by right|done]. }
      exists Ls', Rs', Lo', Ro', n', ln', Se, (xa :: Sl), Oe, Og. split_and!; try done; [cbn [length]; lia|rewrite !fmap_cons; cbn [fst snd app]; rewrite F6; by rewrite Permutation_middle|].
      rewrite F10, P1. destruct il; [|by rewrite app_nil_r]. rewrite <-!app_assoc. f_equiv. cbn [app]. by rewrite Permutation_middle.
    - destruct (Hins ig _ _ Kb) as (n1 & ln1 & E1 & H1 & P1). unfold mbind_ at 1. rewrite E1. unfold mbind_ at 1. rewrite Nb.
      destruct (IH _ ((a, (xa, va)) :: Rs) _ Ro n1 ln1 Es Eo' ltac:(cbn [length]; lia) H1) as (Ls' & Rs' & Lo' & Ro' & n' & ln' & Se & Sl & Oe & Og & E2 & F1 & F2 & F3 & F4 & F5 & F6 & F7 & F8 & F9 & F10 & F11). { intros x y Hx Hy. apply HP; [done|by right]. }
      exists Ls', Rs', Lo', Ro', n', ln', Se, Sl, Oe, (xb :: Og). split_and!; try done; [cbn [length]; lia|rewrite !fmap_cons; cbn [fst snd app]; rewrite F7; by rewrite Permutation_middle|].
      rewrite F10, P1. destruct ig; [|by rewrite app_nil_r]. rewrite <-!app_assoc. f_equiv. cbn [app]. rewrite !Permutation_middle. done.
  Qed.
  Lemma rest_s_any s ts o : rbinv s ts → ∀ f L R n ln, io ts = L ++ R → (length R < f)%nat → seholds n ln →
    ∃ n' ln', rest_s cmp f (hd R) (s, o, n) = Ok (tt, (s, o, n')) ∧ seholds n' ln' ∧ ln' ≡ₚ ln ++ els R.
  Proof using.
    intros Hs. pose proof (triv_tinv s ts Hs) as Hts. induction f as [|f IH]; intros L R n ln Es Hf Hn; [lia|]. destruct R as [|[a [xa va]] R]. { exists n, ln. by rewrite app_nil_r. }
    assert (hd ((a, (xa, va)) :: R) = Some a) as E0 by done. rewrite E0. clear E0. cbn [rest_s]. change (it_IsValid (Some a)) with true. cbv iota. unfold mbind_ at 1, on_s at 1. cbn [fst snd]. rewrite (it_key_hd triv s ts L a (xa, va) R Hts Es). cbn [fst].
    destruct (ins_any n ln xa Hn) as (n1 & ln1 & E1 & H1 & P1). unfold mbind_ at 1, on_n at 1. cbn [fst snd]. rewrite E1. unfold mbind_ at 1, on_s at 1. cbn [fst snd]. rewrite (it_next_hd triv s ts L a (xa, va) R Hts Es).
    destruct (IH (L ++ [(a, (xa, va))]) R n1 ln1) as (n' & ln' & E2 & H2 & P2); [by rewrite <-app_assoc|cbn in Hf; lia|done|]. exists n', ln'. split_and!; [done|done|]. rewrite P2, P1, <-app_assoc. done.
  Qed.
  Lemma rest_o_any s o to : rbinv o to → ∀ f L R n ln, io to = L ++ R → (length R < f)%nat → seholds n ln →
    ∃ n' ln', rest_o cmp f (hd R) (s, o, n) = Ok (tt, (s, o, n')) ∧ seholds n' ln' ∧ ln' ≡ₚ ln ++ els R.
  Proof using.
    intros Hs. pose proof (triv_tinv o to Hs) as Hts. induction f as [|f IH]; intros L R n ln Es Hf Hn; [lia|]. destruct R as [|[a [xa va]] R]. { exists n, ln. by rewrite app_nil_r. }
    assert (hd ((a, (xa, va)) :: R) = Some a) as E0 by done. rewrite E0. clear E0. cbn [rest_o]. change (it_IsValid (Some a)) with true. cbv iota. unfold mbind_ at 1, on_o at 1. cbn [fst snd]. rewrite (it_key_hd triv o to L a (xa, va) R Hts Es). cbn [fst].
    destruct (ins_any n ln xa Hn) as (n1 & ln1 & E1 & H1 & P1). unfold mbind_ at 1, on_n at 1. cbn [fst snd]. rewrite E1. unfold mbind_ at 1, on_o at 1. cbn [fst snd]. rewrite (it_next_hd triv o to L a (xa, va) R Hts Es).
    destruct (IH (L ++ [(a, (xa, va))]) R n1 ln1) as (n' & ln' & E2 & H2 & P2); [by rewrite <-app_assoc|cbn in Hf; lia|done|]. exists n', ln'. split_and!; [done|done|]. rewrite P2, P1, <-app_assoc. done.
  Qed.
  Lemma combine_any ie il ig s ts o to : rbinv s ts → rbinv o to → let PS := λ x, ∃ y, y ∈ els (io to) ∧ cmp x y = 0 in let PO := λ y, ∃ x, x ∈ els (io ts) ∧ cmp x y = 0 in
    ∃ f Ls Rs Lo Ro n ln Se Sl Oe Og, (let! i := on_s rb_First in let! j := on_o rb_First in let! f := fuel2 in let! ij := merge_loop cmp ie il ig f i j in mret_ (f, ij)) (s, o, rb_new) = Ok ((f, (hd Rs, hd Ro)), (s, o, n)) ∧
      (length (io ts) < f)%nat ∧ (length (io to) < f)%nat ∧ io ts = Ls ++ Rs ∧ io to = Lo ++ Ro ∧ seholds n ln ∧ els (io ts) ≡ₚ Se ++ Sl ++ els Rs ∧ els (io to) ≡ₚ Oe ++ Og ++ els Ro ∧ Forall PS Se ∧ Forall PO Oe ∧
      ln ≡ₚ (if ie then Se else []) ++ (if il then Sl else []) ++ (if ig then Og else []) ∧ (Rs = [] ∨ Ro = []) ∧ (length Rs < f)%nat ∧ (length Ro < f)%nat.
  Proof using.
    intros Hs Ho PS PO. pose proof (count_ok _ _ (ri_rep _ _ Hs)) as C1. pose proof (count_ok _ _ (ri_rep _ _ Ho)) as C2.
    unfold mbind_ at 1, on_s at 1. cbn [fst snd]. rewrite (hd_first _ _ (ri_rep _ _ Hs)). unfold mbind_ at 1, on_o at 1. cbn [fst snd]. rewrite (hd_first _ _ (ri_rep _ _ Ho)).
    unfold mbind_ at 1, fuel2, mbind_ at 1, on_s at 1. cbn [fst snd]. unfold fuel at 1. unfold mbind_ at 1, on_o at 1. cbn [fst snd]. unfold fuel at 1, mret_ at 1.
    destruct (merge_any ie il ig s ts o to PS PO Hs Ho (S (rb_next s) + S (rb_next o)) [] (io ts) [] (io to) rb_new []) as (Ls & Rs & Lo & Ro & n & ln & Se & Sl & Oe & Og & E2 & F1 & F2 & F3 & F4 & F5 & F6 & F7 & F8 & F9 & F10 & F11); [done|done|lia|apply seholds_new|intros x y Hx Hy Hc; split; [by exists y|by exists x]|].
    exists (S (rb_next s) + S (rb_next o))%nat, Ls, Rs, Lo, Ro, n, ln, Se, Sl, Oe, Og. unfold mbind_. rewrite E2. split_and!; try done; lia.
  Qed.
  Lemma union_any s ls o lo : seholds s ls → seholds o lo → ∃ n l kept dropped, set_Union cmp s o = Ok (tt, (s, o, n)) ∧ seholds n l ∧ l ≡ₚ ls ++ kept ∧ lo ≡ₚ kept ++ dropped ∧ Forall (λ y, ∃ x, x ∈ ls ∧ cmp x y = 0) dropped.
  Proof using.
    intros (ts & Hs & <-) (to & Ho & <-). destruct (combine_any true true true s ts o to Hs Ho) as (f & Ls & Rs & Lo & Ro & n & ln & Se & Sl & Oe & Og & E2 & Q1 & Q2 & F1 & F2 & F5 & F6 & F7 & F8 & F9 & F10 & F11 & Q3 & Q4).
    destruct (rest_s_any s ts o Hs f Ls Rs n ln F1 Q3 F5) as (n1 & ln1 & E3 & H1 & P1). destruct (rest_o_any s o to Ho f Lo Ro n1 ln1 F2 Q4 H1) as (n2 & ln2 & E4 & H2 & P2).
    exists n2, ln2, (Og ++ els Ro), Oe. split_and!; [|done| | |done].
    - unfold set_Union, set_union_code. revert E2. unfold mbind_, mret_. destruct (on_s rb_First (s, o, rb_new)) as [[i w1]| |]; [|done..]. destruct (on_o rb_First w1) as [[j w2]| |]; [|done..]. destruct (fuel2 w2) as [[f' w3]| |]; [|done..].
      destruct (merge_loop cmp true true true f' i j w3) as [[ij w4]| |]; [|done..]. intros [= -> -> ->]. cbn [fst snd]. by rewrite E3.
    - rewrite P2, P1, F10, F6. rewrite <-!app_assoc. f_equiv. f_equiv. rewrite app_assoc, (Permutation_app_comm Og), <-app_assoc. done.
    - rewrite F7. apply Permutation_app_comm.
  Qed.
  Lemma intersect_any s ls o lo : seholds s ls → seholds o lo → ∃ n l dropped, set_Intersect cmp s o = Ok (tt, (s, o, n)) ∧ seholds n l ∧ ls ≡ₚ l ++ dropped ∧ Forall (λ x, ∃ y, y ∈ lo ∧ cmp x y = 0) l.
  Proof using.
    intros (ts & Hs & <-) (to & Ho & <-). destruct (combine_any true false false s ts o to Hs Ho) as (f & Ls & Rs & Lo & Ro & n & ln & Se & Sl & Oe & Og & E2 & Q1 & Q2 & F1 & F2 & F5 & F6 & F7 & F8 & F9 & F10 & F11 & Q3 & Q4).
    rewrite !app_nil_r in F10. exists n, ln, (Sl ++ els Rs). split_and!; [|done|by rewrite F10, F6|by rewrite F10].
    unfold set_Intersect, set_intersect_code. revert E2. unfold mbind_, mret_. destruct (on_s rb_First (s, o, rb_new)) as [[i w1]| |]; [|done..]. destruct (on_o rb_First w1) as [[j w2]| |]; [|done..]. destruct (fuel2 w2) as [[f' w3]| |]; [|done..].
    destruct (merge_loop cmp true false false f' i j w3) as [[ij w4]| |]; [|done..]. by intros [= -> -> ->].
  Qed.
  Lemma diff_any s ls o lo : seholds s ls → seholds o lo → ∃ n l dropped, set_Diff cmp s o = Ok (tt, (s, o, n)) ∧ seholds n l ∧ ls ≡ₚ l ++ dropped ∧ Forall (λ x, ∃ y, y ∈ lo ∧ cmp x y = 0) dropped.
  Proof using.
    intros (ts & Hs & <-) (to & Ho & <-). destruct (combine_any false true false s ts o to Hs Ho) as (f & Ls & Rs & Lo & Ro & n & ln & Se & Sl & Oe & Og & E2 & Q1 & Q2 & F1 & F2 & F5 & F6 & F7 & F8 & F9 & F10 & F11 & Q3 & Q4).
    destruct (rest_s_any s ts o Hs f Ls Rs n ln F1 Q3 F5) as (n1 & ln1 & E3 & H1 & P1). cbn [app] in F10. rewrite app_nil_r in F10.
    exists n1, ln1, Se. split_and!; [|done| |done].
    - unfold set_Diff, set_diff_code. revert E2. unfold mbind_, mret_. destruct (on_s rb_First (s, o, rb_new)) as [[i w1]| |]; [|done..]. destruct (on_o rb_First w1) as [[j w2]| |]; [|done..]. destruct (fuel2 w2) as [[f' w3]| |]; [|done..].
      destruct (merge_loop cmp false true false f' i j w3) as [[ij w4]| |]; [|done..]. intros [= -> -> ->]. cbn [fst snd]. by rewrite E3.
    - rewrite P1, F10, F6. apply Permutation_app_comm.
  Qed.
End alg.
