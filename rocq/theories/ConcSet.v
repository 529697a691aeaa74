(** Property C58: Union, Intersect and Diff of goroutine-safe sets. *)
From Coq Require Import String.
From Verif Require Import Base History RbModel SetModel SetSpec SetProofs SetProps RbProps ConcModel ConcSpec ConcProofs ConcProps ConcTables ConcRo ConcInst ConcPlay ConcSetModel.
Open Scope Z_scope.
Open Scope go_scope.

(* ---------- the programs, run alone, are the methods of SetModel ---------- *)
Section alone.
  Context {T : Type} (cmp : T → T → Z) (fail : prog (two_sets T) (option (two_res T))).
  Lemma merge_unfold e l g f i j w : merge_loop cmp e l g (S f) i j w =
    match merge_round cmp e l g i j w with Ok (Some ij, w') => merge_loop cmp e l g f ij.1 ij.2 w' | Ok (None, w') => Ok ((i, j), w') | Panic => Panic | Fuel => Fuel end.
  Proof.
    cbn [merge_loop]. unfold merge_round. destruct (it_IsValid i && it_IsValid j); [|done]. unfold mbind_.
    destruct (on_s (it_Key i) w) as [[a w1]| |]; [|done..]. destruct (on_o (it_Key j) w1) as [[b w2]| |]; [|done..].
    destruct (cmp a b =? 0); [|destruct (cmp a b <? 0)].
    - destruct e; unfold mret_.
      + destruct (on_s (it_Key i) w2) as [[a' w3]| |]; [|done..]. destruct (on_n _ w3) as [[u w4]| |]; [|done..]. destruct (on_s (it_Next i) w4) as [[i' w5]| |]; [|done..]. by destruct (on_o (it_Next j) w5) as [[j' w6]| |].
      + destruct (on_s (it_Next i) w2) as [[i' w5]| |]; [|done..]. by destruct (on_o (it_Next j) w5) as [[j' w6]| |].
    - destruct l; unfold mret_.
      + destruct (on_s (it_Key i) w2) as [[a' w3]| |]; [|done..]. destruct (on_n _ w3) as [[u w4]| |]; [|done..]. by destruct (on_s (it_Next i) w4) as [[i' w5]| |].
      + by destruct (on_s (it_Next i) w2) as [[i' w5]| |].
    - destruct g; unfold mret_.
      + destruct (on_o (it_Key j) w2) as [[a' w3]| |]; [|done..]. destruct (on_n _ w3) as [[u w4]| |]; [|done..]. by destruct (on_o (it_Next j) w4) as [[i' w5]| |].
      + by destruct (on_o (it_Next j) w2) as [[i' w5]| |].
  Qed.
  Lemma rest_s_unfold f i w : rest_s cmp (S f) i w = match rest_s_round cmp i w with Ok (Some i', w') => rest_s cmp f i' w' | Ok (None, w') => Ok (tt, w') | Panic => Panic | Fuel => Fuel end.
  Proof.
    cbn [rest_s]. unfold rest_s_round. destruct (it_IsValid i); [|done]. unfold mbind_. destruct (on_s (it_Key i) w) as [[a w1]| |]; [|done..].
    destruct (on_n _ w1) as [[u w2]| |]; [|done..]. by destruct (on_s (it_Next i) w2) as [[i' w3]| |].
  Qed.
  Lemma rest_o_unfold f i w : rest_o cmp (S f) i w = match rest_o_round cmp i w with Ok (Some i', w') => rest_o cmp f i' w' | Ok (None, w') => Ok (tt, w') | Panic => Panic | Fuel => Fuel end.
  Proof.
    cbn [rest_o]. unfold rest_o_round. destruct (it_IsValid i); [|done]. unfold mbind_. destruct (on_o (it_Key i) w) as [[a w1]| |]; [|done..].
    destruct (on_n _ w1) as [[u w2]| |]; [|done..]. by destruct (on_o (it_Next i) w2) as [[i' w3]| |].
  Qed.
  Lemma piece_exec {A} (m : M (three (T := T)) A) n k w a w' : m (w, n) = Ok (a, w') → exec (piece m n k fail) w = exec (k a w'.2) w'.1.
  Proof. intros E. unfold piece. cbn [exec]. by rewrite E. Qed.
  Lemma merge_exec e l g k f : ∀ i j w ij w', merge_loop cmp e l g f i j w = Ok (ij, w') → exec (merge_prog cmp fail e l g f i j w.2 k) w.1 = exec (k ij.1 ij.2 w'.2) w'.1.
  Proof.
    induction f as [|f IH]; intros i j [w n] ij w' E; [done|]. rewrite merge_unfold in E. cbn [merge_prog].
    destruct (merge_round cmp e l g i j (w, n)) as [[[ij'|] w1]| |] eqn:Er; [| |done..].
    - cbn [fst snd]. rewrite (piece_exec _ _ _ _ _ _ Er). by apply IH.
    - injection E as <- <-. cbn [fst snd]. by rewrite (piece_exec _ _ _ _ _ _ Er).
  Qed.
  Lemma rest_s_exec k f : ∀ i w u w', rest_s cmp f i w = Ok (u, w') → exec (rest_prog fail (rest_s_round cmp) f i w.2 k) w.1 = exec (k w'.2) w'.1.
  Proof.
    induction f as [|f IH]; intros i [w n] u w' E; [done|]. rewrite rest_s_unfold in E. cbn [rest_prog].
    destruct (rest_s_round cmp i (w, n)) as [[[i'|] w1]| |] eqn:Er; [| |done..].
    - cbn [fst snd]. rewrite (piece_exec _ _ _ _ _ _ Er). by eapply IH.
    - injection E as <- <-. cbn [fst snd]. by rewrite (piece_exec _ _ _ _ _ _ Er).
  Qed.
  Lemma rest_o_exec k f : ∀ i w u w', rest_o cmp f i w = Ok (u, w') → exec (rest_prog fail (rest_o_round cmp) f i w.2 k) w.1 = exec (k w'.2) w'.1.
  Proof.
    induction f as [|f IH]; intros i [w n] u w' E; [done|]. rewrite rest_o_unfold in E. cbn [rest_prog].
    destruct (rest_o_round cmp i (w, n)) as [[[i'|] w1]| |] eqn:Er; [| |done..].
    - cbn [fst snd]. rewrite (piece_exec _ _ _ _ _ _ Er). by eapply IH.
    - injection E as <- <-. cbn [fst snd]. by rewrite (piece_exec _ _ _ _ _ _ Er).
  Qed.
End alone.
Lemma combine_alone {T} (cmp : T → T → Z) k s o f w0 w : fuel2 (s, o, rb_new) = Ok (f, w0) → combine cmp k s o = Ok (tt, w) →
  exec (two_method cmp f (TComb k)) (s, o) = (Some (RSet w.2), w.1).
Proof.
  intros Ef. assert (w0 = (s, o, rb_new)) as -> by (unfold fuel2, on_s, on_o, mbind_, fuel, mret_ in Ef; by injection Ef as _ <-).
  cbn [two_method exec]. unfold combine, set_Union, set_Intersect, set_Diff, set_union_code, set_intersect_code, set_diff_code, comb_prog, starts.
  destruct (on_s rb_First (s, o, rb_new)) as [[i w1]| |] eqn:E1; [|destruct k; unfold mbind_; by rewrite E1..].
  assert (w1 = (s, o, rb_new)) as ->. { unfold on_s in E1. cbn [fst snd] in E1. destruct (rb_First s) as [[i' s']| |] eqn:E; [|done..]. injection E1 as <- <-. apply ro_first in E. by subst. }
  destruct (on_o rb_First (s, o, rb_new)) as [[j w1]| |] eqn:E2; [|destruct k; unfold mbind_; by rewrite E1, E2..].
  assert (w1 = (s, o, rb_new)) as ->. { unfold on_o in E2. cbn [fst snd] in E2. destruct (rb_First o) as [[i' s']| |] eqn:E; [|done..]. injection E2 as <- <-. apply ro_first in E. by subst. }
  destruct k; unfold mbind_; rewrite E1, E2, Ef.
  - destruct (merge_loop cmp true true true f i j _) as [[ij w2]| |] eqn:E3; [|done..]. destruct (rest_s cmp f ij.1 w2) as [[u w3]| |] eqn:E4; [|done..]. destruct (rest_o cmp f ij.2 w3) as [[u' w4]| |] eqn:E5; [|done..]. intros [= -> <-].
    rewrite (piece_exec _ _ _ _ _ _ _ E1). cbn [fst snd]. rewrite (piece_exec _ _ _ _ _ _ _ E2). cbn [fst snd].
    rewrite (merge_exec cmp _ _ _ _ _ _ _ _ _ _ _ E3), (rest_s_exec _ _ _ _ _ _ _ _ E4), (rest_o_exec _ _ _ _ _ _ _ _ E5). done.
  - destruct (merge_loop cmp true false false f i j _) as [[ij w2]| |] eqn:E3; [|done..]. unfold mret_. intros [= <-].
    rewrite (piece_exec _ _ _ _ _ _ _ E1). cbn [fst snd]. rewrite (piece_exec _ _ _ _ _ _ _ E2). cbn [fst snd].
    rewrite (merge_exec cmp _ _ _ _ _ _ _ _ _ _ _ E3). done.
  - destruct (merge_loop cmp false true false f i j _) as [[ij w2]| |] eqn:E3; [|done..]. destruct (rest_s cmp f ij.1 w2) as [[u w3]| |] eqn:E4; [|done..]. intros [= -> <-].
    rewrite (piece_exec _ _ _ _ _ _ _ E1). cbn [fst snd]. rewrite (piece_exec _ _ _ _ _ _ _ E2). cbn [fst snd].
    rewrite (merge_exec cmp _ _ _ _ _ _ _ _ _ _ _ E3), (rest_s_exec _ _ _ _ _ _ _ _ E4). done.
Qed.

(* ---------- C58 is false ---------- *)
(** the object two sets are meant to be: their contents; a combination answers with a set whose
    elements are those of the combination *)
Definition two_object (o : two_op Z) (a : list Z * list Z) (r : option (two_res Z)) (a' : list Z * list Z) : Prop :=
  match o with
  | TInsert x => r = Some RUnit ∧ a'.1 = a.1 ∧ ∀ y, y ∈ a'.2 ↔ y = x ∨ y ∈ a.2
  | TErase x => r = Some RUnit ∧ a'.1 = a.1 ∧ ∀ y, y ∈ a'.2 ↔ y ≠ x ∧ y ∈ a.2
  | TComb k => a' = a ∧ ∃ n l, r = Some (RSet n) ∧ behaves (W := Z) zc n l ∧ ∀ y, y ∈ l ↔
      match k with CUnion => y ∈ a.1 ∨ y ∈ a.2 | CIntersect => y ∈ a.1 ∧ y ∈ a.2 | CDiff => y ∈ a.1 ∧ y ∉ a.2 end
  end.
(** other = {1, 2}; Union of the empty set with it (call 0) has seen 1 when Erase(1) and then
    Insert(3) on other are called and return; the result is {1, 2, 3} *)
Definition bad_history : list (event (two_op Z) (option (two_res Z))) :=
  [EInv 0%nat (TComb CUnion); EInv 1%nat (TErase 1); ERet 1%nat (Some RUnit); EInv 2%nat (TInsert 3); ERet 2%nat (Some RUnit); ERet 0%nat (Some (RSet (build [1; 2; 3])))].
Lemma bad_execution : ∃ c, execution (two_method zc 10) (set_new, build [1; 2]) bad_history c.
Proof.
  apply (history_sound (two_method zc 10) _ ([ACall 0 (TComb CUnion); AStep 0; AStep 0; AStep 0; AStep 0; AStep 0; AStep 0;
    ACall 1 (TErase 1); AStep 1; AStep 1; AStep 1; AStep 1; ARet 1; ACall 2 (TInsert 3); AStep 2; AStep 2; AStep 2; AStep 2; ARet 2] ++ replicate 4 (AStep 0) ++ [ARet 0])).
  vm_compute. reflexivity.
Qed.

Lemma first_kept o a r a' : two_object o a r a' → a'.1 = a.1.
Proof. destruct o; cbn [two_object]; [intros (-> & _); done | intros (_ & -> & _); done | intros (_ & -> & _); done]. Qed.
(** what a legal sequence does to the other set *)
Lemma legal_split (L : list (nat * two_op Z * option (two_res Z))) : ∀ a n i o r, legal two_object L a → L !! n = Some (i, o, r) →
  ∃ b b', two_object o b r b' ∧ b'.1 = a.1 ∧ legal two_object (drop (S n) L) b'.
Proof.
  induction L as [|[[j o'] r'] L IH]; intros a n i o r Hl E; [done|]. cbn [legal] in Hl. destruct n as [|n]; cbn [lookup list_lookup] in E.
  - injection E as -> -> ->. destruct Hl as (a' & H1 & H2). exists a, a'. split_and!; [done | by eapply first_kept | done].
  - destruct Hl as (a' & H1 & H2). cbn [drop]. rewrite <- (first_kept _ _ _ _ H1). by eapply IH.
Qed.
Lemma comes_from (L : list (nat * two_op Z * option (two_res Z))) : ∀ a n i r x, legal two_object L a → L !! n = Some (i, TComb CUnion, Some (RSet r)) →
  (∀ l, behaves (W := Z) zc r l → x ∈ l) → x ∉ a.1 → x ∉ a.2 → ∃ m j, (m < n)%nat ∧ L !! m = Some (j, TInsert x, Some RUnit).
Proof.
  induction L as [|[[j o'] r'] L IH]; intros a n i r x Hl E Hr H1 H2; [done|]. cbn [legal] in Hl. destruct Hl as (a' & Ho & Hl). destruct n as [|n]; cbn [lookup list_lookup] in E.
  - injection E as -> -> ->. destruct Ho as (_ & n' & l & [= <-] & Hb & Hy). exfalso. specialize (Hr l Hb). apply Hy in Hr. tauto.
  - assert (x ∉ a'.1) as H1' by (by rewrite (first_kept _ _ _ _ Ho)).
    destruct (decide (x ∈ a'.2)) as [Hin|Hni].
    + destruct o' as [k|y|y]; cbn [two_object] in Ho.
      * destruct Ho as (-> & _). done.
      * destruct Ho as (-> & _ & Hy). apply Hy in Hin as [->|?]; [|done]. exists 0%nat, j. split; [lia | done].
      * destruct Ho as (_ & _ & Hy). apply Hy in Hin as [_ ?]. done.
    + destruct (IH a' n i r x Hl E Hr H1' Hni) as (m & j' & Hm & Em). exists (S m), j'. split; [lia | done].
Qed.
Theorem set_combine_refuted : set_reach (W := Z) zc set_new ∧ set_reach (W := Z) zc (build [1; 2]) ∧ behaves (W := Z) zc (build [1; 2]) [1; 2] ∧
  (∃ c, execution (two_method zc 10) (set_new, build [1; 2]) bad_history c) ∧ ¬ ∃ L, linearizes bad_history L ∧ legal two_object L ([], [1; 2]).
Proof.
  split_and!; [constructor | apply build_reach | | exact bad_execution |].
  { destruct (reachable_sets (W := Z) zc zc_ok _ (build_reach [1; 2])) as (l & _ & Hl & _). pose proof (Hl [SFwd 0]) as H0. pose proof (Hl [SFwd 1]) as H1. pose proof (Hl [SFwd 2]) as H2. cbn [srun set_spec s_obs] in H0, H1, H2.
    destruct H0 as (s0 & E0), H1 as (s1 & E1), H2 as (s2 & E2). vm_compute in E0, E1, E2. destruct l as [|a [|b [|c l]]]; try done. injection E0 as <- _. injection E1 as <- _. exact Hl. }
  intros (L & Hlin & Hleg).
  assert (Hres : ∀ x, x = 1 ∨ x = 3 → ∀ l, behaves (W := Z) zc (build [1; 2; 3]) l → x ∈ l).
  { intros x Hx l Hl. specialize (Hl [SContains x]). cbn [srun set_spec s_obs] in Hl. destruct Hl as (s & E).
    assert (existsb (same zc x) l = true) as Hb. { destruct Hx as [-> | ->]; vm_compute in E; injection E; done. }
    apply existsb_exists in Hb as (y & Hy & Hxy). unfold same, zc in Hxy. assert (x = y) as -> by lia. by apply elem_of_list_In. }
  destruct (lin_returned _ _ Hlin 0%nat (Some (RSet (build [1; 2; 3])))) as (o0 & H0). { do 5 right. left. }
  destruct (lin_returned _ _ Hlin 1%nat (Some RUnit)) as (o1 & H1). { do 2 right. left. }
  destruct (lin_returned _ _ Hlin 2%nat (Some RUnit)) as (o2 & H2). { do 4 right. left. }
  assert (Hop : ∀ i o r, (i, o, r) ∈ L → o = match i with 0%nat => TComb CUnion | 1%nat => TErase 1 | _ => TInsert 3 end ∧ (i <= 2)%nat).
  { intros i o r Hi. apply (lin_called _ _ Hlin) in Hi. unfold bad_history in Hi. repeat (apply elem_of_cons in Hi as [Hi|Hi]; [first [discriminate Hi | injection Hi as -> ->; split; [reflexivity | lia]]|]). by apply elem_of_nil in Hi. }
  destruct (Hop _ _ _ H0) as [-> _], (Hop _ _ _ H1) as [-> _], (Hop _ _ _ H2) as [-> _].
  pose proof (lin_order _ _ Hlin [EInv 0%nat (TComb CUnion); EInv 1%nat (TErase 1)] [] [ERet 2%nat (Some RUnit); ERet 0%nat (Some (RSet (build [1; 2; 3])))] 1%nat (Some RUnit) 2%nat (TInsert 3) _ _ eq_refl H1 H2 eq_refl eq_refl) as (L1 & L2 & L3 & EL).
  assert (Hnd : NoDup (map lin_id L)) by apply Hlin.
  assert (Hpos : ∀ m n x y, L !! m = Some x → L !! n = Some y → lin_id x = lin_id y → m = n).
  { intros m n x y Em En Hid. eapply (NoDup_lookup _ m n (lin_id x) Hnd); [by rewrite list_lookup_fmap, Em | rewrite list_lookup_fmap, En; cbn; by rewrite Hid]. }
  apply elem_of_list_lookup in H0 as (n & E0).
  (* the insertion of 3 precedes the union, so its removal of 1 does *)
  destruct (comes_from L _ n _ _ 3 Hleg E0 (Hres 3 (or_intror eq_refl))) as (m & j & Hm & Em); [intros H; inversion H | intros H; cbn in H; set_solver|].
  assert (j = 2%nat) as ->. { destruct (Hop j _ _ (elem_of_list_lookup_2 _ _ _ Em)) as [Ho Hj]. destruct j as [|[|[|j]]]; [done | done | done | lia]. }
  assert (E2 : L !! (length L1 + S (length L2))%nat = Some (2%nat, TInsert 3, Some RUnit)). { rewrite EL, lookup_app_r by lia. replace (length L1 + S (length L2) - length L1)%nat with (S (length L2)) by lia. cbn. by apply list_lookup_middle. }
  assert (m = (length L1 + S (length L2))%nat) as -> by (by eapply (Hpos _ _ _ _ Em E2)).
  assert (E1 : L !! length L1 = Some (1%nat, TErase 1, Some RUnit)) by (rewrite EL; by apply list_lookup_middle).
  destruct (legal_split _ _ _ _ _ _ Hleg E1) as (b & b' & Ho & Hb0 & Hd). destruct Ho as (_ & _ & Hb').
  assert (Hn' : drop (S (length L1)) L !! (n - S (length L1))%nat = Some (0%nat, TComb CUnion, Some (RSet (build [1; 2; 3])))) by (rewrite lookup_drop, <- E0; f_equal; lia).
  destruct (comes_from _ _ _ _ _ 1 Hd Hn' (Hres 1 (or_introl eq_refl))) as (m & j & _ & Em').
  - rewrite Hb0. intros H. inversion H.
  - intros H. apply Hb' in H. tauto.
  - rewrite lookup_drop in Em'. destruct (Hop j _ _ (elem_of_list_lookup_2 _ _ _ Em')) as [Ho _]. destruct j as [|[|j]]; discriminate Ho.
Qed.
Print Assumptions set_combine_refuted.

(* ---------- what holds ---------- *)
Section own.
  Context {T W : Type} (cmp : T → T → Z) (CO : CmpOK cmp).
  (** a set with the three combinations with a second set, which has the elements lo *)
  Definition own_object (lo : list T) (o : own_op T W) (l : list T) (r : option (own_res T W)) (l' : list T) : Prop :=
    match o with
    | OwnOp o => by_spec (set_spec cmp) o l (match r with Some (OwnRes r) => Some r | _ => None end) l' ∧ (∀ n, r ≠ Some (OwnSet n))
    | OwnComb k => l' = l ∧ ∃ n ln, r = Some (OwnSet n) ∧ set_reach (W := W) cmp n ∧ behaves (W := W) cmp n ln ∧ s_asc cmp ln ∧ ∀ x, has cmp x ln ↔
        match k with CUnion => has cmp x l ∨ has cmp x lo | CIntersect => has cmp x l ∧ has cmp x lo | CDiff => has cmp x l ∧ ¬ has cmp x lo end
    end.
  (** as long as nobody changes the other set, the combinations, and all other methods of the
      receiver, run concurrently by any number of goroutines, answer as at an instant of the call *)
  Theorem set_combine_partial oth lo (body : own_op T W → prog (rb T bool) (option (own_res T W))) h c :
    set_reach (W := W) cmp oth → behaves (W := W) cmp oth lo → implements (own_step cmp oth) body → disciplined (own_lock set_lock_) body →
    (∀ i o, EInv i (OwnOp o) ∈ h → set_call o) → execution (guarded (own_lock set_lock_) body) set_new h c →
    ∃ L, linearizes h L ∧ legal (own_object lo) L [].
  Proof using CO.
    intros Ho Hb Himp Hdis Hcall Hex.
    apply (guarded_linearizable (own_step cmp oth) (own_object lo) (λ s l, set_reach (W := W) cmp s ∧ asholds cmp s l) (λ o, match o with OwnOp o => set_call o | _ => True end) (own_lock set_lock_) body set_new [] h c); [| |done|done|done|].
    - intros o s l Hg [Hr Hs]. destruct o as [o|k]; cbn [own_step].
      + pose proof (set_agrees (W := W) cmp CO o s l Hs) as H. unfold agrees in H. unfold mbind_, mret_, own_object, by_spec. destruct (set_spec cmp o l) as [[r l']|].
        * destruct H as (s' & E & Hs'). rewrite E. exists l'. split; [done|]. split; [|done]. by eapply sr_op.
        * rewrite H. done.
      + pose proof (behaves_of (W := W) cmp CO s l Hs) as Hbs. destruct k; cbn [combine].
        * destruct (set_union (W := W) cmp CO s oth l lo Hr Ho Hbs Hb) as (n & ln & E & Hn & Hbn & Ha & Hh & _). rewrite E. exists l. split; [|done]. split; [done|]. by exists n, ln.
        * destruct (set_intersect (W := W) cmp CO s oth l lo Hr Ho Hbs Hb) as (n & ln & E & Hn & Hbn & Ha & Hh & _). rewrite E. exists l. split; [|done]. split; [done|]. by exists n, ln.
        * destruct (set_diff (W := W) cmp CO s oth l lo Hr Ho Hbs Hb) as (n & ln & E & Hn & Hbn & Ha & Hh & _). rewrite E. exists l. split; [|done]. split; [done|]. by exists n, ln.
    - split; [constructor|]. split; [by apply sholds_new | constructor].
    - intros i [o|k] Hi; [by eapply Hcall | done].
  Qed.
End own.
Print Assumptions set_combine_partial.

(** bodies that meet the hypotheses exist: the combinations change neither set *)
Section keeps.
  Context {T : Type} (cmp : T → T → Z).
  Definition keeps {A} (m : M (three (T := T)) A) : Prop := ∀ w a w', m w = Ok (a, w') → w'.1 = w.1.
  Lemma keeps_ret {A} (a : A) : keeps (mret_ a). Proof. by intros w b w' [= _ <-]. Qed.
  Lemma keeps_bind {A B} (m : M _ A) (k : A → M _ B) : keeps m → (∀ a, keeps (k a)) → keeps (mbind_ m k).
  Proof. intros Hm Hk w b w'. unfold mbind_. destruct (m w) as [[a w1]| |] eqn:E; [|done..]. intros E'. rewrite (Hk _ _ _ _ E'). by eapply Hm. Qed.
  Lemma keeps_s {A} (m : M (rb T bool) A) : ro m → keeps (on_s m).
  Proof. intros Hm [[s o] n] a w'. unfold on_s. cbn [fst snd]. destruct (m s) as [[x s']| |] eqn:E; [|done..]. intros [= _ <-]. cbn [fst]. by rewrite (Hm _ _ _ E). Qed.
  Lemma keeps_o {A} (m : M (rb T bool) A) : ro m → keeps (on_o m).
  Proof. intros Hm [[s o] n] a w'. unfold on_o. cbn [fst snd]. destruct (m o) as [[x s']| |] eqn:E; [|done..]. intros [= _ <-]. cbn [fst]. by rewrite (Hm _ _ _ E). Qed.
  Lemma keeps_n {A} (m : M (rb T bool) A) : keeps (on_n m).
  Proof. intros [[s o] n] a w'. unfold on_n. cbn [fst snd]. destruct (m n) as [[x s']| |] eqn:E; [|done..]. by intros [= _ <-]. Qed.
  Lemma ro_it_Key p : ro (it_Key (K := T) (V := bool) p). Proof. apply ro_key. Qed.
  Lemma ro_it_Next p : ro (it_Next (K := T) (V := bool) p). Proof. unfold it_Next. ro_go. Qed.
  Ltac kgo := repeat first [apply keeps_ret | apply keeps_n | apply keeps_s; (apply ro_it_Key || apply ro_it_Next || apply ro_first || apply ro_fuel_)
     | apply keeps_o; (apply ro_it_Key || apply ro_it_Next || apply ro_first || apply ro_fuel_) | apply keeps_bind; [|intros ?]].
  Lemma keeps_merge e l g f : ∀ i j, keeps (merge_loop cmp e l g f i j).
  Proof.
    induction f as [|f IH]; intros i j; [done|]. cbn [merge_loop]. destruct (it_IsValid i && it_IsValid j); [|apply keeps_ret]. apply keeps_bind; [kgo|]. intros a. apply keeps_bind; [kgo|]. intros b.
    cbv zeta. destruct (cmp a b =? 0); [|destruct (cmp a b <? 0)].
    - apply keeps_bind; [destruct e; kgo|]. intros _. kgo. apply IH.
    - apply keeps_bind; [destruct l; kgo|]. intros _. kgo. apply IH.
    - apply keeps_bind; [destruct g; kgo|]. intros _. kgo. apply IH.
  Qed.
  Lemma keeps_rest_s f : ∀ i, keeps (rest_s cmp f i).
  Proof. induction f as [|f IH]; intros i; [done|]. cbn [rest_s]. destruct (it_IsValid i); kgo. apply IH. Qed.
  Lemma keeps_rest_o f : ∀ i, keeps (rest_o cmp f i).
  Proof. induction f as [|f IH]; intros i; [done|]. cbn [rest_o]. destruct (it_IsValid i); kgo. apply IH. Qed.
  Lemma combine_keeps k s o w : combine cmp k s o = Ok (tt, w) → w.1 = (s, o).
  Proof.
    destruct k; cbn [combine]; unfold set_Union, set_Intersect, set_Diff; intros E.
    - assert (keeps (set_union_code cmp)) as H; [|by apply (H _ _ _ E)]. unfold set_union_code, fuel2. kgo; [apply keeps_merge | apply keeps_rest_s | apply keeps_rest_o].
    - assert (keeps (set_intersect_code cmp)) as H; [|by apply (H _ _ _ E)]. unfold set_intersect_code, fuel2. kgo. apply keeps_merge.
    - assert (keeps (set_diff_code cmp)) as H; [|by apply (H _ _ _ E)]. unfold set_diff_code, fuel2. kgo; [apply keeps_merge | apply keeps_rest_s].
  Qed.
End keeps.
Theorem set_combine_readers_read {T W} (cmp : T → T → Z) oth : readers_read (own_lock set_lock_) (own_step (W := W) cmp oth).
Proof.
  intros o s r s' Hl. destruct o as [o|k]; cbn [own_step].
  - unfold mbind_. destruct (set_step cmp o s) as [[x s1]| |] eqn:E; [|done..]. intros [= _ <-]. by eapply set_readers_read.
  - destruct (combine cmp k s oth) as [[[] w]| |] eqn:E; [|done..]. intros [= _ <-]. by rewrite (combine_keeps _ _ _ _ _ E).
Qed.
(** a union overlapping an insertion into the receiver *)
Example own_overlap : ∃ n c, execution (guarded (own_lock set_lock_) (whole (own_step (W := Z) zc (build [1; 2])))) set_new
  [EInv 0%nat (OwnComb CUnion); EInv 1%nat (OwnOp (SInsert 5)); ERet 0%nat (Some (OwnSet (build [1; 2]))); ERet 1%nat (Some (OwnRes QUnit)); EInv 2%nat (OwnComb CDiff); ERet 2%nat (Some (OwnSet n))] c ∧ set_String (λ _, "5"%string) n = Ok ("[5]"%string, n).
Proof.
  exists (build [5]). destruct (history_sound (guarded (own_lock set_lock_) (whole (own_step (W := Z) zc (build [1; 2])))) set_new
    [ACall 0 (OwnComb CUnion); AStep 0; ACall 1 (OwnOp (SInsert 5)); AStep 1; AStep 0; AStep 0; ARet 0; AStep 1; AStep 1; AStep 1; ARet 1; ACall 2 (OwnComb CDiff); AStep 2; AStep 2; AStep 2; ARet 2]
    [EInv 0%nat (OwnComb CUnion); EInv 1%nat (OwnOp (SInsert 5)); ERet 0%nat (Some (OwnSet (build [1; 2]))); ERet 1%nat (Some (OwnRes QUnit)); EInv 2%nat (OwnComb CDiff); ERet 2%nat (Some (OwnSet (build [5])))]) as (c & Hc); [vm_compute; reflexivity|].
  exists c. split; [exact Hc | by vm_compute].
Qed.
