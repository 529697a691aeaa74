(** Property C110: NthElement of n distinct elements makes at most 60 n element accesses on average over all the
    orders the elements can be in, and at most 5 n (n + 1) on any input. *)
From Verif Require Import Base Wp ListLib GoSliceModel VectorModel SliceModel IterModel IterSpec SortModel SortSpec SortProofs CountSpec SortCostProofs IterProofs IterProps SortProps PermAllProps PermCostProofs SortAvgStep SortAvgCount SortAvgProofs SortAvgProps NthAvgStep NthAvgProofs.
From Coq Require Import Factorial.
Open Scope nat_scope.

Section props.
  Context {W T : Type} (csize : nat → M W Z) (cat : nat → Z → M W T) (cset : nat → Z → T → M W unit) (o : nat) (R : W → list T → Prop).
  Context (L : ra_law csize cat cset o R) (cmp : T → T → Z) (OK : CmpOK cmp).
  Notation csz := (csize_c csize). Notation ct := (cat_c cat). Notation cs := (cset_c cset).
  Lemma sim_nth_element w pre s post k : R w (pre ++ s ++ post) →
    sim (nb cmp (length s) s k) (nth_element csize cat cset cmp (pos o (length pre)) (pos o (length pre + length s)) k) (nth_element csz ct cs cmp (pos o (length pre)) (pos o (length pre + length s)) k) w.
  Proof using L OK.
    intros HR. unfold nth_element, it_position, it_at. cbn [it_pos it_obj]. destruct ((_ <? _)%Z || (_ <? _)%Z); [eapply sim_mono; [apply sim_ret|apply Nat.le_0_l]|].
    replace (Z.of_nat (length pre) + (Z.of_nat (length pre + length s) - Z.of_nat (length pre)) - 1)%Z with (Z.of_nat (length pre + length s) - 1)%Z by lia.
    replace (Z.to_nat (Z.of_nat (length pre + length s) - Z.of_nat (length pre))) with (length s) by lia. by apply (sim_nth csize cat cset o R L cmp OK (length s) w pre s post k).
  Qed.
  (** C110: let the n elements of l be pairwise different, let arr list every order they can be in once, and let
      cost s be the number of At and Set calls that NthElement for position k of a range holding s makes (whatever
      is around the range).  For every k the average of the costs is at most 60 n. *)
  Theorem nth_element_average_cost (l pre post : list T) (k : Z) (arr : list (list T)) (cost : list T → nat) :
    (∀ i j x y, l !! i = Some x → l !! j = Some y → cmp x y = 0%Z → i = j) →
    NoDup arr → (∀ s, s ∈ arr ↔ s ≡ₚ l) →
    (∀ s, s ∈ arr → ∃ w w', R w (pre ++ s ++ post) ∧ nth_element csz ct cs cmp (pos o (length pre)) (pos o (length pre + length l)) k (w, 0) = Ok (tt, (w', cost s))) →
    length arr = fact (length l) ∧ sum_list (cost <$> arr) <= length arr * (60 * length l).
  Proof using L OK.
    intros Hd Hnd Harr Hcost. destruct (ranks cmp OK (λ s, nb cmp (length l) s k) (λ s, nb cmpn (length l) s k) l arr Hd Hnd Harr) as [Hlen Hsum].
    { clear. destruct (length l); [done|]. cbn [nb length]. by rewrite !decide_False by lia. }
    { intros d t Ht Hk. apply nb_fmap. intros i j Hi Hj. rewrite Ht, elem_of_seq in Hi, Hj. apply Hk; lia. }
    split; [done|]. rewrite Hlen.
    assert (sum_list (cost <$> arr) = Sm cost arr) as ->. { change (sum_list (cost <$> arr)) with (Sm id (cost <$> arr)). by rewrite Sm_map. }
    etrans; [|apply (nth_average (length l)); done]. etrans; [|exact Hsum]. apply Sm_le. intros s Hs. destruct (Hcost s Hs) as (w & w' & HR & E). apply Harr in Hs. assert (length s = length l) as Ls by (by rewrite Hs).
    rewrite <-Ls in E |- *. pose proof (sim_nth_element w pre s post k HR 0) as H. destruct (nth_element csize cat cset cmp _ _ k w) as [[[] w1]| |]; [|congruence|congruence]. destruct H as (d & E2 & Hle). assert (cost s = d) as -> by (clear -E E2; rewrite Nat.add_0_l in E2; congruence). done.
  Qed.
  (** on any input, whatever its order and however many elements are equal *)
  Theorem nth_element_cost w l a b n : R w l → a <= b <= length l → a <= n < b →
    ∃ w' c, nth_element csize cat cset cmp (pos o a) (pos o b) (Z.of_nat n - Z.of_nat a) w = Ok (tt, w') ∧
      nth_element csz ct cs cmp (pos o a) (pos o b) (Z.of_nat n - Z.of_nat a) (w, 0) = Ok (tt, (w', c)) ∧ c <= 5 * ((b - a) * (b - a + 1)).
  Proof using L OK.
    intros HR Hab Hn. destruct (nth_element_partial _ _ _ _ _ L cmp OK w l a b n HR Hab Hn) as (w' & s' & E & _). exists w'.
    assert (length (seg a b l) = b - a) as Ls by (apply seg_length; lia). assert (length (take a l) = a) as Lt by (rewrite take_length; lia).
    assert (R w (take a l ++ seg a b l ++ drop b l)) as HR'. { by rewrite <-split3 by lia. }
    pose proof (sim_nth_element w (take a l) (seg a b l) (drop b l) (Z.of_nat n - Z.of_nat a) HR' 0) as H. rewrite Lt, Ls in H. replace (a + (b - a)) with b in H by lia. rewrite E in H. destruct H as (d & E2 & Hd). exists d. split_and!; [done|done|].
    etrans; [exact Hd|]. etrans; [apply nb_worst|]. by rewrite Ls.
  Qed.
End props.
Print Assumptions nth_element_average_cost. Print Assumptions nth_element_cost.
(** all the orders of 3 5 8 9 in positions 1 to 4 of a slice; the second smallest is asked for *)
Definition ndemo_cost (s : list Z) : nat :=
  match nth_element (csize_c sw_len) (cat_c sw_at) (cset_c sw_set) Z.sub (pos 0 1) (pos 0 5) 1 (six s, 0) with Ok (_, (_, c)) => c | _ => 0 end.
Example nth_average_demo : length demo_arr = 24 ∧ sum_list (ndemo_cost <$> demo_arr) = 696 ∧ sum_list (ndemo_cost <$> demo_arr) <= 24 * (60 * 4).
Proof.
  split_and!; [by vm_compute|by vm_compute|].
  assert (CmpOK Z.sub) as OK by (constructor; intros; lia).
  destruct (nth_element_average_cost sw_len sw_at sw_set 0 _ (slice_ra_law 0%Z 0) Z.sub OK [3; 5; 8; 9]%Z [7]%Z [1]%Z 1 demo_arr ndemo_cost) as [_ H].
  - intros i j x y Hi Hj. pose proof (lookup_lt_Some _ _ _ Hi) as Li. pose proof (lookup_lt_Some _ _ _ Hj) as Lj. cbn [length] in Li, Lj.
    destruct i as [|[|[|[|i]]]]; [..|lia]; destruct j as [|[|[|[|j]]]]; try lia; injection Hi as <-; injection Hj as <-; lia.
  - apply perms_nodup; [done|]. repeat constructor; rewrite ?elem_of_cons, ?elem_of_nil; lia.
  - by apply perms_spec.
  - intros s Hs. apply perms_spec in Hs; [|done]. pose proof (Permutation_length Hs) as Ls. cbn [length] in Ls. exists (six s).
    destruct (nth_element_cost _ _ _ _ _ (slice_ra_law 0%Z 0) Z.sub OK (six s) _ 1 5 2 (six_holds s Ls) ltac:(cbn [length]; rewrite app_length; cbn [length]; lia) ltac:(lia)) as (w' & c & _ & E & _).
    exists w'. split; [exact (six_holds s Ls)|]. unfold ndemo_cost. change (Z.of_nat 2 - Z.of_nat 1)%Z with 1%Z in E. cbn [length Nat.add]. rewrite E. done.
  - exact H.
Qed.
