From Verif Require Import Base Wp ListLib IterModel IterSpec SortModel SortSpec SortProofs StableProofs PermProofs AlgoModel AlgoSpec.
From Verif Require IterProofs.
Open Scope nat_scope.

Section const.
  Context {W T I : Type}.
  Context (next : I → M W I) (value : I → M W T) (equal : I → I → M W bool).
  Notation irange := (irange next value equal).
  Implicit Types s : list (I * T).

  Lemma count_ok cmp fuel w last first s v : irange w last first s → length s <= fuel →
    count next value equal cmp fuel first last v w = Ok (Z.of_nat (length (filter (λ p, cmp p.2 v = 0%Z) s)), w).
  Proof.
    intros H. revert fuel. induction H as [i He|i j x s He Hv Hn H IH]; intros fuel Hf.
    - destruct fuel; cbn [count]; unfold mbind_; by rewrite He.
    - destruct fuel as [|f]; [cbn in Hf; lia|]. cbn [count]. unfold mbind_. rewrite He, Hv, Hn, (IH f) by (cbn in Hf; lia).
      rewrite filter_cons. cbn [snd]. unfold mret_. do 2 f_equal. destruct (Z.eqb_spec (cmp x v) 0).
      + rewrite decide_True by done. cbn. lia.
      + by rewrite decide_False.
  Qed.
  Context (p : I → M W bool) (P : T → Prop) `{∀ x, Decision (P x)}.
  Definition fun_ok (w : W) s : Prop := ∀ i x, (i, x) ∈ s → p i w = Ok (bool_decide (P x), w).
  Lemma fun_ok_cons w i x s : fun_ok w ((i, x) :: s) → p i w = Ok (bool_decide (P x), w) ∧ fun_ok w s.
  Proof. intros Hf. split; [apply Hf; left|]. intros j y ?. apply Hf. by right. Qed.

  Lemma count_if_ok fuel w last first s : irange w last first s → fun_ok w s → length s <= fuel →
    count_if next equal p fuel first last w = Ok (Z.of_nat (length (filter (λ q, P q.2) s)), w).
  Proof.
    intros Hr. revert fuel. induction Hr as [i He|i j x s He Hv Hn Hr IH]; intros fuel Hp Hf.
    - destruct fuel; cbn [count_if]; unfold mbind_; by rewrite He.
    - apply fun_ok_cons in Hp as [Hp Hps].
      destruct fuel as [|f]; [cbn in Hf; lia|]. cbn [count_if]. unfold mbind_. rewrite He, Hp, Hn, (IH f) by (done || cbn in Hf; lia).
      rewrite filter_cons. cbn [snd]. unfold mret_. do 2 f_equal. destruct (decide (P x)).
      + rewrite bool_decide_eq_true_2 by done. cbn. lia.
      + by rewrite bool_decide_eq_false_2.
  Qed.

  Lemma first_such_here (Q : T → Prop) i x s last : Q x → first_such Q ((i, x) :: s) last i.
  Proof using. clear. intros. left. exists 0, x. split_and!; [done|done|]. intros. lia. Qed.
  Lemma first_such_there (Q : T → Prop) i x s last r : ¬ Q x → first_such Q s last r → first_such Q ((i, x) :: s) last r.
  Proof using.
    clear. intros Hx [(k & y & Hk & Hy & Hm)|[-> Hm]].
    - left. exists (S k), y. split_and!; [done|done|]. intros [|j] i' z Hj Hz; cbn in Hz; [by simplify_eq|]. eapply Hm; [|done]. lia.
    - right. split; [done|]. intros i' z Hz. apply elem_of_cons in Hz as [Hz|Hz]; [by simplify_eq|]. by eapply Hm.
  Qed.
  Lemma find_ok cmp fuel w last first s v : irange w last first s → length s <= fuel →
    ∃ r, find next value equal cmp fuel first last v w = Ok (r, w) ∧ first_such (λ x, cmp x v = 0%Z) s last r.
  Proof using.
    clear p P H. intros Hr. revert fuel. induction Hr as [i He|i j x s He Hv Hn Hr IH]; intros fuel Hf.
    - exists last. split; [|right; split; [done|by intros ? ? ?%elem_of_nil]].
      destruct fuel; cbn [find]; unfold mbind_; by rewrite He.
    - destruct fuel as [|f]; [cbn in Hf; lia|]. cbn [find]. unfold mbind_. rewrite He, Hv.
      destruct (Z.eqb_spec (cmp x v) 0).
      + exists i. split; [done|]. by apply first_such_here.
      + rewrite Hn. destruct (IH f) as (r & -> & Hr'); [cbn in Hf; lia|]. exists r. split; [done|]. by apply first_such_there.
  Qed.
  Lemma find_if_ok fuel w last first s : irange w last first s → fun_ok w s → length s <= fuel →
    ∃ r, find_if next equal p fuel first last w = Ok (r, w) ∧ first_such P s last r.
  Proof.
    intros Hr. revert fuel. induction Hr as [i He|i j x s He Hv Hn Hr IH]; intros fuel Hp Hf.
    - exists last. split; [|right; split; [done|by intros ? ? ?%elem_of_nil]].
      destruct fuel; cbn [find_if]; unfold mbind_; by rewrite He.
    - apply fun_ok_cons in Hp as [Hp Hps]. destruct fuel as [|f]; [cbn in Hf; lia|]. cbn [find_if]. unfold mbind_. rewrite He, Hp.
      case_bool_decide.
      + exists i. split; [done|]. by apply first_such_here.
      + rewrite Hn. destruct (IH f) as (r & -> & Hr'); [done|cbn in Hf; lia|]. exists r. split; [done|]. by apply first_such_there.
  Qed.
  Lemma any_of_ok fuel w last first s : irange w last first s → fun_ok w s → length s <= fuel →
    any_of next equal p fuel first last w = Ok (bool_decide (Exists (λ q, P q.2) s), w).
  Proof.
    intros Hr. revert fuel. induction Hr as [i He|i j x s He Hv Hn Hr IH]; intros fuel Hp Hf.
    - destruct fuel; cbn [any_of]; unfold mbind_; rewrite He; done.
    - apply fun_ok_cons in Hp as [Hp Hps]. destruct fuel as [|f]; [cbn in Hf; lia|]. cbn [any_of]. unfold mbind_. rewrite He, Hp.
      case_bool_decide.
      + unfold mret_. do 2 f_equal. symmetry. apply bool_decide_eq_true_2. by left.
      + rewrite Hn, IH by (done || cbn in Hf; lia). do 2 f_equal. apply bool_decide_ext. rewrite Exists_cons. cbn. tauto.
  Qed.
  Lemma all_of_ok fuel w last first s : irange w last first s → fun_ok w s → length s <= fuel →
    all_of next equal p fuel first last w = Ok (bool_decide (Forall (λ q, P q.2) s), w).
  Proof.
    intros Hr. revert fuel. induction Hr as [i He|i j x s He Hv Hn Hr IH]; intros fuel Hp Hf.
    - destruct fuel; cbn [all_of]; unfold mbind_; rewrite He; done.
    - apply fun_ok_cons in Hp as [Hp Hps]. destruct fuel as [|f]; [cbn in Hf; lia|]. cbn [all_of]. unfold mbind_. rewrite He, Hp.
      case_bool_decide; cbn [negb].
      + rewrite Hn, IH by (done || cbn in Hf; lia). do 2 f_equal. apply bool_decide_ext. rewrite Forall_cons. cbn. tauto.
      + unfold mret_. do 2 f_equal. symmetry. apply bool_decide_eq_false_2. rewrite Forall_cons. cbn. tauto.
  Qed.
  Lemma none_of_ok fuel w last first s : irange w last first s → fun_ok w s → length s <= fuel →
    none_of next equal p fuel first last w = Ok (bool_decide (Forall (λ q, ¬ P q.2) s), w).
  Proof.
    intros Hr Hp Hf. unfold none_of, mbind_. rewrite (any_of_ok _ _ _ _ _ Hr Hp Hf). unfold mret_. do 2 f_equal.
    rewrite <-bool_decide_not. apply bool_decide_ext. by rewrite Forall_Exists_neg.
  Qed.
End const.

Section extreme.
  Context {W T I : Type}.
  Context (next : I → M W I) (value : I → M W T) (equal : I → I → M W bool).
  Notation irange := (irange next value equal).
  Context (cmp : T → T → Z) (OK : CmpOK cmp) (better : Z → bool).
  Context (Hb : better = (λ c, (0 <? c)%Z) ∨ better = (λ c, (c <? 0)%Z)).
  Implicit Types s : list (I * T).
  Notation beats x y := (better (cmp x y) = true).
  Lemma beats_irrefl x : ¬ beats x x.
  Proof using OK Hb. rewrite (cmp_refl _ OK). by destruct Hb as [-> | ->]. Qed.
  Lemma beats_trans x y z : beats x y → beats y z → beats x z.
  Proof using OK Hb.
    destruct Hb as [-> | ->]; cbv beta; rewrite ?Z.ltb_lt.
    - intros H1 H2. apply (cmp_flip_lt _ OK) in H1. apply (cmp_flip_lt _ OK) in H2. apply (cmp_flip_lt _ OK).
      by apply (cmp_lt_trans _ OK _ y).
    - intros H1 H2. by apply (cmp_lt_trans _ OK _ y).
  Qed.
  Lemma nbeats_beats x y z : ¬ beats y x → beats y z → beats x z.
  Proof using OK Hb.
    destruct Hb as [-> | ->]; cbv beta; rewrite ?Z.ltb_lt.
    - intros H1 H2. apply (cmp_flip_lt _ OK) in H2. apply (cmp_flip_lt _ OK).
      apply (cmp_lt_le_trans _ OK _ y); [done|lia].
    - intros H1 H2. apply (cmp_le_lt_trans _ OK _ y); [|done]. apply (cmp_flip_le _ OK). lia.
  Qed.
  Lemma nbeats_trans x y z : ¬ beats x y → ¬ beats y z → ¬ beats x z.
  Proof using OK Hb. intros H1 H2 H3. apply H2. by eapply nbeats_beats. Qed.

  (** pre: elements already seen, best among them at index k *)
  Lemma extreme_ok fuel w last i s pre best x k : irange w last i s → length s <= fuel →
    value best w = Ok (x, w) → pre !! k = Some (best, x) →
    (∀ j y, (j, y) ∈ pre → ¬ beats y x) → (∀ j i' y, j < k → pre !! j = Some (i', y) → beats x y) →
    ∃ r, extreme_loop next value equal better cmp fuel best i last w = Ok (r, w) ∧
      first_extreme (λ x y, beats x y) (pre ++ s) last r.
  Proof using OK Hb.
    intros Hr. revert fuel pre best x k. induction Hr as [i He|i j y s He Hv Hn Hr IH]; intros fuel pre best x k Hf Hbest Hk Hall Hfst.
    - exists best. split; [destruct fuel; cbn [extreme_loop]; unfold mbind_; by rewrite He|]. right. exists k, x. rewrite app_nil_r. done.
    - destruct fuel as [|f]; [cbn in Hf; lia|]. cbn [extreme_loop]. unfold mbind_. rewrite He, Hv, Hbest, Hn.
      replace (pre ++ (i, y) :: s) with ((pre ++ [(i, y)]) ++ s) by (by rewrite <-app_assoc).
      destruct (better (cmp y x)) eqn:Eb.
      + apply (IH f _ i y (length pre)); [cbn in Hf; lia|done|by rewrite list_lookup_middle| |].
        * intros j' z [Hz|Hz]%elem_of_app.
          -- intros G. apply (Hall j' z Hz). by apply (beats_trans _ y).
          -- apply elem_of_list_singleton in Hz. simplify_eq. apply beats_irrefl.
        * intros j' i' z Hj Hz. rewrite lookup_app_l in Hz by done. apply (nbeats_beats _ y); [apply beats_irrefl|].
          pose proof (Hall i' z (elem_of_list_lookup_2 _ _ _ Hz)) as G. 
          destruct (better (cmp y z)) eqn:E; [done|]. exfalso.
          apply G. apply (nbeats_beats z y x); [by rewrite E|done].
      + apply (IH f _ best x k); [cbn in Hf; lia|done|by rewrite lookup_app_l by (by eapply lookup_lt_Some)| |].
        * intros j' z [Hz|Hz]%elem_of_app; [by apply (Hall j' z)|]. apply elem_of_list_singleton in Hz. simplify_eq. by rewrite Eb.
        * intros j' i' z Hj Hz. rewrite lookup_app_l in Hz by (apply lookup_lt_Some in Hk; lia). by eapply Hfst.
  Qed.
  Lemma extreme_first_ok fuel w last i s : irange w last i s → length s <= fuel → s ≠ [] →
    ∃ r, extreme_loop next value equal better cmp fuel i i last w = Ok (r, w) ∧ first_extreme (λ x y, beats x y) s last r.
  Proof using OK Hb.
    intros Hr Hf Hs. inversion Hr as [|i' j x s' He Hv Hn Hr']; subst; [done|].
    destruct fuel as [|f]; [cbn in Hf; lia|]. cbn [extreme_loop]. unfold mbind_. rewrite He, Hv, Hv, Hn.
    replace (if better (cmp x x) then i else i) with i by (by destruct (better _)).
    apply (extreme_ok f w last j s' [(i, x)] i x 0); try done.
    - cbn in Hf; lia.
    - intros j' y Hy. apply elem_of_list_singleton in Hy. simplify_eq. apply beats_irrefl.
    - intros. lia.
  Qed.
End extreme.

(** ranges of random access containers *)
Section ra.
  Context {W T : Type} (csize : nat → M W Z) (cat : nat → Z → M W T) (cset : nat → Z → T → M W unit).
  Context (o : nat) (R : W → list T → Prop) (L : ra_law csize cat cset o R).
  Context (eq : iter → iter → bool) (Heq : IterProofs.pos_equal o eq).
  Set Default Proof Using "Type*".
  Implicit Types l : list T.
  Notation it p := (MkIter o p).
  Notation at_ p := (MkIter o (Z.of_nat p)).
  Definition its (a n : nat) : list iter := (λ k, at_ k) <$> seq a n.

  Lemma ra_irange w l a b : R w l → a <= b <= length l →
    irange (it_next csize) (it_value cat) (λ i j w, Ok (eq i j, w)) w (at_ b) (at_ a) (zip (its a (b - a)) (seg a b l)).
  Proof.
    intros HR. remember (b - a) as n eqn:Hn. revert a Hn. induction n as [|n IH]; intros a Hn Hab.
    - constructor. rewrite Heq. rewrite bool_decide_eq_true_2 by lia. done.
    - destruct (lookup_lt_is_Some_2 l a ltac:(lia)) as [x Hx]. rewrite (seg_cons a b l x) by (done || lia). unfold its. cbn [seq fmap list_fmap zip_with].
      econstructor.
      + rewrite Heq. rewrite bool_decide_eq_false_2 by lia. done.
      + by eapply value_ok.
      + eapply next_ok; [done|done|lia].
      + apply IH; lia.
  Qed.

  Lemma reverse_loop_ok fuel w pre m post : R w (pre ++ m ++ post) → m ≠ [] → length m <= fuel →
    wp (reverse_loop csize cat cset eq fuel (at_ (length pre)) (it (Z.of_nat (length pre + length m) - 1)))
       (λ _ w', R w' (pre ++ rev m ++ post)) w.
  Proof.
    revert w pre m post. induction fuel as [|f IH]; intros w pre m post HR Hm Hf; cbn [reverse_loop]; rewrite Heq.
    { destruct m; cbn in *; [done|lia]. }
    destruct (mid_cases m) as [->|[[x ->]|(x & m' & y & ->)]]; [done| |].
    - cbn [length]. rewrite bool_decide_eq_true_2 by lia. by apply wp_ret.
    - cbn [length] in *. rewrite app_length in *. cbn [length] in *. rewrite bool_decide_eq_false_2 by lia.
      replace (Z.of_nat (length pre + S (length m' + 1)) - 1)%Z with (Z.of_nat (length pre + S (length m'))) by lia.
      rewrite <-app_comm_cons, <-app_assoc in HR. cbn [app] in HR.
      destruct (swap_ok _ _ _ o R L w _ (length pre) (length pre + S (length m')) HR) as (w1 & E1 & HR1).
      { rewrite app_length. cbn. lia. } { rewrite app_length. cbn. rewrite app_length. cbn. lia. }
      rewrite swapl_middle in HR1. change (swap_value cat cset) with (alg_swap cat cset) in E1. wp_step E1.
      wp_step (next_ok _ _ _ o R L w1 _ (length pre) HR1 ltac:(rewrite app_length; cbn; lia)).
      rewrite Heq. case_bool_decide as Hc.
      { assert (m' = []) as -> by (destruct m'; cbn in *; [done|lia]). apply wp_ret. exact HR1. }
      wp_step (prev_ok (W:=W) o w1 (length pre + S (length m'))).
      specialize (IH w1 (pre ++ [y]) m' (x :: post)). rewrite app_length in IH. cbn [length] in IH.
      replace (S (length pre)) with (length pre + 1) by lia. replace (length pre + S (length m')) with (length pre + 1 + length m') by lia.
      eapply wp_mono; [apply IH; [| |lia]|].
      + by rewrite <-app_assoc.
      + intros ->. cbn in Hc. lia.
      + intros ? w'. cbv beta. cbn [rev]. rewrite rev_app_distr. cbn [rev app]. rewrite <-!app_assoc. cbn [app]. by rewrite <-?app_assoc.
  Qed.

  Lemma reverse_ok fuel w l a b : R w l → a < b <= length l → b - a <= fuel →
    wp (alg_reverse csize cat cset eq fuel (at_ a) (at_ b))
       (λ _ w', R w' (take a l ++ rev (seg a b l) ++ drop b l)) w.
  Proof.
    intros HR Hab Hf. unfold alg_reverse, it_clone. cbn [it_pos it_obj]. wp_step (prev_ok (W:=W) o w b).
    rewrite (split3 a b l) in HR by lia.
    assert (length (take a l) = a) as Ha by (rewrite take_length; lia). assert (length (seg a b l) = b - a) as Hs by (apply seg_length; lia).
    pose proof (reverse_loop_ok fuel w _ _ _ HR) as G. rewrite Ha, Hs in G. replace (a + (b - a)) with b in G by lia. apply G; [|done].
    intros E. rewrite E in Hs. cbn in Hs. lia.
  Qed.

  (** left of right: the loop runs the two iterators apart until one leaves the container *)
  Lemma reverse_loop_apart fuel w l p q : R w l → p <= length l → (-1 <= q < Z.of_nat p)%Z → length l - p < fuel →
    reverse_loop csize cat cset eq fuel (at_ p) (it q) w = Panic.
  Proof.
    revert w l p q. induction fuel as [|f IH]; intros w l p q HR Hp Hq Hf; [lia|]. cbn [reverse_loop]. rewrite Heq.
    rewrite bool_decide_eq_false_2 by lia. unfold mbind_ at 1.
    destruct (decide (p = length l)) as [->|Hpl].
    { assert (it_value cat (at_ (length l)) w = Panic) as E.
      { unfold it_value. cbn. rewrite (ra_at _ _ _ _ _ L _ _ _ HR). rewrite bool_decide_eq_true_2 by lia. rewrite Nat2Z.id. by rewrite lookup_ge_None_2. }
      unfold alg_swap, mbind_. by rewrite E. }
    destruct (value_get _ _ _ o R L w l p HR ltac:(lia)) as (x & Hx & Ex).
    destruct (decide (q = -1)%Z) as [->|Hq1].
    { assert (it_value cat (it (-1)) w = Panic) as E.
      { unfold it_value. cbn. rewrite (ra_at _ _ _ _ _ L _ _ _ HR). by rewrite bool_decide_eq_false_2 by lia. }
      unfold alg_swap, mbind_. by rewrite Ex, E. }
    set (k := Z.to_nat q). replace q with (Z.of_nat k) by lia.
    destruct (swap_ok _ _ _ o R L w l p k HR) as (w1 & E1 & HR1); [lia|lia|]. change (swap_value cat cset) with (alg_swap cat cset) in E1. rewrite E1.
    unfold mbind_ at 1. rewrite (next_ok _ _ _ o R L w1 _ p HR1) by (rewrite swapl_length; lia). rewrite Heq.
    rewrite bool_decide_eq_false_2 by lia. unfold mbind_. rewrite (prev_ok (W:=W) o w1 k).
    apply (IH w1 _ _ _ HR1); rewrite ?swapl_length; lia.
  Qed.
  Lemma reverse_empty_panics w l a : R w l → a <= length l →
    alg_reverse csize cat cset eq (S (length l)) (at_ a) (at_ a) w = Panic.
  Proof.
    intros HR Ha. unfold alg_reverse, it_clone, mbind_. cbn [it_pos it_obj]. rewrite (prev_ok (W:=W) o w a).
    apply (reverse_loop_apart _ w l a); [done|lia|lia|lia].
  Qed.
End ra.
