(** C96: clients that keep iterators of ordered containers. *)
From Verif Require Import Base Wp History RbModel RbTree RbNav RbSpec RbProps RbApi MapModel SetModel TreeIterModel TreeIterSpec TreeIterProofs.
Open Scope Z_scope.
Local Open Scope go_scope.

Section sim.
  Context {K V D : Type} (cmp : K → K → Z) (CO : CmpOK cmp) (pol : policy) (kept : V → V) (seen : K → V → D) (c : methods K V D).
  Notation allows := (t_allows cmp pol kept seen).
  (** what the simulation needs to know about the methods *)
  Record lawful : Prop := {
    l_insert : ∀ s l n k v its, inv cmp s l n → ∃ s' l' n', c_insert c k v s = Ok (tt, s') ∧ inv cmp s' l' n' ∧ allows (TInsert k v) (MkTs l n its) TUnit (MkTs l' n' its) ∧ ∀ a, a ∈ l.*1 → a ∈ l'.*1;
    l_erase f : c_erase c = Some f → ∀ s l n k its, inv cmp s l n → ∃ s' l', f k s = Ok (tt, s') ∧ inv cmp s' l' n ∧ allows (TErase k) (MkTs l n its) TUnit (MkTs l' n its);
    l_eraseall f : c_eraseall c = Some f → ∀ s l n k its, inv cmp s l n → ∃ s' l', f k s = Ok (tt, s') ∧ inv cmp s' l' n ∧ allows (TEraseAll k) (MkTs l n its) TUnit (MkTs l' n its);
    l_eraseit f : c_eraseit c = Some f → ∀ p, f p = rb_Delete p;
    l_clear : c_clear c = rb_Clear; l_size : c_size c = rb_Size;
    l_find : ∀ k, c_find c k = rb_FindNode cmp k; l_lower : ∀ k, c_lower c k = rb_FindLowerBoundNode cmp k; l_upper : ∀ k, c_upper c k = rb_FindUpperBoundNode cmp k;
    l_begin : c_begin c = rb_First; l_last : c_last c = rb_Last;
    l_valid : ∀ p, i_valid c p = match p with Some _ => true | None => false end;
    l_next : ∀ p, i_next c p = match p with Some _ => next p | None => mret_ p end;
    l_prev : ∀ p, i_prev c p = match p with Some _ => prev p | None => mret_ p end;
    l_read : ∀ a s k v, key (Some a) s = Ok (k, s) → value (Some a) s = Ok (v, s) → i_read c (Some a) s = Ok (seen k v, s);
    l_read_nil : ∀ s, i_read c None s = Panic;
    l_set f : i_set c = Some f → ∀ p, f p = set_value p;
    l_clone : ∀ p, i_clone c p = p; l_equal : ∀ p q, i_equal c p q = bool_decide (p = q) }.
  Context (LW : lawful).
  Definition rel (w : tiworld K V) (s : ts K V) : Prop := inv cmp (ti_tree w) (t_ents s) (t_next s) ∧ ti_its w = t_its s.
  (** one action *)
  Lemma ti_sim o w s : offered c o → rel w s → (∃ i a, i ∈ uses o ∧ t_its s !! i = Some (Some a) ∧ a ∉ (t_ents s).*1)
    ∨ (t_panics o s ∧ ti_step c o w = Panic)
    ∨ ∃ x w' s', ti_step c o w = Ok (x, w') ∧ allows o s x s' ∧ rel w' s' ∧ (erases_nothing o → ∀ a, a ∈ (t_ents s).*1 → a ∈ (t_ents s').*1).
  Proof using CO LW.
    destruct w as [m its], s as [l n its']. intros Ho [Hi He]. cbn [ti_tree ti_its t_ents t_next t_its] in *. subst its'.
    assert (Hgo : ∀ i p, its !! i = Some p → (∃ a, p = Some a ∧ a ∉ l.*1) ∨ p = None ∨ (∃ a, p = Some a ∧ a ∈ l.*1)).
    { intros i [a|] _; [|by auto]. destruct (decide (a ∈ l.*1)); [right; right; eauto|left; eauto]. }
    destruct o as [k v|k|k|i| | |k|k|k| | |i|i|i|i|i v|i|i j]; cbn [ti_step]; unfold mbind_, on_tree, ti_get; cbn [ti_tree ti_its].
    - destruct (l_insert LW m l n k v its Hi) as (s' & l' & n' & -> & H' & Ha & Hk). right; right. do 3 eexists. split; [done|]. split; [exact Ha|]. split; [by split|done].
    - destruct Ho as [f Hf]. rewrite Hf. cbv beta iota. cbn [ti_tree ti_its]. destruct (l_erase LW f Hf m l n k its Hi) as (s' & l' & -> & H' & Ha). right; right. do 3 eexists. split; [done|]. split; [exact Ha|]. split; [by split|by intros []].
    - destruct Ho as [f Hf]. rewrite Hf. cbv beta iota. cbn [ti_tree ti_its]. destruct (l_eraseall LW f Hf m l n k its Hi) as (s' & l' & -> & H' & Ha). right; right. do 3 eexists. split; [done|]. split; [exact Ha|]. split; [by split|by intros []].
    - destruct Ho as [f Hf]. rewrite Hf. cbv beta iota. cbn [ti_tree ti_its]. destruct (its !! i) as [p|] eqn:Ei; [|right; left; split; [left; exists i; split; [left|done]|done]]. rewrite (l_eraseit LW f Hf p). cbn [ti_tree ti_its].
      destruct (Hgo i p Ei) as [(a & -> & Hn)|[->|(a & -> & Hn)]].
      + left. exists i, a. split_and!; [left|done|done].
      + right; right. eexists TUnit, _, (MkTs l n its). split; [done|]. split; [exists None; by split|]. split; [by split|by intros []].
      + destruct (delete_inv cmp CO m l n a Hi Hn) as (s' & l' & -> & Hr & H'). right; right. exists TUnit, (MkTI s' its), (MkTs l' n its). split; [done|]. split; [exists (Some a); split; [done|]; exists l'; by split|]. split; [by split|by intros []].
    - rewrite (l_clear LW). destruct (clear_inv cmp CO m l n Hi) as (s' & -> & H'). right; right. exists TUnit, (MkTI s' its), (MkTs [] n its). split; [done|]. split; [by split|]. split; [by split|by intros []].
    - rewrite (l_size LW), (size_inv cmp m l n Hi). right; right. do 3 eexists. split; [done|]. split; [split; [done|reflexivity]|]. split; [by split|done].
    - rewrite (l_find LW), (find_inv cmp CO m l n k Hi). right; right. do 3 eexists. split; [done|]. split; [split; [done|reflexivity]|]. split; [by split|done].
    - rewrite (l_lower LW), (lower_inv cmp CO m l n k Hi). right; right. do 3 eexists. split; [done|]. split; [split; [done|reflexivity]|]. split; [by split|done].
    - rewrite (l_upper LW), (upper_inv cmp CO m l n k Hi). right; right. do 3 eexists. split; [done|]. split; [split; [done|reflexivity]|]. split; [by split|done].
    - rewrite (l_begin LW), (begin_inv cmp m l n Hi). right; right. do 3 eexists. split; [done|]. split; [split; [done|reflexivity]|]. split; [by split|done].
    - rewrite (l_last LW), (last_inv cmp m l n Hi). right; right. do 3 eexists. split; [done|]. split; [split; [done|reflexivity]|]. split; [by split|done].
    - destruct (its !! i) as [p|] eqn:Ei; [|right; left; split; [left; exists i; split; [set_solver|done]|done]]. right; right. do 3 eexists. split; [done|]. split; [exists p; split; [done|]; split; [by rewrite (l_valid LW)|reflexivity]|]. split; [by split|done].
    - destruct (its !! i) as [p|] eqn:Ei; [|right; left; split; [left; exists i; split; [left|done]|done]]. rewrite (l_next LW). cbn [ti_tree ti_its].
      destruct (Hgo i p Ei) as [(a & -> & Hn)|[->|(a & -> & Hn)]].
      + left. exists i, a. split_and!; [left|done|done].
      + right; right. do 3 eexists. split; [done|]. split; [exists None; split; [done|]; split; [done|reflexivity]|]. split; [by split|done].
      + rewrite (next_inv cmp m l n a Hi Hn). right; right. do 3 eexists. split; [done|]. split; [exists (Some a); split; [done|]; split; [done|reflexivity]|]. split; [by split|done].
    - destruct (its !! i) as [p|] eqn:Ei; [|right; left; split; [left; exists i; split; [left|done]|done]]. rewrite (l_prev LW). cbn [ti_tree ti_its].
      destruct (Hgo i p Ei) as [(a & -> & Hn)|[->|(a & -> & Hn)]].
      + left. exists i, a. split_and!; [left|done|done].
      + right; right. do 3 eexists. split; [done|]. split; [exists None; split; [done|]; split; [done|reflexivity]|]. split; [by split|done].
      + rewrite (prev_inv cmp m l n a Hi Hn). right; right. do 3 eexists. split; [done|]. split; [exists (Some a); split; [done|]; split; [done|reflexivity]|]. split; [by split|done].
    - destruct (its !! i) as [p|] eqn:Ei; [|right; left; split; [left; exists i; split; [left|done]|done]]. cbn [ti_tree ti_its].
      destruct (Hgo i p Ei) as [(a & -> & Hn)|[->|(a & -> & Hn)]].
      + left. exists i, a. split_and!; [left|done|done].
      + right; left. split; [right; by exists i|by rewrite (l_read_nil LW)].
      + destruct (entry_inv cmp m l n a Hi Hn) as (k & v & E1 & E2 & E3). rewrite (l_read LW a m k v E2 E3). right; right. do 3 eexists. split; [done|]. split; [exists a, (k, v); split_and!; [done|done|done|reflexivity]|]. split; [by split|done].
    - destruct Ho as [f Hf]. rewrite Hf. cbv beta iota. cbn [ti_tree ti_its]. destruct (its !! i) as [p|] eqn:Ei; [|right; left; split; [left; exists i; split; [left|done]|done]]. rewrite (l_set LW f Hf p). cbn [ti_tree ti_its].
      destruct (Hgo i p Ei) as [(a & -> & Hn)|[->|(a & -> & Hn)]].
      + left. exists i, a. split_and!; [left|done|done].
      + right; left. split; [right; by exists i|done].
      + destruct (set_inv cmp CO m l n a v Hi Hn) as (s' & -> & H'). right; right. exists TUnit, (MkTI s' its), (MkTs (revalued l a v) n its). split; [done|]. split; [exists a; by split|]. split; [by split|].
        intros _ b Hb. cbn. unfold revalued. rewrite <-list_fmap_compose. apply elem_of_list_fmap in Hb as (x & -> & Hx). apply elem_of_list_fmap. exists x. split; [|done]. cbn. by case_decide.
    - destruct (its !! i) as [p|] eqn:Ei; [|right; left; split; [left; exists i; split; [set_solver|done]|done]]. right; right. rewrite (l_clone LW). do 3 eexists. split; [done|]. split; [exists p; split; [done|]; split; [done|reflexivity]|]. split; [by split|done].
    - destruct (its !! i) as [p|] eqn:Ei; [|right; left; split; [left; exists i; split; [set_solver|done]|done]]. cbn [ti_tree ti_its]. destruct (its !! j) as [q|] eqn:Ej; [|right; left; split; [left; exists j; split; [set_solver|done]|done]].
      right; right. do 3 eexists. split; [done|]. split; [exists p, q; split_and!; [done|done|by rewrite (l_equal LW)|reflexivity]|]. split; [by split|done].
  Qed.
  Lemma ti_follows ops w s : Forall (offered c) ops → rel w s → follows cmp pol kept seen stale ops s (results (run (ti_step c) ops w)).
  Proof using CO LW.
    revert w s. induction ops as [|o ops IH]; intros w s Ho Hr; [constructor|]. apply Forall_cons in Ho as [Ho Hos].
    destruct (ti_sim o w s Ho Hr) as [H|[[H E]|(x & w' & s' & E & H & Hr' & _)]].
    - by apply follows_excused.
    - cbn [run]. unfold results. rewrite E. by apply follows_panic.
    - cbn [run]. rewrite E. specialize (IH w' s' Hos Hr'). pose proof (follows_step cmp pol kept seen stale o ops s x s' _ H IH) as Hf. destruct (run (ti_step c) ops w') as [[xs w2]| |]; exact Hf.
  Qed.
  Definition healthy (s : ts K V) : Prop := ∀ i a, t_its s !! i = Some (Some a) → a ∈ (t_ents s).*1.
  Lemma after_in (l : list (nat * (K * V))) a b : after l a = Some b → b ∈ l.*1.
  Proof using.
    unfold after. destruct (suffix_is (λ x : nat * (K * V), bool_decide (x.1 = a)) l) as [ys E1]. intros H. rewrite E1, fmap_app. apply elem_of_app. right.
    destruct (suffix _ l) as [|x [|y R]]; cbn in H; [done|done|]. injection H as <-. right. left.
  Qed.
  Lemma before_in (l : list (nat * (K * V))) a b : before l a = Some b → b ∈ l.*1.
  Proof using. intros H%after_in. rewrite fmap_reverse in H. by rewrite elem_of_reverse in H. Qed.
  Lemma push_healthy l n its p : healthy (MkTs l n its) → (∀ a, p = Some a → a ∈ l.*1) → healthy (MkTs l n (its ++ [p])).
  Proof using.
    intros H Hp i a Hi. cbn in *. apply lookup_app_Some in Hi as [Hi|[_ Hi]]; [by eapply (H i)|]. apply list_lookup_singleton_Some in Hi as [_ Hq]. by apply Hp.
  Qed.
  Lemma put_healthy l n its i p : healthy (MkTs l n its) → (∀ a, p = Some a → a ∈ l.*1) → healthy (MkTs l n (<[i := p]> its)).
  Proof using.
    intros H Hp j a Hj. cbn in *. apply list_lookup_insert_Some in Hj as [(_ & Hq & _)|[_ Hj]]; [by apply Hp|by eapply (H j)].
  Qed.
  Lemma heads_in (l : list (nat * (K * V))) a : fst <$> head l = Some a → a ∈ l.*1.
  Proof using. destruct l as [|x l]; [done|]. intros [= <-]. left. Qed.
  Lemma lasts_in (l : list (nat * (K * V))) a : fst <$> last l = Some a → a ∈ l.*1.
  Proof using. rewrite <-head_reverse. intros H%heads_in. rewrite fmap_reverse in H. by rewrite elem_of_reverse in H. Qed.
  Lemma allows_healthy o s x s' : allows o s x s' → erases_nothing o → (∀ a, a ∈ (t_ents s).*1 → a ∈ (t_ents s').*1) → healthy s → healthy s'.
  Proof using.
    intros Ha Ho Hk Hh. destruct s as [l n its].
    destruct o as [k v|k|k|i| | |k|k|k| | |i|i|i|i|i v|i|i j]; try done; cbn [t_allows t_ents t_next t_its] in Ha.
    - assert (t_its s' = its) as Hits. { destruct pol, (first_of (equal_to cmp k) l); first [destruct Ha as [_ ->]|destruct Ha as (l' & _ & _ & ->)]; done. }
      intros i a Hi. rewrite Hits in Hi. apply Hk. by eapply (Hh i).
    - by destruct Ha as [_ ->].
    - destruct Ha as [_ ->]. apply push_healthy; [done|]. apply first_in.
    - destruct Ha as [_ ->]. apply push_healthy; [done|]. apply first_in.
    - destruct Ha as [_ ->]. apply push_healthy; [done|]. apply first_in.
    - destruct Ha as [_ ->]. apply push_healthy; [done|]. apply heads_in.
    - destruct Ha as [_ ->]. apply push_healthy; [done|]. apply lasts_in.
    - by destruct Ha as (p & _ & _ & ->).
    - destruct Ha as (p & _ & _ & ->). apply put_healthy; [done|]. destruct p; [apply after_in|done].
    - destruct Ha as (p & _ & _ & ->). apply put_healthy; [done|]. destruct p; [apply before_in|done].
    - by destruct Ha as (? & ? & _ & _ & _ & ->).
    - destruct Ha as (a & _ & _ & ->). intros j b Hj. apply Hk. by eapply (Hh j).
    - destruct Ha as (p & Hp & _ & ->). apply push_healthy; [done|]. intros a ->. by eapply (Hh i).
    - by destruct Ha as (? & ? & _ & _ & _ & ->).
  Qed.
  Lemma ti_follows_strict ops w s : Forall (offered c) ops → Forall erases_nothing ops → rel w s → healthy s → follows cmp pol kept seen (λ _ _, False) ops s (results (run (ti_step c) ops w)).
  Proof using CO LW.
    revert w s. induction ops as [|o ops IH]; intros w s Ho Hn Hr Hh; [constructor|]. apply Forall_cons in Ho as [Ho Hos]. apply Forall_cons in Hn as [Hn Hns].
    destruct (ti_sim o w s Ho Hr) as [(i & a & _ & H1 & H2)|[[H E]|(x & w' & s' & E & H & Hr' & Hk)]].
    - exfalso. apply H2. by eapply Hh.
    - cbn [run]. unfold results. rewrite E. by apply follows_panic.
    - cbn [run]. rewrite E. pose proof (allows_healthy o s x s' H Hn (Hk Hn) Hh) as Hh'. specialize (IH w' s' Hos Hns Hr' Hh'). pose proof (follows_step cmp pol kept seen (λ _ _, False) o ops s x s' _ H IH) as Hf. destruct (run (ti_step c) ops w') as [[xs w2]| |]; exact Hf.
  Qed.
  Lemma rel0 : rel tiworld0 ts0.
  Proof using CO. split; [|done]. exists E. split_and!; [apply tinv_new|done|done]. done. Qed.
  Lemma healthy0 : healthy (ts0 (K := K) (V := V)).
  Proof using. intros i a H. done. Qed.
End sim.

Section laws.
  Context {K V : Type} (cmp : K → K → Z) (CO : CmpOK cmp).
  Implicit Types (s : rb K V) (l : list (nat * (K * V))).
  Lemma placed_keeps l n k v l' : placed cmp l n k v l' → ∀ a, a ∈ l.*1 → a ∈ l'.*1.
  Proof using. clear CO. intros (L & R & -> & -> & _) a. rewrite !fmap_app, fmap_cons. set_solver. Qed.
  Lemma revalued_keeps l a v : (revalued l a v).*1 = l.*1.
  Proof using. unfold revalued. rewrite <-list_fmap_compose. apply list_fmap_ext. intros i x _. cbn. by case_decide. Qed.
  Lemma add_law {D} kept (seen : K → V → D) s l n k v its : inv cmp s l n → ∃ s' l' n', rb_Insert cmp k (kept v) s = Ok (tt, s') ∧ inv cmp s' l' n' ∧ t_allows cmp Adds kept seen (TInsert k v) (MkTs l n its) TUnit (MkTs l' n' its) ∧ ∀ a, a ∈ l.*1 → a ∈ l'.*1.
  Proof using CO.
    intros Hi. destruct (insert_inv cmp CO s l n k (kept v) Hi) as (s' & l' & E & Hp & H'). exists s', l', (S n). split_and!; [done|done| |by eapply placed_keeps].
    cbn [t_allows t_ents t_next t_its]. exists l'; by split.
  Qed.
  Lemma erase_law {D} pol kept (seen : K → V → D) s l n k its : inv cmp s l n →
    ∃ s' l', (let! node := rb_FindNode cmp k in match node with Some _ => rb_Delete node | None => mret_ tt end) s = Ok (tt, s') ∧ inv cmp s' l' n ∧ t_allows cmp pol kept seen (TErase k) (MkTs l n its) TUnit (MkTs l' n its).
  Proof using CO.
    intros Hi. unfold mbind_. rewrite (find_inv cmp CO s l n k Hi). cbn [t_allows t_ents t_next t_its]. destruct (first_of (equal_to cmp k) l) as [a|] eqn:Ef.
    - destruct (delete_inv cmp CO s l n a Hi) as (s' & l' & -> & Hr & H'); [by eapply first_in|]. exists s', l'. split_and!; [done|done|]. exists l'. by split.
    - exists s, l. split_and!; [done|done|by split].
  Qed.
  Lemma loop_law f k s l n : (length l < f)%nat → inv cmp s l n → ∃ s' l', mm_erase_loop cmp f k s = Ok (tt, s') ∧ inv cmp s' l' n ∧ all_removed cmp k l l'.
  Proof using CO.
    revert s l. induction f as [|f IH]; intros s l Hf Hi; [lia|]. cbn [mm_erase_loop]. unfold mbind_. rewrite (find_inv cmp CO s l n k Hi). destruct (first_of (equal_to cmp k) l) as [a|] eqn:Ef.
    - destruct (delete_inv cmp CO s l n a Hi) as (s1 & l1 & -> & Hr & H1); [by eapply first_in|]. pose proof (removed_length _ _ _ Hr). destruct (IH s1 l1) as (s' & l' & -> & H' & Ha); [lia|done|]. exists s', l'. split_and!; [done|done|by eapply all_more].
    - exists s, l. split_and!; [done|done|by apply all_none].
  Qed.
  Lemma erase_all_law {D} pol kept (seen : K → V → D) s l n k its : inv cmp s l n → ∃ s' l', mm_Erase cmp k s = Ok (tt, s') ∧ inv cmp s' l' n ∧ t_allows cmp pol kept seen (TEraseAll k) (MkTs l n its) TUnit (MkTs l' n its).
  Proof using CO.
    intros Hi. unfold mm_Erase, fuel, mbind_. pose proof (len_next _ _ _ _ Hi). destruct Hi as (t & Ht & E1 & E2). destruct (loop_law (S (rb_next s)) k s l n) as (s' & l' & -> & H' & Ha); [lia|by exists t|].
    exists s', l'. split_and!; [done|done|]. exists l'. by split.
  Qed.
  Lemma map_lawful : lawful cmp Overwrites id (λ k v, (k, v)) (map_methods (V := V) cmp).
  Proof using CO.
    split; cbn; try done.
    - intros s l n k v its Hi. unfold map_Insert, mbind_. rewrite (find_inv cmp CO s l n k Hi). destruct (first_of (equal_to cmp k) l) as [a|] eqn:Ef.
      + destruct (set_inv cmp CO s l n a v Hi) as (s' & -> & H'); [by eapply first_in|]. exists s', (revalued l a v), n. split_and!; [done|done|by split|]. intros b. by rewrite revalued_keeps.
      + destruct (insert_inv cmp CO s l n k v Hi) as (s' & l' & E & Hp & H'). exists s', l', (S n). split_and!; [done|done| |by eapply placed_keeps]. exists l'. by split.
    - intros f [= <-] s l n k its Hi. exact (erase_law Overwrites id (λ k v, (k, v)) s l n k its Hi).
    - intros f [= <-]. done.
    - intros [a|]; done.
    - intros [a|]; done.
    - intros a s k v E1 E2. unfold mbind_, mi_Key, mi_Value. by rewrite E1, E2.
    - intros f [= <-]. done.
    - intros p q. unfold mi_Equal, peq. apply bool_decide_ext. naive_solver.
  Qed.
  Lemma multimap_lawful : lawful cmp Adds id (λ k v, (k, v)) (multimap_methods (V := V) cmp).
  Proof using CO.
    split; cbn; try done.
    - intros s l n k v its Hi. exact (add_law id (λ k v, (k, v)) s l n k v its Hi).
    - intros f [= <-] s l n k its Hi. exact (erase_all_law Adds id (λ k v, (k, v)) s l n k its Hi).
    - intros [a|]; done.
    - intros [a|]; done.
    - intros a s k v E1 E2. unfold mbind_, mi_Key, mi_Value. by rewrite E1, E2.
    - intros f [= <-]. done.
    - intros p q. unfold mi_Equal, peq. apply bool_decide_ext. naive_solver.
  Qed.
  Lemma rbtree_lawful : lawful cmp Adds id (λ k v, (k, v)) (rbtree_methods (V := V) cmp).
  Proof using CO.
    split; cbn; try done.
    - intros s l n k v its Hi. exact (add_law id (λ k v, (k, v)) s l n k v its Hi).
    - intros f [= <-]. done.
    - intros [a|]; done.
    - intros [a|]; done.
    - intros [a|]; done.
    - intros a s k v E1 E2. unfold mbind_, it_Key, it_Value. by rewrite E1, E2.
    - intros f [= <-]. done.
    - intros p q. unfold it_Equal, peq. apply bool_decide_ext. naive_solver.
  Qed.
End laws.
Section setlaws.
  Context {T : Type} (cmp : T → T → Z) (CO : CmpOK cmp).
  Lemma set_lawful : lawful cmp Ignores (λ _, true) (λ x _, x) (set_methods cmp).
  Proof using CO.
    split; cbn; try done.
    - intros s l n k v its Hi. unfold set_Insert, mbind_. rewrite (find_inv cmp CO s l n k Hi). destruct (first_of (equal_to cmp k) l) as [a|] eqn:Ef.
      + exists s, l, n. split_and!; [done|done|by split|done].
      + destruct (insert_inv cmp CO s l n k true Hi) as (s' & l' & E & Hp & H'). exists s', l', (S n). split_and!; [done|done| |by eapply placed_keeps]. exists l'. by split.
    - intros f [= <-] s l n k its Hi. exact (erase_law cmp CO Ignores (λ _, true) (λ x _, x) s l n k its Hi).
    - intros [a|]; done.
    - intros [a|]; done.
    - intros p q. unfold si_Equal, peq. apply bool_decide_ext. naive_solver.
  Qed.
  Lemma ms_loop f k s : ms_erase_loop cmp f k s = mm_erase_loop cmp f k s.
  Proof using. revert s. induction f as [|f IH]; intros s; [done|]. cbn. unfold mbind_. destruct (rb_FindNode cmp k s) as [[[a|] s']| |]; [|done..]. destruct (rb_Delete (Some a) s') as [[? ?]| |]; [apply IH|done..]. Qed.
  Lemma multiset_lawful : lawful cmp Adds (λ _, true) (λ x _, x) (multiset_methods cmp).
  Proof using CO.
    split; cbn; try done.
    - intros s l n k v its Hi. exact (add_law cmp CO (λ _, true) (λ x _, x) s l n k v its Hi).
    - intros f [= <-] s l n k its Hi. exact (erase_law cmp CO Adds (λ _, true) (λ x _, x) s l n k its Hi).
    - intros f [= <-] s l n k its Hi. destruct (erase_all_law cmp CO Adds (λ _, true) (λ x _, x) s l n k its Hi) as (s' & l' & E & H). exists s', l'. split; [|done]. rewrite <-E. unfold ms_EraseAll, mm_Erase, mbind_, fuel. apply ms_loop.
    - intros [a|]; done.
    - intros [a|]; done.
    - intros p q. unfold si_Equal, peq. apply bool_decide_ext. naive_solver.
  Qed.
End setlaws.

Section theorems.
  Context {K V : Type} (cmp : K → K → Z) (CO : CmpOK cmp).
  (** C96: every history of a new Map and its iterators has results that the numbered entries allow, up
      to the first use of a stale iterator *)
  Theorem map_iterators ops : Forall (offered (map_methods cmp)) ops →
    follows cmp Overwrites id (λ k (v : V), (k, v)) stale ops ts0 (results (run (ti_step (map_methods cmp)) ops tiworld0)).
  Proof using CO. intros H. by apply (ti_follows cmp CO _ _ _ _ (map_lawful cmp CO)), rel0. Qed.
  Theorem multimap_iterators ops : Forall (offered (multimap_methods cmp)) ops →
    follows cmp Adds id (λ k (v : V), (k, v)) stale ops ts0 (results (run (ti_step (multimap_methods cmp)) ops tiworld0)).
  Proof using CO. intros H. by apply (ti_follows cmp CO _ _ _ _ (multimap_lawful cmp CO)), rel0. Qed.
  Theorem rbtree_iterators ops : Forall (offered (rbtree_methods cmp)) ops →
    follows cmp Adds id (λ k (v : V), (k, v)) stale ops ts0 (results (run (ti_step (rbtree_methods cmp)) ops tiworld0)).
  Proof using CO. intros H. by apply (ti_follows cmp CO _ _ _ _ (rbtree_lawful cmp CO)), rel0. Qed.
  (** as long as nothing is erased no iterator becomes stale *)
  Theorem map_iterators_insertions ops : Forall (offered (map_methods cmp)) ops → Forall erases_nothing ops →
    follows cmp Overwrites id (λ k (v : V), (k, v)) (λ _ _, False) ops ts0 (results (run (ti_step (map_methods cmp)) ops tiworld0)).
  Proof using CO. intros H1 H2. apply (ti_follows_strict cmp CO _ _ _ _ (map_lawful cmp CO)); [done|done|by apply rel0|apply healthy0]. Qed.
  Theorem multimap_iterators_insertions ops : Forall (offered (multimap_methods cmp)) ops → Forall erases_nothing ops →
    follows cmp Adds id (λ k (v : V), (k, v)) (λ _ _, False) ops ts0 (results (run (ti_step (multimap_methods cmp)) ops tiworld0)).
  Proof using CO. intros H1 H2. apply (ti_follows_strict cmp CO _ _ _ _ (multimap_lawful cmp CO)); [done|done|by apply rel0|apply healthy0]. Qed.
  Theorem rbtree_iterators_insertions ops : Forall (offered (rbtree_methods cmp)) ops → Forall erases_nothing ops →
    follows cmp Adds id (λ k (v : V), (k, v)) (λ _ _, False) ops ts0 (results (run (ti_step (rbtree_methods cmp)) ops tiworld0)).
  Proof using CO. intros H1 H2. apply (ti_follows_strict cmp CO _ _ _ _ (rbtree_lawful cmp CO)); [done|done|by apply rel0|apply healthy0]. Qed.
End theorems.
Section settheorems.
  Context {T : Type} (cmp : T → T → Z) (CO : CmpOK cmp).
  Theorem set_iterators ops : Forall (offered (set_methods cmp)) ops →
    follows cmp Ignores (λ _, true) (λ x _, x) stale ops ts0 (results (run (ti_step (set_methods cmp)) ops tiworld0)).
  Proof using CO. intros H. by apply (ti_follows cmp CO _ _ _ _ (set_lawful cmp CO)), rel0. Qed.
  Theorem multiset_iterators ops : Forall (offered (multiset_methods cmp)) ops →
    follows cmp Adds (λ _, true) (λ x _, x) stale ops ts0 (results (run (ti_step (multiset_methods cmp)) ops tiworld0)).
  Proof using CO. intros H. by apply (ti_follows cmp CO _ _ _ _ (multiset_lawful cmp CO)), rel0. Qed.
  Theorem set_iterators_insertions ops : Forall (offered (set_methods cmp)) ops → Forall erases_nothing ops →
    follows cmp Ignores (λ _, true) (λ x _, x) (λ _ _, False) ops ts0 (results (run (ti_step (set_methods cmp)) ops tiworld0)).
  Proof using CO. intros H1 H2. apply (ti_follows_strict cmp CO _ _ _ _ (set_lawful cmp CO)); [done|done|by apply rel0|apply healthy0]. Qed.
  Theorem multiset_iterators_insertions ops : Forall (offered (multiset_methods cmp)) ops → Forall erases_nothing ops →
    follows cmp Adds (λ _, true) (λ x _, x) (λ _ _, False) ops ts0 (results (run (ti_step (multiset_methods cmp)) ops tiworld0)).
  Proof using CO. intros H1 H2. apply (ti_follows_strict cmp CO _ _ _ _ (multiset_lawful cmp CO)); [done|done|by apply rel0|apply healthy0]. Qed.
End settheorems.

(** a history with an erasure whose iterators stay in use, and its results *)
Example tree_iter_hyp : let ops := [TInsert 5 50; TInsert 1 10; TInsert 9 90; TFind 9; TInsert 7 70; TErase 1; TPrev 0%nat; TRead 0%nat; TSetV 0%nat 71; TLast; TPrev 1%nat; TEqual 0%nat 1%nat; TRead 1%nat; TNext 0%nat; TNext 0%nat; TValid 0%nat] in
  Forall (offered (map_methods Z.sub)) ops ∧
  results (run (ti_step (map_methods Z.sub)) ops tiworld0) = Ok [TUnit; TUnit; TUnit; TIter 0; TUnit; TUnit; TUnit; TData (7, 70); TUnit; TIter 1; TUnit; TBool true; TData (7, 71); TUnit; TUnit; TBool false].
Proof. split; [repeat constructor; cbn; eauto|by vm_compute]. Qed.

Print Assumptions map_iterators. Print Assumptions multimap_iterators. Print Assumptions rbtree_iterators. Print Assumptions set_iterators. Print Assumptions multiset_iterators.
Print Assumptions map_iterators_insertions. Print Assumptions multimap_iterators_insertions. Print Assumptions rbtree_iterators_insertions. Print Assumptions set_iterators_insertions. Print Assumptions multiset_iterators_insertions.
