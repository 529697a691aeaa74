(** Properties C65, C66: iterators of the singly linked list, and the String() methods of Deque, the
    two lists, Queue and Stack. *)
From Coq Require Import String Ascii.
From Verif Require Import Base Wp History DequeModel DequeSpec DequeOps DequeOps2 DequeOps4 DequeHist BidlistModel BidlistSpec BidlistCyc BidlistProofs BidlistOps BidlistHist BidlistProps
  SlistModel SlistSpec SlistProofs AdapterModel AdapterSpec AdapterProps TextModel.
Open Scope nat_scope.

(** specification: the texts separated by single spaces, in brackets *)
Definition in_brackets (texts : list string) : string := ("[" ++ String.concat " " texts ++ "]")%string.
(** the texts from the first non-empty one on *)
Fixpoint skip_empty (texts : list string) : list string :=
  match texts with [] => [] | t :: ts => if String.eqb t "" then skip_empty ts else t :: ts end.

Section pure.
  Context {T : Type} (show : T → string).
  Lemma tapp_nil_r (a : string) : (a ++ "")%string = a. Proof using. clear. induction a as [|c a IH]; [done|]. change (String c (a ++ "") = String c a). f_equal. exact IH. Qed.
  Lemma tapp_assoc (a b c : string) : ((a ++ b) ++ c)%string = (a ++ (b ++ c))%string. Proof using. clear. induction a as [|x a IH]; [done|]. change (String x ((a ++ b) ++ c) = String x (a ++ (b ++ c)))%string. f_equal. exact IH. Qed.
  Lemma text_more (l : list T) (a : string) : a ≠ ""%string → fold_left (add_text show) l ("[" ++ a)%string = ("[" ++ String.concat " " (a :: map show l))%string.
  Proof using.
    revert a. induction l as [|x l IH]; intros a Ha; [done|]. cbn [fold_left map]. unfold add_text at 2.
    assert (String.eqb ("[" ++ a) "[" = false) as ->. { apply String.eqb_neq. intros E1. destruct a; [done|discriminate]. } cbn [negb].
    change ("[" ++ a)%string with (String "["%char a) at 1. change (String "["%char a ++ " ")%string with ("[" ++ (a ++ " "))%string. rewrite tapp_assoc. rewrite IH.
    2:{ destruct a; [done|discriminate]. }
    f_equal. cbn [String.concat]. destruct (map show l); cbn [String.concat]; rewrite ?tapp_assoc; done.
  Qed.
  Lemma text_all (l : list T) : (fold_left (add_text show) l "[" ++ "]")%string = in_brackets (skip_empty (map show l)).
  Proof using.
    unfold in_brackets. rewrite <-tapp_assoc. f_equal. induction l as [|x l IH]; [done|]. cbn [fold_left map skip_empty]. unfold add_text at 2. rewrite String.eqb_refl. cbn [negb].
    destruct (String.eqb_spec (show x) "") as [Hx|Hx].
    - rewrite Hx. exact IH.
    - by apply text_more.
  Qed.
  Lemma skip_empty_id (l : list T) : (∀ x, head l = Some x → show x ≠ ""%string) → skip_empty (map show l) = map show l.
  Proof using. intros H. destruct l as [|x l]; [done|]. cbn. destruct (String.eqb_spec (show x) "") as [E|]; [|done]. by destruct (H x). Qed.

  Lemma dq_text_ok d (p q : list T) str c : dinv d (p ++ q) → length q < c → dq_text_loop show c (Z.of_nat (length p)) str d = Ok (fold_left (add_text show) q str, d).
  Proof using.
    revert p str c. induction q as [|x q IH]; intros p str c H Hc; (destruct c as [|c]; [cbn in Hc; lia|]); cbn [dq_text_loop]; unfold dq_Size, dget, mbind_, mret_; rewrite (size_dq _ _ H); rewrite app_length; cbn [length].
    - destruct (Z.ltb_spec (Z.of_nat (length p)) (Z.of_nat (length p + 0))); [lia|done].
    - destruct (Z.ltb_spec (Z.of_nat (length p)) (Z.of_nat (length p + S (length q)))); [|lia].
      rewrite (at_dq d (p ++ x :: q) (length p) x H) by (by rewrite list_lookup_middle). replace (Z.of_nat (length p) + 1)%Z with (Z.of_nat (length (p ++ [x]))) by (rewrite app_length; cbn; lia).
      rewrite IH; [done|by rewrite <-app_assoc|cbn in Hc; lia].
  Qed.
  Lemma dq_string_ok d (l : list T) : dinv d l → dq_String show d = Ok (in_brackets (skip_empty (map show l)), d).
  Proof using.
    intros H. unfold dq_String, dget, mbind_. rewrite (size_dq _ _ H). rewrite (dq_text_ok d [] l) by (try done; lia). unfold mret_. by rewrite text_all.
  Qed.
  Lemma b_text_ok w s k p q : brel w s → s_lists s !! k = Some (p ++ q) → ∀ c str, length q ≤ c → b_text_loop show c (head q) str w = Ok (fold_left (add_text show) (vals_of s q) str, w).
  Proof using.
    intros H. revert p. induction q as [|a q IH]; intros p Hk c str Hc; [by destruct c|]. destruct c as [|c]; [cbn in Hc; lia|].
    destruct (br_elem w s k _ a H Hk) as (nn & v & Hnn & _ & Hv & Hvv); [set_solver|]. rewrite vals_of_cons, Hv.
    cbn [b_text_loop head]. unfold mbind_. rewrite (nd_ok w a nn Hnn), Hvv. rewrite (Next_ok w s k p a q H Hk).
    rewrite (IH (p ++ [a])); [|by rewrite <-app_assoc|cbn in Hc; lia]. done.
  Qed.
  Lemma b_string_ok w s k ps fuel : brel w s → s_lists s !! k = Some ps → length ps ≤ fuel → b_String show fuel k w = Ok (in_brackets (skip_empty (map show (vals_of s ps))), w).
  Proof using.
    intros H Hk Hf. unfold b_String, b_FrontNode, mbind_. rewrite (ls_ok w k _ (br_list _ _ _ _ H Hk)). unfold mret_. cbn [bl b_head]. rewrite (b_text_ok w s k [] ps H Hk) by done. by rewrite text_all.
  Qed.
  Lemma s_text_ok w s k p q : srel w s → ss_lists s !! k = Some (p ++ q) → ∀ c str, length q ≤ c → s_text_loop show c (head q) str w = Ok (fold_left (add_text show) (s_vals_of s q) str, w).
  Proof using.
    intros H. revert p. induction q as [|a q IH]; intros p Hk c str Hc; [by destruct c|]. destruct c as [|c]; [cbn in Hc; lia|].
    destruct (sr_elem w s k _ a H Hk) as (v & Hv); [set_solver|]. destruct (sr_val _ _ _ _ H Hv) as (nn & Hnn & Hvv).
    assert (s_vals_of s (a :: q) = v :: s_vals_of s q) as -> by (unfold s_vals_of; cbn; by rewrite Hv).
    cbn [s_text_loop head]. unfold mbind_. rewrite (sn_ok w a nn Hnn), Hvv. rewrite (sNext_ok w s k p a q H Hk).
    rewrite (IH (p ++ [a])); [|by rewrite <-app_assoc|cbn in Hc; lia]. done.
  Qed.
  Lemma s_string_ok w s k ps fuel : srel w s → ss_lists s !! k = Some ps → length ps ≤ fuel → s_String show fuel k w = Ok (in_brackets (skip_empty (map show (s_vals_of s ps))), w).
  Proof using.
    intros H Hk Hf. unfold s_String, s_FrontNode, mbind_. rewrite (sl_ok w k _ (sr_list _ _ _ _ H Hk)). unfold mret_. cbn [sbl sl_head]. rewrite (s_text_ok w s k [] ps H Hk) by done. by rewrite text_all.
  Qed.
End pure.

(** C66: after any history of calls, String is the elements' texts in order, separated by single
    spaces, in brackets — provided the first text is not empty.  In general (second part) the empty
    texts at the front are lost together with their separators. *)
Theorem deque_string_partial {T} (zero : T) (show : T → string) ops rs l : srun dq_spec ops [] = Some (rs, l) →
  ∃ d, run (dq_step zero) ops dq_new = Ok (rs, d) ∧
    ((∀ x, head l = Some x → show x ≠ ""%string) → dq_String show d = Ok (in_brackets (map show l), d)) ∧
    dq_String show d = Ok (in_brackets (skip_empty (map show l)), d).
Proof.
  intros E. pose proof (dq_history zero ops) as H. rewrite E in H. destruct H as (d & E1 & R). exists d. split; [done|].
  split; [|by apply dq_string_ok]. intros Hx. rewrite (dq_string_ok show d l R). by rewrite skip_empty_id.
Qed.
Print Assumptions deque_string_partial.
Theorem bidlist_string_partial {T} (show : T → string) ops (w : bworld T) s l ps fuel : b_reach ops w s → s_lists s !! l = Some ps → length ps ≤ fuel →
  ((∀ x, head (vals_of s ps) = Some x → show x ≠ ""%string) → b_String show fuel l w = Ok (in_brackets (map show (vals_of s ps)), w)) ∧
  b_String show fuel l w = Ok (in_brackets (skip_empty (map show (vals_of s ps))), w).
Proof.
  intros R Hl Hf. apply reach_rel in R as H. split; [|by apply b_string_ok]. intros Hx. rewrite (b_string_ok show w s l ps fuel H Hl Hf). by rewrite skip_empty_id.
Qed.
Print Assumptions bidlist_string_partial.
Theorem slist_string_partial {T} (zero : T) (show : T → string) ops rs s : s_safe_run zero ops ss0 → srun (s_spec zero) ops ss0 = Some (rs, s) →
  ∃ w, run (s_step zero) ops sworld0 = Ok (rs, w) ∧ ∀ l ps fuel, ss_lists s !! l = Some ps → length ps ≤ fuel →
    ((∀ x, head (s_vals_of s ps) = Some x → show x ≠ ""%string) → s_String show fuel l w = Ok (in_brackets (map show (s_vals_of s ps)), w)) ∧
    s_String show fuel l w = Ok (in_brackets (skip_empty (map show (s_vals_of s ps))), w).
Proof.
  intros Hs E. pose proof (s_history_from zero ops sworld0 ss0 srel_0 Hs) as H. rewrite E in H. destruct H as (w & E1 & H). exists w. split; [done|]. intros l ps fuel Hl Hf.
  split; [|by apply s_string_ok]. intros Hx. rewrite (s_string_ok show w s l ps fuel H Hl Hf). by rewrite skip_empty_id.
Qed.
Print Assumptions slist_string_partial.
(** Queue and Stack print their container: front to back, bottom to top *)
Theorem queue_stack_string_partial {T} (zero : T) (show : T → string) :
  (∀ ops rs l, srun q_spec ops [] = Some (rs, l) → (∀ x, head l = Some x → show x ≠ ""%string) →
     (∃ d, run (q_step (deque_container zero)) ops deque_start = Ok (rs, d) ∧ q_String_deque show d = Ok (in_brackets (map show l), d)) ∧
     (∃ w, run (q_step (list_container 0)) ops list_start = Ok (rs, w) ∧ ∀ fuel, length l ≤ fuel → q_String_list show fuel 0 w = Ok (in_brackets (map show l), w))) ∧
  (∀ ops rs l, srun st_spec ops [] = Some (rs, l) → (∀ x, last l = Some x → show x ≠ ""%string) →
     (∃ d, run (st_step (deque_container zero)) ops deque_start = Ok (rs, d) ∧ q_String_deque show d = Ok (in_brackets (map show (reverse l)), d)) ∧
     (∃ w, run (st_step (list_container 0)) ops list_start = Ok (rs, w) ∧ ∀ fuel, length l ≤ fuel → q_String_list show fuel 0 w = Ok (in_brackets (map show (reverse l)), w))).
Proof.
  assert (dinv (T := T) deque_start []) as D0 by apply dinv_new.
  assert (AdapterProps.list_holds (T := T) 0 list_start []) as B0 by apply AdapterProps.list_start_holds.
  assert (∀ w (xs : list T) fuel, AdapterProps.list_holds 0 w xs → length xs ≤ fuel → (∀ x, head xs = Some x → show x ≠ ""%string) → b_String show fuel 0 w = Ok (in_brackets (map show xs), w)) as Hb.
  { intros w xs fuel (s & ps & H & Hl & <-) Hf Hx. rewrite (b_string_ok show w s 0 ps fuel H Hl); [by rewrite skip_empty_id|]. by rewrite <-(vals_of_length w s 0 ps). }
  split; intros ops rs l E Hx.
  - split.
    + pose proof (AdapterProps.queue_over_any_container _ _ (AdapterProps.deque_is_container zero) ops _ _ D0) as H. rewrite E in H. destruct H as (d & E1 & R). exists d. split; [done|].
      unfold q_String_deque. rewrite (dq_string_ok show d l R). by rewrite skip_empty_id.
    + pose proof (AdapterProps.queue_over_any_container _ _ (AdapterProps.list_is_container 0) ops _ _ B0) as H. rewrite E in H. destruct H as (w & E1 & R). exists w. split; [done|].
      intros fuel Hf. by apply Hb.
  - assert (∀ x, head (reverse l) = Some x → show x ≠ ""%string) as Hx'. { intros x. rewrite <-AdapterProps.last_reverse. apply Hx. } split.
    + pose proof (AdapterProps.stack_over_any_container _ _ (AdapterProps.deque_is_container zero) ops _ _ D0) as H. cbn [reverse rev_append] in H. change (reverse []) with (@nil T) in H. rewrite E in H. destruct H as (d & E1 & R). exists d. split; [done|].
      unfold q_String_deque. rewrite (dq_string_ok show d _ R). by rewrite skip_empty_id.
    + pose proof (AdapterProps.stack_over_any_container _ _ (AdapterProps.list_is_container 0) ops _ _ B0) as H. change (reverse []) with (@nil T) in H. rewrite E in H. destruct H as (w & E1 & R). exists w. split; [done|].
      intros fuel Hf. apply Hb; [done|by rewrite reverse_length|done].
Qed.
Print Assumptions queue_stack_string_partial.
(** the full statement is false: a deque (queue) holding "" and "a" prints "[a]", which is also the
    text of a deque holding "a" alone *)
Theorem string_refuted : ∃ d1 d2 : deque string,
  run (dq_step ""%string) [DPushBack ""%string; DPushBack "a"%string] dq_new = Ok ([DUnit; DUnit], d1) ∧ run (dq_step ""%string) [DPushBack "a"%string] dq_new = Ok ([DUnit], d2) ∧
  dq_String (λ x, x) d1 = Ok ("[a]"%string, d1) ∧ dq_String (λ x, x) d2 = Ok ("[a]"%string, d2) ∧ in_brackets [""; "a"]%string = "[ a]"%string.
Proof. eexists _, _. split_and!; [vm_compute; reflexivity|vm_compute; reflexivity|vm_compute; reflexivity|vm_compute; reflexivity|reflexivity]. Qed.
Print Assumptions string_refuted.
Definition digit (z : Z) : string := match z with 1 => "1" | 2 => "2" | 3 => "3" | _ => "?" end%Z%string.
Example string_example :
  (∃ l, srun dq_spec [DPushBack 2%Z; DPushFront 1%Z; DPushBack 3%Z; DEraseAt 1] [] = Some ([DUnit; DUnit; DUnit; DUnit], l) ∧ in_brackets (map digit l) = "[1 3]"%string) ∧
  (∃ l, srun st_spec [TPush 1%Z; TPush 2%Z; TPush 3%Z; TPop] [] = Some ([AUnit; AUnit; AUnit; AVal 3%Z], l) ∧ in_brackets (map digit (reverse l)) = "[1 2]"%string).
Proof. split; eexists; split; vm_compute; reflexivity. Qed.

(** C65: iterators of the singly linked list.  After any history within the contract: from any node
    of a list the loop with Next sees the values from there to the end; Value and SetValue read and
    write that node's value and nothing else; the loop that rewrites every value maps exactly this
    list; an iterator past the end stays there, panics on Value and ignores SetValue; Equal tells
    whether two iterators are at the same node. *)
Definition set_vals {T} (f : T → T) (ps : list nat) (s : ss T) : ss T :=
  MkSs (ss_lists s) (imap (λ a x, if decide (a ∈ ps) then f x else x) (ss_vals s)).
Section siter.
  Context {T : Type} (zero : T).
  Lemma sli_walk_ok (w : sworld T) s k p q : srel w s → ss_lists s !! k = Some (p ++ q) → ∀ fuel, length q ≤ fuel → sli_walk fuel (head q) w = Ok (s_vals_of s q, w).
  Proof using.
    intros H. revert p. induction q as [|a q IH]; intros p Hk fuel Hf; [by destruct fuel|]. destruct fuel as [|fuel]; [cbn in Hf; lia|].
    destruct (sr_elem w s k _ a H Hk) as (v & Hv); [set_solver|]. destruct (sr_val _ _ _ _ H Hv) as (nn & Hnn & Hvv).
    assert (s_vals_of s (a :: q) = v :: s_vals_of s q) as -> by (unfold s_vals_of; cbn; by rewrite Hv).
    cbn [sli_walk head]. change (sli_IsValid (Some a)) with true. cbv iota. unfold sli_Value, sli_Next, mbind_. rewrite (sn_ok w a nn Hnn), Hvv. unfold mret_. rewrite (sNext_ok w s k p a q H Hk).
    rewrite (IH (p ++ [a])); [|by rewrite <-app_assoc|cbn in Hf; lia]. done.
  Qed.
  Lemma sset_val_ok (w : sworld T) s a x v : srel w s → ss_vals s !! a = Some v → ∃ w', sset_val (Some a) x w = Ok (tt, w') ∧ srel w' (MkSs (ss_lists s) (<[a := x]> (ss_vals s))).
  Proof using zero.
    intros H Ha. pose proof (s_step_agrees zero (SSetValue (Some a) x) w s H I) as A. cbn [s_spec s_step mbind option_bind] in A. rewrite Ha in A. cbn in A.
    destruct A as (w' & E & H'). unfold mbind_ in E. destruct (sset_val (Some a) x w) as [[[] w1]| |]; [|done|done]. injection E as ->. eauto.
  Qed.
  Lemma sli_map_ok f (s0 : ss T) k p q : ∀ (w : sworld T) s, srel w s → ss_lists s !! k = Some (p ++ q) → NoDup (p ++ q) → s = set_vals f p s0 → ∀ fuel, length q ≤ fuel →
    ∃ w', sli_map f fuel (head q) w = Ok (tt, w') ∧ srel w' (set_vals f (p ++ q) s0).
  Proof using zero.
    revert p. induction q as [|a q IH]; intros p w s H Hk Hnd -> fuel Hf; [destruct fuel; (exists w; split; [done|by rewrite app_nil_r])|]. destruct fuel as [|fuel]; [cbn in Hf; lia|].
    destruct (sr_elem w _ k _ a H Hk) as (v & Hv); [set_solver|]. destruct (sr_val _ _ _ _ H Hv) as (nn & Hnn & Hvv).
    cbn [sli_map head]. change (sli_IsValid (Some a)) with true. cbv iota. unfold sli_Value, sli_Next, sli_SetValue, mbind_. rewrite (sn_ok w a nn Hnn), Hvv. unfold mret_.
    destruct (sset_val_ok w _ a (f v) v H Hv) as (w1 & E1 & H1). rewrite E1.
    rewrite (sNext_ok w1 _ k p a q H1 Hk).
    assert (a ∉ p) as Hap. { apply NoDup_app in Hnd as (_ & Hd & _). intros Hin. by apply (Hd a Hin), elem_of_cons; left. }
    assert (MkSs (ss_lists (set_vals f p s0)) (<[a := f v]> (ss_vals (set_vals f p s0))) = set_vals f (p ++ [a]) s0) as Es.
    { unfold set_vals. cbn. f_equal. apply list_eq. intros i. destruct (decide (i = a)) as [->|Hne].
      - rewrite list_lookup_insert by (by eapply lookup_lt_Some). unfold set_vals in Hv. cbn in Hv. rewrite list_lookup_imap in Hv. rewrite list_lookup_imap.
        destruct (ss_vals s0 !! a) as [x|]; [|done]. cbn in *. rewrite decide_False in Hv by done. rewrite decide_True by set_solver. congruence.
      - rewrite list_lookup_insert_ne by done. rewrite !list_lookup_imap. destruct (ss_vals s0 !! i) as [x|]; [|done]. cbn. f_equal. destruct (decide (i ∈ p)) as [Hi|Hi].
        + rewrite decide_True by set_solver. done. + rewrite decide_False by set_solver. done. }
    rewrite Es in H1. destruct (IH (p ++ [a]) w1 (set_vals f (p ++ [a]) s0) H1) with (fuel := fuel) as (w' & E' & H').
    { cbn. rewrite <-app_assoc. exact Hk. } { by rewrite <-app_assoc. } { done. } { cbn in Hf. lia. }
    exists w'. split; [done|]. by rewrite <-app_assoc in H'.
  Qed.
  Lemma set_vals_in f qs ps (s : ss T) : (∀ a, a ∈ qs → a ∈ ps) → s_vals_of (set_vals f ps s) qs = map f (s_vals_of s qs).
  Proof using.
    induction qs as [|a qs IH]; intros H; [done|]. unfold s_vals_of in *. cbn. rewrite list_lookup_imap. destruct (ss_vals s !! a) as [x|]; cbn; [|by apply IH; set_solver].
    rewrite decide_True by set_solver. f_equal. apply IH. set_solver.
  Qed.
  Lemma set_vals_out f qs ps (s : ss T) : (∀ a, a ∈ qs → a ∉ ps) → s_vals_of (set_vals f ps s) qs = s_vals_of s qs.
  Proof using.
    induction qs as [|a qs IH]; intros H; [done|]. unfold s_vals_of in *. cbn. rewrite list_lookup_imap. destruct (ss_vals s !! a) as [x|]; cbn; [|by apply IH; set_solver].
    rewrite decide_False by set_solver. f_equal. apply IH. set_solver.
  Qed.
End siter.
Theorem slist_iterators {T} (zero : T) ops rs s : s_safe_run zero ops ss0 → srun (s_spec zero) ops ss0 = Some (rs, s) →
  ∃ w, run (s_step zero) ops sworld0 = Ok (rs, w) ∧
    (* walking *)
    (∀ l p q fuel, ss_lists s !! l = Some (p ++ q) → length q ≤ fuel → sli_walk fuel (head q) w = Ok (s_vals_of s q, w)) ∧
    (* reading and writing one element *)
    (∀ l p a q v, ss_lists s !! l = Some (p ++ a :: q) → ss_vals s !! a = Some v → sli_IsValid (Some a) = true ∧ sli_Value (Some a) w = Ok (v, w) ∧
       sli_Next (Some a) w = Ok (head q, w) ∧
       ∀ x, ∃ w', sli_SetValue (Some a) x w = Ok (tt, w') ∧
         (∀ fuel, length (p ++ a :: q) ≤ fuel → s_Traversal (λ _, true) fuel l w' = Ok (s_vals_of s p ++ x :: s_vals_of s q, w')) ∧
         ∀ j qs fuel, j ≠ l → ss_lists s !! j = Some qs → length qs ≤ fuel → s_Traversal (λ _, true) fuel j w' = Ok (s_vals_of s qs, w')) ∧
    (* rewriting all elements of a list *)
    (∀ l ps f fuel, ss_lists s !! l = Some ps → length ps ≤ fuel → ∃ w', sli_map f fuel (head ps) w = Ok (tt, w') ∧
       (∀ fuel, length ps ≤ fuel → s_Traversal (λ _, true) fuel l w' = Ok (map f (s_vals_of s ps), w')) ∧
       ∀ j qs fuel, j ≠ l → ss_lists s !! j = Some qs → length qs ≤ fuel → s_Traversal (λ _, true) fuel j w' = Ok (s_vals_of s qs, w')) ∧
    (* past the end *)
    sli_IsValid None = false ∧ sli_Next None w = Ok (None, w) ∧ sli_Value None w = Panic ∧ (∀ x, sli_SetValue None x w = Ok (tt, w)) ∧
    (∀ i j, sli_Equal i (sli_Clone j) = true ↔ i = j).
Proof.
  intros Hs E. pose proof (s_history_from zero ops sworld0 ss0 srel_0 Hs) as H. rewrite E in H. destruct H as (w & E1 & H). exists w. split; [done|].
  assert (∀ xs : list T, upto (λ _, true) xs = xs) as Hup by (induction xs; cbn; congruence).
  assert (∀ (w : sworld T) s l ps fuel, srel w s → ss_lists s !! l = Some ps → length ps ≤ fuel → s_Traversal (λ _, true) fuel l w = Ok (s_vals_of s ps, w)) as Ht.
  { intros w0 s0 l ps fuel H0 Hl Hf. unfold s_Traversal, s_FrontNode, mbind_. rewrite (sl_ok w0 l _ (sr_list _ _ _ _ H0 Hl)). cbn [sbl sl_head]. unfold mret_. by rewrite (straverse_ok (λ _, true) w0 _ l [] _ H0 Hl), Hup. }
  assert (∀ qs a x, a ∉ qs → s_vals_of (MkSs (ss_lists s) (<[a := x]> (ss_vals s))) qs = s_vals_of s qs) as Hother.
  { induction qs as [|b qs IH]; intros a x Ha; [done|]. unfold s_vals_of in *. cbn. rewrite list_lookup_insert_ne by set_solver. destruct (ss_vals s !! b); [f_equal|]; apply IH; set_solver. }
  split_and!.
  - intros l p q fuel Hl Hf. by eapply sli_walk_ok.
  - intros l p a q v Hl Hv. destruct (sr_val _ _ _ _ H Hv) as (nn & Hnn & Hvv). split_and!.
    + by apply bool_decide_eq_true_2.
    + unfold sli_Value, mbind_. by rewrite (sn_ok w a nn Hnn), <-Hvv.
    + by apply (sNext_ok w s l p a q).
    + intros x. destruct (sset_val_ok zero w s a x v H Hv) as (w' & E' & H'). exists w'. split; [done|].
      destruct (sr_lists _ _ H l _ Hl) as [_ Hnd]. apply NoDup_app in Hnd as (_ & Hd & Hnd). apply NoDup_cons in Hnd as [Haq _]. split.
      * intros fuel Hf. rewrite (Ht w' _ l _ fuel H' Hl Hf). f_equal. f_equal. unfold s_vals_of at 1. rewrite omap_app. f_equal.
        -- apply (Hother p a x). intros Hin. by apply (Hd a Hin), elem_of_cons; left.
        -- cbn. rewrite list_lookup_insert by (by eapply lookup_lt_Some). f_equal. by apply (Hother q a x).
      * intros j qs fuel Hne Hj Hf. rewrite (Ht w' _ j _ fuel H' Hj Hf). f_equal. f_equal. apply Hother. intros Hin. eapply (sr_disj _ _ H j l); [done..|set_solver].
  - intros l ps f fuel Hl Hf. destruct (sr_lists _ _ H l _ Hl) as [_ Hnd].
    destruct (sli_map_ok zero f s l [] ps w s H Hl Hnd) with (fuel := fuel) as (w' & E' & H'); [|done|].
    { unfold set_vals. destruct s as [ls vs]. cbn. f_equal. symmetry. clear. apply list_eq. intros i. rewrite list_lookup_imap. destruct (vs !! i); [|done]. cbn. by rewrite decide_False by set_solver. }
    exists w'. split; [done|]. cbn [app] in H'. split.
    + intros fuel' Hf'. rewrite (Ht w' _ l ps fuel' H' Hl Hf'). by rewrite set_vals_in.
    + intros j qs fuel' Hne Hj Hf'. rewrite (Ht w' _ j qs fuel' H' Hj Hf'). rewrite set_vals_out; [done|]. intros a Ha. by eapply (sr_disj _ _ H j l).
  - done.
  - done.
  - done.
  - done.
  - intros i j. unfold sli_Equal, sli_Clone, speq. rewrite bool_decide_eq_true. naive_solver.
Qed.
Print Assumptions slist_iterators.
Example slist_iterators_example :
  let ops := [SNew; SNew; SPushBack 0 1%Z; SPushBack 0 2%Z; SPushFront 1 9%Z; SPushBack 0 3%Z] in
  s_safe_run 0%Z ops ss0 ∧
  match run (s_step 0%Z) ops sworld0 with
  | Ok (_, w) => match sli_map (Z.mul 10) 9 (Some 0) w with
                 | Ok (_, w') => (fst <$> match sli_walk 9 (Some 1) w' with Ok r => Some r | _ => None end) = Some [20%Z; 30%Z] ∧ (fst <$> match sli_walk 9 (Some 2) w' with Ok r => Some r | _ => None end) = Some [9%Z]
                 | _ => False end
  | _ => False end.
Proof.
  cbv zeta. split; [|by vm_compute]. cbn. repeat match goal with |- True => exact I | |- _ ∧ _ => split | |- is_Some (Some _) => eexists; reflexivity end.
Qed.
