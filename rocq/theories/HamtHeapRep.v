(** Which heap objects make up a trie. *)
From Verif Require Import Base HamtModel HamtHeapModel.
Open Scope nat_scope.

Lemma bind_Ok {S A B} {m : M S A} {s a s'} {f : A → M S B} : m s = Ok (a, s') → mbind_ m f s = f a s'.
Proof. unfold mbind_. by intros ->. Qed.

(** an entry of the trie: its reference, its value, the addresses of its own objects *)
Notation item T := (eref * entry T * list nat)%type.
Section rep.
  Context {T : Type}.
  Implicit Types (h : heap T) (e : eref) (t : entry T) (kvs : list (key * T)).
  Definition owns (es : list (item T)) : list nat := concat es.*2.
  Definition own_all (ess : list (list (item T))) : list nat := owns (concat ess).
  (** the pairs kvs, linked from hd on and up to out, are at the addresses ps *)
  Fixpoint seg_to h (hd : option nat) kvs (ps : list nat) (out : option nat) : Prop :=
    match kvs, ps with
    | [], [] => hd = out
    | (k, v) :: kvs, p :: ps => hd = Some p ∧ ∃ nx, h !! p = Some (OPair k v nx) ∧ seg_to h nx kvs ps out
    | _, _ => False
    end.
  Definition chain h (hd : option nat) kvs (ps : list nat) : Prop := seg_to h hd kvs ps None.
  Inductive rep_e h : eref → entry T → list (item T) → Prop :=
  | rep_kv a hash hd kvs ps : kvs ≠ [] → h !! a = Some (OKv hash hd) → chain h hd kvs ps → rep_e h (EK a) (Kv hash kvs) [(EK a, Kv hash kvs, a :: ps)]
  | rep_bm a bm pos c sl ch ess : h !! a = Some (OBit bm pos c) → h !! c = Some (OArr sl) → rep_s h sl ch ess → rep_e h (EB a) (Bm pos bm ch) ((EB a, Bm pos bm ch, [a; c]) :: concat ess)
  with rep_s h : list (option eref) → list (option (entry T)) → list (list (item T)) → Prop :=
  | rep_nil : rep_s h [] [] []
  | rep_none sl ch ess : rep_s h sl ch ess → rep_s h (None :: sl) (None :: ch) ([] :: ess)
  | rep_some e t es sl ch ess : rep_e h e t es → rep_s h sl ch ess → rep_s h (Some e :: sl) (Some t :: ch) (es :: ess).
  Scheme rep_e_ind2 := Minimality for rep_e Sort Prop with rep_s_ind2 := Minimality for rep_s Sort Prop.
  Combined Scheme rep_ind from rep_e_ind2, rep_s_ind2.

  Lemma owns_app l1 l2 : owns (l1 ++ l2) = owns l1 ++ owns l2.
  Proof. unfold owns. by rewrite fmap_app, concat_app. Qed.
  Lemma owns_cons x l : owns (x :: l) = x.2 ++ owns l.
  Proof. done. Qed.
  Lemma own_all_cons es ess : own_all (es :: ess) = owns es ++ own_all ess.
  Proof. unfold own_all. cbn [concat]. apply owns_app. Qed.
  Lemma own_all_app l1 l2 : own_all (l1 ++ l2) = own_all l1 ++ own_all l2.
  Proof. unfold own_all. by rewrite concat_app, owns_app. Qed.
  Lemma elem_concat {A} (x : A) ls : x ∈ concat ls ↔ ∃ l, l ∈ ls ∧ x ∈ l.
  Proof.
    induction ls as [|l ls IH]; cbn [concat]; [split; [by intros ?%elem_of_nil|by intros (l & ?%elem_of_nil & _)]|]. rewrite elem_of_app, IH. setoid_rewrite elem_of_cons. naive_solver.
  Qed.
  Lemma elem_owns x es : x ∈ owns es ↔ ∃ i, i ∈ es ∧ x ∈ i.2.
  Proof.
    unfold owns. rewrite elem_concat. split.
    - intros (l & (i & -> & Hi)%elem_of_list_fmap & Hx). eauto.
    - intros (i & Hi & Hx). exists i.2. split; [|done]. apply elem_of_list_fmap. eauto.
  Qed.
  Lemma seg_frame h h' hd kvs ps out : seg_to h hd kvs ps out → (∀ x, x ∈ ps → h' !! x = h !! x) → seg_to h' hd kvs ps out.
  Proof.
    revert hd ps. induction kvs as [|[k v] kvs IH]; intros hd [|p ps]; cbn; try done. intros (-> & nx & E & Hc) Hf. split; [done|].
    exists nx. split; [rewrite Hf by left; done|]. apply IH; [done|]. intros x Hx. apply Hf. by right.
  Qed.
  Lemma chain_frame h h' hd kvs ps : chain h hd kvs ps → (∀ x, x ∈ ps → h' !! x = h !! x) → chain h' hd kvs ps.
  Proof. apply seg_frame. Qed.
  Lemma rep_frame h h' : (∀ e t es, rep_e h e t es → (∀ x, x ∈ owns es → h' !! x = h !! x) → rep_e h' e t es) ∧
    (∀ sl ch ess, rep_s h sl ch ess → (∀ x, x ∈ own_all ess → h' !! x = h !! x) → rep_s h' sl ch ess).
  Proof.
    apply rep_ind.
    - intros a hash hd kvs ps Hne Ea Hc Hf. econstructor; [done|rewrite Hf by (cbn; left); done|]. eapply chain_frame; [done|]. intros x Hx. apply Hf. cbn. rewrite app_nil_r. by right.
    - intros a bm pos c sl ch ess Ea Ec Hs IH Hf. econstructor; [rewrite Hf; [done|by left]|rewrite Hf; [done|by right; left]|]. apply IH. intros x Hx. apply Hf. by do 2 right.
    - constructor.
    - intros sl ch ess _ IH Hf. constructor. apply IH. intros x Hx. apply Hf. by rewrite own_all_cons.
    - intros e t es sl ch ess He IHe Hs IHs Hf. setoid_rewrite own_all_cons in Hf. constructor; [apply IHe|apply IHs]; intros x Hx; apply Hf; apply elem_of_app; auto.
  Qed.
  Lemma rep_e_frame h h' e t es : rep_e h e t es → (∀ x, x ∈ owns es → h' !! x = h !! x) → rep_e h' e t es.
  Proof. apply (proj1 (rep_frame h h')). Qed.
  Lemma rep_s_frame h h' sl ch ess : rep_s h sl ch ess → (∀ x, x ∈ own_all ess → h' !! x = h !! x) → rep_s h' sl ch ess.
  Proof. apply (proj2 (rep_frame h h')). Qed.
  Lemma chain_lt h hd kvs ps x : chain h hd kvs ps → x ∈ ps → x < length h.
  Proof.
    unfold chain.
    revert hd ps. induction kvs as [|[k v] kvs IH]; intros hd [|p ps]; cbn; try done; [by intros _ ?%elem_of_nil|]. intros (-> & nx & E & Hc) [->|Hx]%elem_of_cons; [by eapply lookup_lt_Some|eauto].
  Qed.
  Lemma rep_lt h : (∀ e t es, rep_e h e t es → ∀ x, x ∈ owns es → x < length h) ∧ (∀ sl ch ess, rep_s h sl ch ess → ∀ x, x ∈ own_all ess → x < length h).
  Proof.
    apply rep_ind.
    - intros a hash hd kvs ps _ Ea Hc x. unfold owns. cbn. rewrite app_nil_r. intros [->|Hx]%elem_of_cons; [by eapply lookup_lt_Some|by eapply chain_lt].
    - intros a bm pos c sl ch ess Ea Ec Hs IH x. rewrite owns_cons. cbn. intros [->|[->|Hx]%elem_of_cons]%elem_of_cons; [by eapply lookup_lt_Some..|by apply IH].
    - by intros x ?%elem_of_nil.
    - intros sl ch ess _ IH x. rewrite own_all_cons. apply IH.
    - intros e t es sl ch ess He IHe Hs IHs x. rewrite own_all_cons. intros [?|?]%elem_of_app; eauto.
  Qed.
  Lemma rep_e_lt h e t es x : rep_e h e t es → x ∈ owns es → x < length h.
  Proof. intros H. by apply (proj1 (rep_lt h) _ _ _ H). Qed.
  Lemma rep_s_lt h sl ch ess x : rep_s h sl ch ess → x ∈ own_all ess → x < length h.
  Proof. intros H. by apply (proj2 (rep_lt h) _ _ _ H). Qed.

  Lemma rep_s_len h sl ch ess : rep_s h sl ch ess → length sl = length ch ∧ length ess = length ch.
  Proof. induction 1; cbn; lia. Qed.
  Lemma rep_s_lookup h sl ch ess i t : rep_s h sl ch ess → ch !! i = Some (Some t) → ∃ e es, sl !! i = Some (Some e) ∧ ess !! i = Some es ∧ rep_e h e t es.
  Proof.
    intros H. revert i. induction H as [|sl ch ess _ IH|e t' es sl ch ess He _ IH]; intros [|i]; cbn; try done; [by apply IH| |by apply IH]. intros [= ->]. eauto.
  Qed.
  Lemma rep_s_lookup_l h sl ch ess i e : rep_s h sl ch ess → sl !! i = Some (Some e) → ∃ t es, ch !! i = Some (Some t) ∧ ess !! i = Some es ∧ rep_e h e t es.
  Proof.
    intros H. revert i. induction H as [|sl ch ess _ IH|e' t' es sl ch ess He _ IH]; intros [|i]; cbn; try done; [by apply IH| |by apply IH]. intros [= ->]. eauto.
  Qed.
  Lemma rep_s_update h sl ch ess i e t es : rep_s h sl ch ess → rep_e h e t es → rep_s h (<[i := Some e]> sl) (<[i := Some t]> ch) (<[i := es]> ess).
  Proof. intros H He. revert i. induction H as [|sl ch ess H IH|e' t' es' sl ch ess He' H IH]; intros [|i]; cbn; constructor; auto. Qed.
  Lemma rep_s_remove h sl ch ess i : rep_s h sl ch ess → rep_s h (<[i := None]> sl) (<[i := None]> ch) (<[i := []]> ess).
  Proof. intros H. revert i. induction H as [|sl ch ess H IH|e' t' es' sl ch ess He' H IH]; intros [|i]; cbn; constructor; auto. Qed.
  Lemma rep_s_nones h n : rep_s h (replicate n None) (replicate n None) (replicate n []).
  Proof. induction n; cbn; by constructor. Qed.
  Lemma rep_s_drop h sl ch ess i : rep_s h sl ch ess → rep_s h (drop i sl) (drop i ch) (drop i ess).
  Proof. intros H. revert i. induction H; intros [|i]; cbn; auto; by constructor. Qed.
  (** the references of an entry are those of its first item *)
  Lemma rep_e_head h e t es : rep_e h e t es → ∃ o r, es = (e, t, o) :: r.
  Proof. by destruct 1; eauto. Qed.

  Lemma own_all_at ess i es : ess !! i = Some es → own_all ess ≡ₚ owns es ++ own_all (take i ess) ++ own_all (drop (S i) ess).
  Proof. intros E. rewrite <-(take_drop_middle _ _ _ E) at 1. rewrite own_all_app, own_all_cons. solve_Permutation. Qed.
  Lemma own_all_upd ess i es es' : ess !! i = Some es → own_all (<[i := es']> ess) ≡ₚ owns es' ++ own_all (take i ess) ++ own_all (drop (S i) ess).
  Proof. intros E. rewrite insert_take_drop by (by eapply lookup_lt_Some). rewrite own_all_app, own_all_cons. solve_Permutation. Qed.
  Lemma upd_nodup ess i es es' : ess !! i = Some es → NoDup (own_all ess) → NoDup (owns es') → (∀ x, x ∈ owns es' → x ∈ owns es ∨ x ∉ own_all ess) → NoDup (own_all (<[i := es']> ess)).
  Proof.
    intros E Hn Hn' Hx. rewrite (own_all_upd _ _ _ _ E). pose proof Hn as Hm. rewrite (own_all_at _ _ _ E) in Hm. apply NoDup_app in Hm as (H1 & H2 & H3).
    apply NoDup_app. split_and!; [done| |done]. intros x [Hi|Hi]%Hx; [by apply H2|]. intros Hr. apply Hi. rewrite (own_all_at _ _ _ E). apply elem_of_app. by right.
  Qed.
  Lemma own_at ess i es x : ess !! i = Some es → x ∈ owns es → x ∈ own_all ess.
  Proof. intros E Hx. rewrite (own_all_at _ _ _ E). apply elem_of_app. by left. Qed.
  Lemma own_upd_sub ess i es es' x : ess !! i = Some es → x ∈ own_all (<[i := es']> ess) → x ∈ owns es' ∨ x ∈ own_all ess.
  Proof. intros E. rewrite (own_all_upd _ _ _ _ E), (own_all_at _ _ _ E), !elem_of_app. tauto. Qed.
  (** what is at another place is not among the objects of place i *)
  Lemma own_disj ess i j es es' x : NoDup (own_all ess) → ess !! i = Some es → ess !! j = Some es' → i ≠ j → x ∈ owns es → x ∈ owns es' → False.
  Proof.
    intros Hn Ei Ej Hij Hx Hx'. rewrite (own_all_at _ _ _ Ei) in Hn. apply NoDup_app in Hn as (_ & H & _). apply (H _ Hx). rewrite <-own_all_app. unfold own_all. apply elem_owns in Hx' as (it & Hit & Hx').
    apply elem_owns. exists it. split; [|done]. apply elem_concat. exists es'. split; [|done]. apply elem_of_app. destruct (decide (j < i)).
    - left. apply elem_of_list_lookup. exists j. by rewrite lookup_take.
    - right. apply elem_of_list_lookup. exists (j - S i). rewrite lookup_drop. by replace (S i + (j - S i)) with j by lia.
  Qed.

  (** reads *)
  Lemma rdB_eq h a b p c : h !! a = Some (OBit b p c) → rdB a h = Ok (b, p, c, h).
  Proof. unfold rdB. by intros ->. Qed.
  Lemma rdA_eq h a sl : h !! a = Some (OArr sl) → rdA a h = Ok (sl, h).
  Proof. unfold rdA. by intros ->. Qed.
  Lemma rdK_eq h a x l : h !! a = Some (OKv x l) → rdK a h = Ok (x, l, h).
  Proof. unfold rdK. by intros ->. Qed.
  Lemma rdP_eq h a k v n : h !! a = Some (OPair k v n) → rdP a h = Ok (k, v, n, h).
  Proof. unfold rdP. by intros ->. Qed.
  Lemma slot_eq h c sl i oe : h !! c = Some (OArr sl) → sl !! i = Some oe → slot c i h = Ok (oe, h).
  Proof. intros E Ei. unfold slot. rewrite (bind_Ok (rdA_eq _ _ _ E)), Ei. done. Qed.
  Lemma setslot_eq h c sl i oe : h !! c = Some (OArr sl) → i < length sl → setslot c i oe h = Ok (tt, <[c := OArr (<[i := oe]> sl)]> h).
  Proof. intros E Ei. unfold setslot. rewrite (bind_Ok (rdA_eq _ _ _ E)), decide_True by done. done. Qed.
  Lemma h_index_eq h b bm p c bp : h !! b = Some (OBit bm p c) → h_index b bp h = Ok (index bm bp, h).
  Proof. intros E. unfold h_index. by rewrite (bind_Ok (rdB_eq _ _ _ _ _ E)). Qed.
  Lemma bitposnum_eq h e t es d : rep_e h e t es → h_bitposnum d e h = Ok (bitposnum d t, h).
  Proof. intros [a hash hd kvs ps _ E _|a bm pos c sl ch ess E _ _]; cbn [h_bitposnum bitposnum]; [by rewrite (bind_Ok (rdK_eq _ _ _ _ E))|by rewrite (bind_Ok (rdB_eq _ _ _ _ _ E))]. Qed.

  (** the search of a chain *)
  Lemma pfind_spec h k kvs : ∀ f hd ps pre, chain h hd kvs ps → length ps ≤ f →
    match find_kv k kvs with
    | None => pfind f k hd pre h = Ok (None, h)
    | Some v => ∃ L R pl p pr nx, kvs = L ++ (k, v) :: R ∧ ps = pl ++ p :: pr ∧ length L = length pl ∧ k ∉ L.*1 ∧ h !! p = Some (OPair k v nx) ∧ chain h nx R pr ∧
        pfind f k hd pre h = Ok (Some (p, match last pl with Some x => Some x | None => pre end), h)
    end.
  Proof.
    induction kvs as [|[k' v'] kvs IH]; intros f hd [|p ps] pre; unfold chain; cbn [seg_to find_kv]; try done; [intros -> _; by destruct f|].
    intros (-> & nx & E & Hc) Hl. cbn in Hl. destruct f as [|f]; [lia|]. cbn [pfind]. rewrite (bind_Ok (rdP_eq _ _ _ _ _ E)). cbn [fst snd]. case_bool_decide as Hk.
    - subst k'. exists [], kvs, [], p, ps, nx. split_and!; try done. by intros ?%elem_of_nil.
    - specialize (IH f nx ps (Some p) Hc ltac:(lia)). destruct (find_kv k kvs) as [v|]; [|done].
      destruct IH as (L & R & pl & q & pr & nx' & -> & -> & Hll & HL & E' & Hc' & ->). exists ((k', v') :: L), R, (p :: pl), q, pr, nx'. split_and!; try done.
      + cbn. by f_equal.
      + cbn. intros [->|?]%elem_of_cons; done.
      + destruct pl as [|y pl] using rev_ind; [done|]. clear. rewrite app_comm_cons, !last_snoc. done.
  Qed.
  Lemma chain_len h hd kvs ps : chain h hd kvs ps → length kvs = length ps.
  Proof. unfold chain. revert hd ps. induction kvs as [|[k v] kvs IH]; intros hd [|p ps]; cbn; try done. intros (_ & nx & _ & H). by rewrite (IH _ _ H). Qed.
  Lemma chain_fit h hd kvs ps : chain h hd kvs ps → NoDup ps → length ps ≤ length h.
  Proof.
    intros Hc Hn. rewrite <-(seq_length (length h) 0). apply submseteq_length, NoDup_submseteq; [done|]. intros x Hx. apply elem_of_seq. pose proof (chain_lt _ _ _ _ _ Hc Hx). lia.
  Qed.
  Lemma search_spec h k kvs hd ps : chain h hd kvs ps → NoDup ps →
    match find_kv k kvs with
    | None => h_search k hd h = Ok (None, h)
    | Some v => ∃ L R pl p pr nx, kvs = L ++ (k, v) :: R ∧ ps = pl ++ p :: pr ∧ length L = length pl ∧ k ∉ L.*1 ∧ h !! p = Some (OPair k v nx) ∧ chain h nx R pr ∧
        h_search k hd h = Ok (Some (p, last pl), h)
    end.
  Proof.
    intros Hc Hn. pose proof (pfind_spec h k kvs (length h) hd ps None Hc (chain_fit _ _ _ _ Hc Hn)) as H. unfold h_search. destruct (find_kv k kvs) as [v|]; [|done].
    destruct H as (L & R & pl & p & pr & nx & ? & ? & ? & ? & ? & ? & H). exists L, R, pl, p, pr, nx. split_and!; try done. rewrite H. by destruct (last pl).
  Qed.
  Lemma update_split k v (L R : list (key * T)) v' : k ∉ L.*1 → update_kv k v (L ++ (k, v') :: R) = Some (L ++ (k, v) :: R).
  Proof.
    induction L as [|[k1 v1] L IH]; cbn [app update_kv]; [by rewrite bool_decide_true|]. cbn. intros [Hk HL]%not_elem_of_cons. rewrite bool_decide_false by congruence. by rewrite IH.
  Qed.
  Lemma update_none k v (l : list (key * T)) : find_kv k l = None → update_kv k v l = None.
  Proof. induction l as [|[k1 v1] l IH]; cbn; [done|]. case_bool_decide; [done|]. intros H'. by rewrite IH. Qed.
  Lemma unlink_split k (L R : list (key * T)) v : k ∉ L.*1 → unlink k (L ++ (k, v) :: R) = Some (L ++ R).
  Proof.
    induction L as [|[k1 v1] L IH]; cbn [app unlink]; [by rewrite bool_decide_true|]. cbn. intros [Hk HL]%not_elem_of_cons. rewrite bool_decide_false by congruence. by rewrite IH.
  Qed.
  Lemma unlink_none k (l : list (key * T)) : find_kv k l = None → unlink k l = None.
  Proof. induction l as [|[k1 v1] l IH]; cbn; [done|]. case_bool_decide; [done|]. intros H'. by rewrite IH. Qed.
  Lemma seg_app h hd L R pl pr out : length L = length pl → seg_to h hd (L ++ R) (pl ++ pr) out ↔ ∃ mid, seg_to h hd L pl mid ∧ seg_to h mid R pr out.
  Proof.
    revert hd pl. induction L as [|[k v] L IH]; intros hd [|p pl]; cbn [app length seg_to]; intros Hl; try done; [naive_solver|]. injection Hl as Hl. split.
    - intros (-> & nx & E & H). apply IH in H as (mid & H1 & H2); [|done]. naive_solver.
    - intros (mid & (-> & nx & E & H1) & H2). split; [done|]. exists nx. split; [done|]. apply IH; [done|]. eauto.
  Qed.
  Lemma seg_head h hd kvs ps out : seg_to h hd kvs ps out → hd = match ps with [] => out | p :: _ => Some p end.
  Proof. destruct kvs as [|[k v] kvs], ps as [|p ps]; cbn; try done. by intros [-> _]. Qed.
End rep.
