(** Property C93: the order of enumeration of a Hamt. *)
From Coq Require Import Sorting.Sorted.
From Verif Require Import Base History HamtModel HamtSpec HamtProofs HamtProps HamtOrderSpec BloomRateProps.
Open Scope N_scope.

Lemma digit_posf h d : digit h d = posf h d.
Proof. by rewrite posf_div. Qed.

Section canon.
  Context {T : Type} (hf : key → N).
  Local Notation entry := (entry T).
  Local Notation slots := (list (option entry)).
  Implicit Types (sl : list (N * entry)).

  Lemma elem_flat_es sl x : x ∈ flat (es sl) ↔ ∃ p e, (p, e) ∈ sl ∧ x ∈ eflat e.
  Proof.
    induction sl as [|[p e] sl IH]; [split; [intros H; by apply elem_of_nil in H | intros (? & ? & H & _); by apply elem_of_nil in H]|].
    change (es ((p, e) :: sl)) with (Some e :: es sl). rewrite flat_cons, elem_of_app, IH. split.
    - intros [H|(q & e' & H & H')]; [exists p, e; split; [by left|done] | exists q, e'; split; [by right|done]].
    - intros (q & e' & H & H'). apply elem_of_cons in H as [H|H]; [injection H as -> ->; by left | right; by exists q, e'].
  Qed.
  Lemma slot_nonempty child d pre p (e : entry) : okslot hf child d pre (p, e) → ∃ x, x ∈ eflat e.
  Proof.
    intros [_ H]. destruct e as [h kvs|q bm ch]; cbn [snd] in H.
    - destruct H as ((_ & Hne & _) & _). destruct kvs as [|x kvs]; [done|]. exists x. cbn. by left.
    - destruct H as (_ & _ & x & y & Hx & _). exists x. by rewrite eflat_Bm.
  Qed.
  Lemma sorted_ext (l l' : list N) : StronglySorted N.lt l → StronglySorted N.lt l' → (∀ i, i ∈ l ↔ i ∈ l') → l = l'.
  Proof.
    revert l'. induction l as [|x l IH]; intros l' Hs Hs' He.
    - destruct l' as [|y l']; [done|]. assert (y ∈ []) as H by (apply He; by left). by apply elem_of_nil in H.
    - destruct l' as [|y l']; [assert (x ∈ []) as H by (apply He; by left); by apply elem_of_nil in H|].
      apply StronglySorted_inv in Hs as [Hs Hx]. apply StronglySorted_inv in Hs' as [Hs' Hy]. rewrite Forall_forall in Hx, Hy.
      assert (x = y) as ->. { assert (x ∈ y :: l') as H1 by (apply He; by left). assert (y ∈ x :: l) as H2 by (apply He; by left). apply elem_of_cons in H1 as [->|H1]; [done|]. apply elem_of_cons in H2 as [->|H2]; [done|]. specialize (Hx _ H2). specialize (Hy _ H1). lia. }
      f_equal. apply IH; [done|done|]. intros i. split; intros Hi.
      + assert (i ∈ y :: l') as H by (apply He; by right). apply elem_of_cons in H as [->|H]; [|done]. specialize (Hx _ Hi). lia.
      + assert (i ∈ y :: l) as H by (apply He; by right). apply elem_of_cons in H as [->|H]; [|done]. specialize (Hy _ Hi). lia.
  Qed.
  Lemma slots_ext sl sl' : sl.*1 = sl'.*1 → (∀ p e e', (p, e) ∈ sl → (p, e') ∈ sl' → e = e') → sl = sl'.
  Proof.
    revert sl'. induction sl as [|[p e] sl IH]; intros [|[p' e'] sl'] E H; cbn in E; try done. injection E as -> E. rewrite (H p' e e') by (by left). f_equal. apply IH; [done|].
    intros q a a' Ha Ha'. apply (H q); by right.
  Qed.
  (** the trie is determined by its contents when no two keys have the same hash *)
  Lemma canon f : ∀ d pre bm (ch : slots) bm' (ch' : slots), wf hf f d pre bm ch → wf hf f d pre bm' ch' → pre < pw d → (∀ x, x ∈ flat ch ↔ x ∈ flat ch') →
    (∀ x y : key * T, x ∈ flat ch → y ∈ flat ch → hf x.1 = hf y.1 → x.1 = y.1) → bm = bm' ∧ ch = ch'.
  Proof.
    induction f as [|f IH]; intros d pre bm ch bm' ch' Hw Hw' Hpre He Hno; [done|]. destruct Hw as (sl & Hn & -> & Hok), Hw' as (sl' & Hn' & -> & Hok').
    assert (Hnd : NoDup sl.*1) by (by apply sorted_nodup, Hn). assert (Hnd' : NoDup sl'.*1) by (by apply sorted_nodup, Hn').
    assert (Hsl : ∀ (s : list (N * entry)) p e, NoDup s.*1 → Forall (okslot hf (λ p, wf hf f (S d) (pre + p * pw d)) d pre) s → (p, e) ∈ s → ∀ x, x ∈ eflat e ↔ x ∈ flat (es s) ∧ posf (hf x.1) d = p).
    { intros s p e Hs Hos Hin x. rewrite Forall_forall in Hos. split.
      - intros Hx. split; [apply elem_flat_es; by exists p, e|]. by destruct (slot_keys hf f d pre p e (Hos _ Hin) Hpre x Hx).
      - intros [Hx Hp]. apply elem_flat_es in Hx as (q & e' & Hin' & Hx). destruct (slot_keys hf f d pre q e' (Hos _ Hin') Hpre x Hx) as [Hq _].
        assert (q = p) as -> by congruence. replace e with e'; [done|]. clear -Hs Hin Hin'. apply elem_of_list_lookup in Hin as [i Hi], Hin' as [j Hj].
        assert (i = j) as -> by (eapply (NoDup_lookup _ _ _ p Hs); rewrite list_lookup_fmap; [by rewrite Hi | by rewrite Hj]). congruence. }
    assert (Hfst : sl.*1 = sl'.*1).
    { apply sorted_ext; [apply Hn|apply Hn'|]. rewrite Forall_forall in Hok, Hok'. intros i. rewrite !elem_of_list_fmap. split.
      - intros ([p e] & -> & Hin). destruct (slot_nonempty _ _ _ _ _ (Hok _ Hin)) as [x Hx]. apply (Hsl sl p e Hnd) in Hx as [Hx Hp]; [|by apply Forall_forall|done]. apply He in Hx.
        apply elem_flat_es in Hx as (q & e' & Hin' & Hx). destruct (slot_keys hf f d pre q e' (Hok' _ Hin') Hpre x Hx) as [Hq _]. exists (q, e'). split; [cbn; congruence|done].
      - intros ([p e] & -> & Hin). destruct (slot_nonempty _ _ _ _ _ (Hok' _ Hin)) as [x Hx]. apply (Hsl sl' p e Hnd') in Hx as [Hx Hp]; [|by apply Forall_forall|done]. apply He in Hx.
        apply elem_flat_es in Hx as (q & e' & Hin' & Hx). destruct (slot_keys hf f d pre q e' (Hok _ Hin') Hpre x Hx) as [Hq _]. exists (q, e'). split; [cbn; congruence|done]. }
    split.
    { apply N.bits_inj. intros i. destruct Hn as [Hb _], Hn' as [Hb' _]. apply eq_true_iff_eq. rewrite (Hb i), (Hb' i). by rewrite Hfst. }
    f_equal. apply slots_ext; [done|]. intros p e e' Hin Hin'.
    assert (Hee : ∀ x, x ∈ eflat e ↔ x ∈ eflat e'). { intros x. rewrite (Hsl sl p e Hnd Hok Hin), (Hsl sl' p e' Hnd' Hok' Hin'). by rewrite He. }
    assert (Hsub : ∀ x, x ∈ eflat e → x ∈ flat (es sl)). { intros x Hx. by apply (Hsl sl p e Hnd Hok Hin) in Hx as [? _]. }
    rewrite Forall_forall in Hok, Hok'. specialize (Hok _ Hin) as Hs. specialize (Hok' _ Hin') as Hs'. destruct Hs as [_ Hs], Hs' as [_ Hs']. cbn [fst snd] in *.
    destruct e as [h kvs|q b c], e' as [h' kvs'|q' b' c'].
    - destruct Hs as ((_ & Hne & Hd & Hh) & _), Hs' as ((_ & Hne' & Hd' & Hh') & _). cbn in Hee. 
      assert (Hone : ∀ l : list (key * T), l ≠ [] → NoDup l.*1 → (∀ x, x ∈ l → x ∈ kvs) → ∃ x, l = [x]).
      { intros [|x [|y l]] Hl Hnl Hin2; [done|by exists x|]. exfalso. cbn in Hnl. apply NoDup_cons in Hnl as [Hnx _]. apply Hnx.
        assert (x.1 = y.1) as ->; [|by left]. apply Hno; [apply Hsub, Hin2; by left|apply Hsub, Hin2; right; by left|]. rewrite !Hh; [done|apply Hin2; right; by left|apply Hin2; by left]. }
      destruct (Hone kvs Hne Hd ltac:(done)) as [x ->]. destruct (Hone kvs' Hne' Hd' ltac:(intros y; apply Hee)) as [x' ->].
      assert (x' = x) as -> by (apply elem_of_list_singleton, Hee; by left). f_equal. rewrite <- (Hh x), <- (Hh' x) by (by left). done.
    - exfalso. destruct Hs as ((_ & _ & _ & Hh) & _), Hs' as (_ & _ & x & y & Hx & Hy & Hxy). rewrite eflat_Bm in Hee. cbn in Hee. apply Hxy. rewrite !Hh; [done| |]; by apply Hee.
    - exfalso. destruct Hs' as ((_ & _ & _ & Hh) & _), Hs as (_ & _ & x & y & Hx & Hy & Hxy). rewrite eflat_Bm in Hee. cbn in Hee. apply Hxy. rewrite !Hh; [done| |]; by apply Hee.
    - destruct Hs as (-> & Hw & _), Hs' as (-> & Hw' & _). rewrite !eflat_Bm in Hee. rewrite eflat_Bm in Hsub. destruct (IH (S d) (pre + p * pw d) b c b' c' Hw Hw') as [-> ->]; [|done| |done].
      + assert (p < 64) as Hp by (apply Hn; apply elem_of_list_fmap; by exists (p, Bm p b c)). rewrite pw_S. nia.
      + intros x y Hx Hy. apply Hno; by apply Hsub.
  Qed.
  (** the listing is in the order of digits *)
  Lemma flat_order f : ∀ d pre bm (ch : slots), wf hf f d pre bm ch → pre < pw d → ∀ i j (x y : key * T), (i < j)%nat → flat ch !! i = Some x → flat ch !! j = Some y →
    hf x.1 = hf y.1 ∨ ∃ e, (d <= e)%nat ∧ (∀ i, (d <= i < e)%nat → posf (hf x.1) i = posf (hf y.1) i) ∧ posf (hf x.1) e < posf (hf y.1) e.
  Proof.
    induction f as [|f IH]; intros d pre bm ch Hw Hpre; [done|]. destruct Hw as (sl & (_ & Hs & H64) & -> & Hok). clear bm.
    induction sl as [|[p e] sl IHsl]; intros i j x y Hij Hx Hy; [done|]. apply Forall_cons in Hok as [He Hok]. cbn [fmap list_fmap fst] in *. apply StronglySorted_inv in Hs as [Hs Hp].
    change (es ((p, e) :: sl)) with (Some e :: es sl) in *. rewrite flat_cons in Hx, Hy. rewrite Forall_forall in Hp.
    apply lookup_app_Some in Hx as [Hx|[Hix Hx]]; apply lookup_app_Some in Hy as [Hy|[Hjy Hy]].
    - destruct e as [h kvs|q b c].
      + left. destruct He as [_ ((_ & _ & _ & Hh) & _)]. cbn in Hx, Hy. rewrite !Hh; [done| |]; by eapply elem_of_list_lookup_2.
      + destruct He as [Hq (E & Hw & _)]. cbn [fst] in *. subst q. rename p into q. rewrite eflat_Bm in Hx, Hy. destruct (IH (S d) _ _ _ Hw ltac:(rewrite pw_S; nia) i j x y Hij Hx Hy) as [E|(e & Hde & Heq & Hlt)]; [by left|right].
        exists e. split; [lia|]. split; [|done]. intros k Hk. destruct (decide (k = d)) as [->|]; [|apply Heq; lia].
        assert (Hkk : ∀ z k, flat c !! k = Some z → posf (hf z.1) d = q).
        { intros z kk Hz. apply elem_of_list_lookup_2 in Hz. destruct (wf_keys hf _ _ _ _ _ Hw ltac:(rewrite pw_S; nia) z Hz) as [_ Hl]. by apply low_S_inv in Hl as [_ Hl]. }
        rewrite (Hkk x i Hx), (Hkk y j Hy). done.
    - right. exists d. split; [done|]. split; [intros k Hk; lia|]. apply elem_of_list_lookup_2 in Hx, Hy. destruct (slot_keys hf f d pre p e He Hpre x Hx) as [-> _]. apply Hp. exact (slots_keys hf f d pre sl Hok Hpre y Hy).
    - apply lookup_lt_Some in Hy. lia.
    - apply (IHsl Hs) with (i - length (eflat e))%nat (j - length (eflat e))%nat; try done; [|lia]. intros k Hk. apply H64. by right.
  Qed.
End canon.

Section props.
  (** any function from byte strings to 64-bit words *)
  Context {T W : Type} (hf : key → N) (Hhf : ∀ k, is_bytes k → hf k < 2 ^ 64).
  Implicit Types (m : gmap key T) (ops : list (hm_op T W)).
  Notation after ops := (foldl hm_after (∅ : gmap key T) ops).
  Lemma keys_flat (h : hamt T) m : holds hf h m → hm_Keys h = Ok (flat h.2).*1.
  Proof.
    intros [Hw Hc]. unfold hm_Keys, levels. erewrite bn_traversal_ok; [|done|exact Hw]. f_equal.
    assert (∀ (l : list (key * T)) acc, visit_until (λ (k : key) (_ : T) (ks : list key), (true, ks ++ [k])) l acc = acc ++ l.*1) as Hg.
    { induction l as [|[k v] l IH]; intros acc; cbn [visit_until fst snd fmap list_fmap]; [by rewrite app_nil_r|]. rewrite IH, <- app_assoc. done. }
    apply Hg.
  Qed.
  (** after every history, Keys lists the keys by the digits of their hashes *)
  Theorem hamt_keys_in_order ops : Forall hm_op_ok ops →
    ∃ rs h l, run (hm_step hf) (ops ++ [HKeys]) hm_new = Ok (rs, h) ∧ last rs = Some (HKeyList l) ∧ in_order hf l.
  Proof.
    intros Hok. destruct (run_ok hf Hhf ops hm_new ∅ Hok (holds_new hf)) as (rs & h & E & Hh & _). exists (rs ++ [HKeyList (flat h.2).*1]), h, (flat h.2).*1.
    rewrite (run_snoc _ _ _ _ _ _ E). cbn [hm_step]. rewrite (keys_flat h _ Hh). cbn [bindr]. split; [done|]. split; [by rewrite last_snoc|].
    intros i j x y Hij Hx Hy. rewrite list_lookup_fmap in Hx, Hy. apply fmap_Some in Hx as (a & Ha & ->). apply fmap_Some in Hy as (b & Hb & ->). destruct Hh as [Hw _].
    destruct (flat_order hf 11 0 0 _ _ Hw ltac:(done) i j a b Hij Ha Hb) as [H|(e & _ & H1 & H2)]; [by left|right]. exists e. split; [|by rewrite !digit_posf]. intros k Hk. rewrite !digit_posf. apply H1. lia.
  Qed.
  (** C93, the true part: if no two present keys have the same hash, two histories that leave the same map leave the same Hamt;
      whatever is called afterwards, enumerations and interrupted traversals included, returns the same *)
  Theorem hamt_history_independent_partial ops ops' later : Forall hm_op_ok ops → Forall hm_op_ok ops' → Forall hm_op_ok later → after ops = after ops' → no_collision hf (after ops) →
    ∃ rs rs' rs2 h, run (hm_step hf) (ops ++ later) hm_new = Ok (rs ++ rs2, h) ∧ run (hm_step hf) (ops' ++ later) hm_new = Ok (rs' ++ rs2, h) ∧
      length rs = length ops ∧ length rs' = length ops' ∧ length rs2 = length later.
  Proof.
    intros H1 H2 H3 He Hno. destruct (run_ok hf Hhf ops hm_new ∅ H1 (holds_new hf)) as (rs & h & E & Hh & Hl & _). destruct (run_ok hf Hhf ops' hm_new ∅ H2 (holds_new hf)) as (rs' & h' & E' & Hh' & Hl' & _).
    assert (h = h') as <-.
    { rewrite <- He in Hh'. destruct Hh as [Hw Hc], Hh' as [Hw' Hc']. destruct h as [bm ch], h' as [bm' ch']. cbn [fst snd] in *. destruct (canon hf 11 0 0 bm ch bm' ch' Hw Hw') as [-> ->]; [done| | |done].
      - intros [k v]. by rewrite Hc, Hc'.
      - intros [k v] [k' v'] Hx Hy Hk. apply Hc in Hx. apply Hc in Hy. cbn in *. apply Hno; [by eexists|by eexists|done]. }
    destruct (run_ok hf Hhf later h _ H3 Hh) as (rs2 & h2 & E2 & _ & Hl2 & _). exists rs, rs', rs2, h2.
    assert (Happ : ∀ o1 s r1 s1, run (hm_step hf) o1 s = Ok (r1, s1) → run (hm_step hf) (o1 ++ later) s = match run (hm_step hf) later s1 with Ok (r2, s2) => Ok (r1 ++ r2, s2) | Panic => Panic | Fuel => Fuel end).
    { clear. induction o1 as [|o o1 IH]; intros s r1 s1 E; cbn in *; [injection E as <- <-; by destruct (run _ later s) as [[]| |]|]. destruct (hm_step hf o s) as [[r s']| |]; try done.
      destruct (run (hm_step hf) o1 s') as [[rr ss]| |] eqn:E1; try done. injection E as <- <-. rewrite (IH _ _ _ E1). by destruct (run (hm_step hf) later ss) as [[]| |]. }
    rewrite (Happ _ _ _ _ E), (Happ _ _ _ _ E'), E2. done.
  Qed.
End props.

(** two byte strings with the same FNV-1 hash *)
Lemma not_inj {A B} `{EqDecision A, EqDecision B} (f : A → B) (L : list A) : (∃ x y, x ∈ L ∧ y ∈ L ∧ x ≠ y ∧ f x = f y) ∨ (∀ x y, x ∈ L → y ∈ L → f x = f y → x = y).
Proof.
  induction L as [|a L [(x & y & Hx & Hy & Hne & E)|IH]]; [right; intros x y H; by apply elem_of_nil in H|left; exists x, y; split_and!; try done; by right|].
  destruct (decide (Exists (λ b, f a = f b ∧ a ≠ b) L)) as [H|H].
  - left. apply Exists_exists in H as (b & Hb & E & Hne). exists a, b. split_and!; try done; [by left|by right].
  - right. assert (Hn : ∀ b, b ∈ L → f a = f b → a = b). { intros b Hb E. destruct (decide (a = b)); [done|]. exfalso. apply H, Exists_exists. by exists b. }
    intros x y Hx Hy E. apply elem_of_cons in Hx as [->|Hx], Hy as [->|Hy]; [done|by apply Hn|symmetry; by apply Hn|by apply IH].
Qed.
Lemma fnv1_collision : ∃ k1 k2, k1 ≠ k2 ∧ is_bytes k1 ∧ is_bytes k2 ∧ fnv1 k1 = fnv1 k2.
Proof.
  destruct (range 256) as (X & HX1 & HX2 & HX3). destruct (range (2 ^ 64)) as (K & HK1 & _ & HK3). set (L := seqs X 9).
  assert (HL : ∀ k, k ∈ L → is_bytes k). { intros k Hk. apply elem_of_seqs in Hk as [_ Hk]. eapply Forall_impl; [exact Hk|]. intros b. apply HX3. }
  destruct (not_inj fnv1 L) as [(x & y & Hx & Hy & Hne & E)|H]; [exists x, y; split_and!; auto|]. exfalso.
  assert (length L <= length K)%nat as Hle. { apply (inj_count fnv1); [by apply seqs_NoDup|done|]. intros x Hx. apply HK3, fnv1_64, HL, Hx. }
  assert (N.of_nat (length L) <= N.of_nat (length K)) as Hle' by lia. unfold L in Hle'. rewrite seqs_length, HX1, HK1 in Hle'. by vm_compute in Hle'.
Qed.
Lemma insert_two (hf : key → N) (k1 k2 : key) : k1 ≠ k2 → hf k1 = hf k2 →
  ∃ rs h, run (hm_step (T := unit) (W := unit) hf) [HInsert k1 tt; HInsert k2 tt; HKeys] hm_new = Ok (rs, h) ∧ last rs = Some (HKeyList [k2; k1]).
Proof.
  intros Hne E. set (h := hf k1) in *. assert (Hp : posf h 0 < 64) by apply posf_lt.
  assert (Hall : ∀ p, p < 64 → N.land (bitposf p) 0 = 0 ∧ index (N.lor 0 (bitposf p)) (bitposf p) = 0%nat ∧ (N.land (bitposf p) (N.lor 0 (bitposf p)) =? 0) = false).
  { assert (forallb (λ n : nat, let p := N.of_nat n in (N.land (bitposf p) 0 =? 0) && (index (N.lor 0 (bitposf p)) (bitposf p) =? 0)%nat && negb (N.land (bitposf p) (N.lor 0 (bitposf p)) =? 0)) (seq 0 64) = true) as Hf by (by vm_compute).
    rewrite forallb_forall in Hf. intros p Hp'. specialize (Hf (N.to_nat p) ltac:(apply in_seq; lia)). cbv zeta in Hf. rewrite N2Nat.id in Hf. rewrite !andb_true_iff, N.eqb_eq, Nat.eqb_eq, negb_true_iff in Hf. tauto. }
  destruct (Hall _ Hp) as (H1 & H2 & H3).
  assert (I1 : hm_Insert hf k1 tt (hm_new (T := unit)) = Ok (N.lor 0 (bitposf (posf h 0)), [Some (Kv h [(k1, tt)])])).
  { unfold hm_Insert, hm_new, levels. generalize 10%nat as f. intros f. cbn [bn_insert fst snd]. fold h. rewrite H1. cbn [N.eqb]. rewrite H2. reflexivity. }
  assert (I2 : hm_Insert hf k2 tt (N.lor 0 (bitposf (posf h 0)), [Some (Kv h [(k1, tt)])]) = Ok (N.lor 0 (bitposf (posf h 0)), [Some (Kv h [(k2, tt); (k1, tt)])])).
  { unfold hm_Insert, levels. generalize 10%nat as f. intros f. cbn [bn_insert fst snd]. rewrite <- E. rewrite H3, H2. cbn [lookup list_lookup]. rewrite N.eqb_refl. cbn [update_kv]. rewrite bool_decide_false by done. reflexivity. }
  eexists _, _. cbn [run hm_step]. rewrite I1. cbn [bindr]. rewrite I2. cbn [bindr]. split; [reflexivity|]. reflexivity.
Qed.
(** C93 is false of the code's hash function: there are two keys whose hashes are equal, and Keys lists them
    in the order opposite to the insertions *)
Theorem hamt_history_independent_refuted : ∃ k1 k2 : key, is_bytes k1 ∧ is_bytes k2 ∧
  let ops := [HInsert k1 tt; HInsert k2 tt] in let ops' := [HInsert k2 tt; HInsert k1 tt] in
  foldl hm_after (∅ : gmap key unit) ops = foldl (hm_after (W := unit)) ∅ ops' ∧
  ∃ rs rs' h h' l l', run (hm_step (W := unit) fnv1) (ops ++ [HKeys]) hm_new = Ok (rs, h) ∧ run (hm_step (W := unit) fnv1) (ops' ++ [HKeys]) hm_new = Ok (rs', h') ∧
    last rs = Some (HKeyList l) ∧ last rs' = Some (HKeyList l') ∧ l ≠ l'.
Proof.
  destruct fnv1_collision as (k1 & k2 & Hne & H1 & H2 & E). exists k1, k2. split; [done|]. split; [done|]. cbv zeta. split; [cbn; by rewrite insert_commute|].
  destruct (insert_two fnv1 k1 k2 Hne E) as (rs & h & Er & Hl). destruct (insert_two fnv1 k2 k1 (not_eq_sym Hne) (eq_sym E)) as (rs' & h' & Er' & Hl').
  exists rs, rs', h, h', [k2; k1], [k1; k2]. split_and!; try done. intros [= ? ?]. done.
Qed.
(** the hypotheses of the partial theorem: three keys, inserted in two orders, one erased and one overwritten on the way *)
Example hamt_history_independent_example :
  let ops := [HInsert [1] 1%nat; HInsert [2] 2%nat; HInsert [3] 9%nat; HErase [4]; HInsert [3] 3%nat] in
  let ops' := [HInsert [3] 3%nat; HInsert [4] 4%nat; HInsert [2] 2%nat; HErase [4]; HInsert [1] 1%nat] in
  Forall (hm_op_ok (W := unit)) ops ∧ Forall (hm_op_ok (W := unit)) ops' ∧ foldl hm_after (∅ : gmap key nat) ops = foldl hm_after ∅ ops' ∧ no_collision fnv1 (foldl hm_after (∅ : gmap key nat) ops).
Proof.
  cbv zeta. split; [repeat constructor|]. split; [repeat constructor|]. split; [cbn; apply map_eq; intros k|].
  - destruct (decide (k = [1])) as [->|]; [vm_compute; reflexivity|]. destruct (decide (k = [2])) as [->|]; [vm_compute; reflexivity|]. destruct (decide (k = [3])) as [->|]; [vm_compute; reflexivity|]. destruct (decide (k = [4])) as [->|]; [vm_compute; reflexivity|].
    repeat (first [rewrite lookup_insert_ne by congruence|rewrite lookup_delete_ne by congruence]). done.
  - intros k k'. cbn. assert (Hd : ∀ k, is_Some ((<[[3] := 3%nat]> (delete [4] (<[[3] := 9%nat]> (<[[2] := 2%nat]> (<[[1] := 1%nat]> (∅ : gmap key nat)))))) !! k) → k = [1] ∨ k = [2] ∨ k = [3]).
    { intros x Hx. destruct (decide (x = [1])) as [->|]; [by left|]. destruct (decide (x = [2])) as [->|]; [by right; left|]. destruct (decide (x = [3])) as [->|]; [by right; right|]. destruct (decide (x = [4])) as [->|]; [by destruct Hx|].
      repeat (first [rewrite lookup_insert_ne in Hx by congruence|rewrite lookup_delete_ne in Hx by congruence]). rewrite lookup_empty in Hx. by destruct Hx. }
    intros H1 H2 E. apply Hd in H1. apply Hd in H2. destruct_or! H1; destruct_or! H2; subst; try done; by vm_compute in E.
Qed.
Print Assumptions hamt_keys_in_order.
Print Assumptions hamt_history_independent_partial.
Print Assumptions hamt_history_independent_refuted.
