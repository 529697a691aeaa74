(** List facts shared by the heap and the sorting algorithms. *)
From Verif Require Import Base.
Open Scope nat_scope.

(** exchange of two elements as Go does it: both are read, then stored at i and j *)
Definition swap_res {T} (l : list T) (i j : Z) : res (list T) :=
  match idx l i with
  | Ok a => match idx l j with
            | Ok b => match upd l i b with
                      | Ok l1 => upd l1 j a
                      | Panic => Panic | Fuel => Fuel
                      end
            | Panic => Panic | Fuel => Fuel
            end
  | Panic => Panic | Fuel => Fuel
  end.

Section swap.
  Context {T : Type}.
  Implicit Types l : list T.

  Definition swapl l (i j : nat) : list T :=
    match l !! i, l !! j with
    | Some a, Some b => <[j := a]> (<[i := b]> l)
    | _, _ => l
    end.
  Lemma swap_res_ok l i j : i < length l → j < length l → swap_res l (Z.of_nat i) (Z.of_nat j) = Ok (swapl l i j).
  Proof.
    intros Hi Hj. destruct (lookup_lt_is_Some_2 l i Hi) as [a Ha]. destruct (lookup_lt_is_Some_2 l j Hj) as [b Hb].
    unfold swap_res, swapl. rewrite (idx_nat _ _ _ Ha), (idx_nat _ _ _ Hb), Ha, Hb.
    rewrite upd_nat by done. by rewrite upd_nat by (by rewrite insert_length).
  Qed.
  Lemma swapl_length l i j : length (swapl l i j) = length l.
  Proof. unfold swapl. destruct (l !! i), (l !! j); rewrite ?insert_length; done. Qed.
  Lemma swapl_lookup l i j k : i < length l → j < length l →
    swapl l i j !! k = if decide (k = j) then l !! i else if decide (k = i) then l !! j else l !! k.
  Proof.
    intros Hi Hj. destruct (lookup_lt_is_Some_2 l i Hi) as [a Ha]. destruct (lookup_lt_is_Some_2 l j Hj) as [b Hb].
    unfold swapl. rewrite Ha, Hb. destruct (decide (k = j)) as [->|].
    - by rewrite list_lookup_insert by (by rewrite insert_length).
    - rewrite list_lookup_insert_ne by done. destruct (decide (k = i)) as [->|].
      + by rewrite list_lookup_insert.
      + by rewrite list_lookup_insert_ne.
  Qed.
  Lemma insert_perm l i x y : l !! i = Some x → x :: <[i := y]> l ≡ₚ y :: l.
  Proof.
    intros H. rewrite <-(take_drop_middle l i x H) at 2.
    rewrite (insert_take_drop l i y) by (by eapply lookup_lt_Some).
    rewrite <-!Permutation_middle. apply Permutation_swap.
  Qed.
  Lemma swapl_perm l i j : swapl l i j ≡ₚ l.
  Proof.
    unfold swapl. destruct (l !! i) as [a|] eqn:Ha; [|done]. destruct (l !! j) as [b|] eqn:Hb; [|done].
    destruct (decide (i = j)) as [->|Hne].
    - rewrite list_insert_insert. simplify_eq. by rewrite list_insert_id.
    - assert (b :: <[j := a]> (<[i := b]> l) ≡ₚ b :: l) as H; [|by apply Permutation_cons_inv in H].
      rewrite (insert_perm _ j b a) by (by rewrite list_lookup_insert_ne by done).
      by apply insert_perm.
  Qed.
End swap.

(** l' is l with the positions [a, b) permuted *)
Definition perm_in {T} (a b : nat) (l l' : list T) : Prop :=
  l' ≡ₚ l ∧ ∀ k, (k < a ∨ b <= k) → l' !! k = l !! k.

Section perm_in.
  Context {T : Type}.
  Implicit Types l : list T.
  Lemma perm_in_refl a b l : perm_in a b l l.
  Proof. done. Qed.
  Lemma perm_in_trans a b l1 l2 l3 : perm_in a b l1 l2 → perm_in a b l2 l3 → perm_in a b l1 l3.
  Proof. intros [H1 H2] [H3 H4]. split; [by rewrite H3|]. intros k Hk. by rewrite H4, H2. Qed.
  Lemma perm_in_mono a b a' b' l l' : perm_in a b l l' → a' <= a → b <= b' → perm_in a' b' l l'.
  Proof. intros [H1 H2] ? ?. split; [done|]. intros k Hk. apply H2. lia. Qed.
  Lemma perm_in_length a b l l' : perm_in a b l l' → length l' = length l.
  Proof. intros [H _]. by apply Permutation_length. Qed.
  Lemma perm_in_swap a b l i j : a <= i < b → a <= j < b → b <= length l → perm_in a b l (swapl l i j).
  Proof.
    intros. split; [apply swapl_perm|]. intros k Hk. rewrite swapl_lookup by lia. by rewrite !decide_False by lia.
  Qed.
  Definition seg a b l : list T := take (b - a) (drop a l).
  Lemma seg_lookup a b l k : a + k < b → seg a b l !! k = l !! (a + k).
  Proof. intros. unfold seg. rewrite lookup_take by lia. apply lookup_drop. Qed.
  Lemma seg_length a b l : b <= length l → length (seg a b l) = b - a.
  Proof. intros. unfold seg. rewrite take_length, drop_length. lia. Qed.
  Lemma split3 a b l : a <= b → l = take a l ++ seg a b l ++ drop b l.
  Proof.
    intros. unfold seg. rewrite <-(take_drop a l) at 1. f_equal. rewrite <-(take_drop (b - a) (drop a l)) at 1.
    f_equal. rewrite drop_drop. f_equal. lia.
  Qed.
  Lemma perm_in_seg a b l l' : a <= b → perm_in a b l l' →
    seg a b l' ≡ₚ seg a b l ∧ take a l' = take a l ∧ drop b l' = drop b l.
  Proof.
    intros Hab [Hp Ho].
    assert (take a l' = take a l) as Ht.
    { apply list_eq. intros k. destruct (decide (k < a)).
      - rewrite !lookup_take by done. apply Ho. lia.
      - rewrite !lookup_take_ge by lia. done. }
    assert (drop b l' = drop b l) as Hd.
    { apply list_eq. intros k. rewrite !lookup_drop. apply Ho. lia. }
    split; [|done]. rewrite (split3 a b l), (split3 a b l') in Hp by done. rewrite Ht, Hd in Hp.
    apply Permutation_app_inv_l in Hp. by apply Permutation_app_inv_r in Hp.
  Qed.
  Lemma perm_in_forall (P : T → Prop) a b l l' : a <= b → perm_in a b l l' →
    (∀ k x, a <= k < b → l !! k = Some x → P x) → ∀ k x, a <= k < b → l' !! k = Some x → P x.
  Proof.
    intros Hab Hp H k x Hk Hx. pose proof (perm_in_length _ _ _ _ Hp) as Hlen.
    destruct (perm_in_seg a b l l' Hab Hp) as [Hs _].
    assert (x ∈ seg a b l') as Hin. { eapply (elem_of_list_lookup_2 _ (k - a)). rewrite seg_lookup by lia. rewrite <-Hx. f_equal. lia. }
    rewrite Hs in Hin. apply elem_of_list_lookup in Hin as [j Hj]. 
    assert (j < b - a). { apply lookup_lt_Some in Hj. unfold seg in Hj. rewrite take_length in Hj. lia. }
    rewrite seg_lookup in Hj by lia. eapply (H (a + j)); [lia|done].
  Qed.
End perm_in.
