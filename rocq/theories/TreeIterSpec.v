(** Ordered containers with iterators, as a client sees them: a sequence of entries, each with a number of
    its own, in ascending order of the keys; an iterator is at an entry or nowhere.  Erasing an entry
    leaves a choice: the entry's number may pass to the next entry, whose own number is then out of use
    (this is what the code does when the erased node has two children).  An iterator at a number out of use is
    stale: nothing is said about moving it, reading it or erasing through it. *)
From Verif Require Import Base RbModel RbSpec TreeIterModel.
Open Scope Z_scope.

(** what Insert does with a key that is there already *)
Inductive policy := Overwrites | Ignores | Adds.

Section spec.
  Context {K V D : Type} (cmp : K → K → Z).
  (** how Insert treats equal keys; the value it keeps (sets keep none); what is read at an entry *)
  Context (pol : policy) (kept : V → V) (seen : K → V → D).
  Notation entries := (list (nat * (K * V))).
  Record ts := MkTs { t_ents : entries; t_next : nat; t_its : list (option nat) }.
  (** the number of the first entry satisfying P *)
  Definition first_of (P : K → bool) (l : entries) : option nat := fst <$> head (suffix (λ x, P x.2.1) l).
  Definition equal_to (k : K) : K → bool := λ x, cmp k x =? 0.
  (** entry n := (k, v) put behind the entries with keys up to k *)
  Definition placed (l : entries) (n : nat) (k : K) (v : V) (l' : entries) : Prop :=
    ∃ L R, l = L ++ R ∧ l' = L ++ (n, (k, v)) :: R ∧ (∀ x, x ∈ L → cmp x.2.1 k <= 0) ∧ (∀ x, x ∈ R → cmp k x.2.1 < 0).
  (** the value of entry a replaced *)
  Definition revalued (l : entries) (a : nat) (v : V) : entries := (λ x, if decide (x.1 = a) then (a, (x.2.1, v)) else x) <$> l.
  (** entry a erased *)
  Definition removed (l : entries) (a : nat) (l' : entries) : Prop :=
    ∃ L kv R, l = L ++ (a, kv) :: R ∧ (l' = L ++ R ∨ ∃ b kv' R', R = (b, kv') :: R' ∧ l' = L ++ (a, kv') :: R').
  (** the first entries with key k erased as long as there are any *)
  Inductive all_removed (k : K) : entries → entries → Prop :=
  | all_none l : first_of (equal_to k) l = None → all_removed k l l
  | all_more l a l1 l2 : first_of (equal_to k) l = Some a → removed l a l1 → all_removed k l1 l2 → all_removed k l l2.
  (** the entries after / before a *)
  Definition after (l : entries) (a : nat) : option nat := fst <$> head (tail (suffix (λ x, bool_decide (x.1 = a)) l)).
  Definition before (l : entries) (a : nat) : option nat := after (reverse l) a.
  Definition entry_of (l : entries) (a : nat) : option (K * V) := snd <$> head (suffix (λ x, bool_decide (x.1 = a)) l).

  Definition out := ti_out D.
  Definition new_it (s : ts) (p : option nat) (x : out) (s' : ts) : Prop :=
    x = TIter (length (t_its s)) ∧ s' = MkTs (t_ents s) (t_next s) (t_its s ++ [p]).
  Definition move_it (s : ts) (i : nat) (p : option nat) (x : out) (s' : ts) : Prop :=
    x = TUnit ∧ s' = MkTs (t_ents s) (t_next s) (<[i := p]> (t_its s)).
  Definition becomes (s : ts) (l : entries) (n : nat) (x : out) (s' : ts) : Prop := x = TUnit ∧ s' = MkTs l n (t_its s).
  (** action o in s may give x and lead to s' *)
  Definition t_allows (o : ti_op K V) (s : ts) (x : out) (s' : ts) : Prop :=
    let l := t_ents s in let n := t_next s in
    match o with
    | TInsert k v =>
        match pol, first_of (equal_to k) l with
        | Overwrites, Some a => becomes s (revalued l a (kept v)) n x s'
        | Ignores, Some _ => becomes s l n x s'
        | _, _ => ∃ l', placed l n k (kept v) l' ∧ becomes s l' (S n) x s'
        end
    | TErase k => match first_of (equal_to k) l with Some a => ∃ l', removed l a l' ∧ becomes s l' n x s' | None => becomes s l n x s' end
    | TEraseAll k => ∃ l', all_removed k l l' ∧ becomes s l' n x s'
    | TEraseIt i => ∃ p, t_its s !! i = Some p ∧ match p with Some a => ∃ l', removed l a l' ∧ becomes s l' n x s' | None => becomes s l n x s' end
    | TClear => becomes s [] n x s'
    | TSize => x = TInt (Z.of_nat (length l)) ∧ s' = s
    | TFind k => new_it s (first_of (equal_to k) l) x s'
    | TLower k => new_it s (first_of (λ y, cmp k y <=? 0) l) x s'
    | TUpper k => new_it s (first_of (λ y, cmp k y <? 0) l) x s'
    | TBegin => new_it s (fst <$> head l) x s'
    | TLast => new_it s (fst <$> last l) x s'
    | TValid i => ∃ p, t_its s !! i = Some p ∧ x = TBool (match p with Some _ => true | None => false end) ∧ s' = s
    | TNext i => ∃ p, t_its s !! i = Some p ∧ move_it s i (a ← p; after l a) x s'
    | TPrev i => ∃ p, t_its s !! i = Some p ∧ move_it s i (a ← p; before l a) x s'
    | TRead i => ∃ a kv, t_its s !! i = Some (Some a) ∧ entry_of l a = Some kv ∧ x = TData (seen kv.1 kv.2) ∧ s' = s
    | TSetV i v => ∃ a, t_its s !! i = Some (Some a) ∧ becomes s (revalued l a v) n x s'
    | TClone i => ∃ p, t_its s !! i = Some p ∧ new_it s p x s'
    | TEqual i j => ∃ p q, t_its s !! i = Some p ∧ t_its s !! j = Some q ∧ x = TBool (bool_decide (p = q)) ∧ s' = s
    end.
  (** the iterators that are moved, read, written or erased through; those that are only looked at *)
  Definition uses (o : ti_op K V) : list nat := match o with TNext i | TPrev i | TRead i | TSetV i _ | TEraseIt i => [i] | _ => [] end.
  Definition names (o : ti_op K V) : list nat := uses o ++ match o with TValid i | TClone i => [i] | TEqual i j => [i; j] | _ => [] end.
  (** o must panic: reading or writing at no entry (or an iterator that was never made) *)
  Definition t_panics (o : ti_op K V) (s : ts) : Prop :=
    (∃ i, i ∈ names o ∧ t_its s !! i = None) ∨ ∃ i, t_its s !! i = Some None ∧ match o with TRead j | TSetV j _ => j = i | _ => False end.
  Definition stale (o : ti_op K V) (s : ts) : Prop := ∃ i a, i ∈ uses o ∧ t_its s !! i = Some (Some a) ∧ a ∉ (t_ents s).*1.
  (** result x, then those of the remaining history *)
  Definition and_then (x : out) (r : res (list out)) : res (list out) := match r with Ok xs => Ok (x :: xs) | Panic => Panic | Fuel => Fuel end.
  (** a history may have this result; from an action that is excused on, everything may happen *)
  Inductive follows (excused : ti_op K V → ts → Prop) : list (ti_op K V) → ts → res (list out) → Prop :=
  | follows_end s : follows excused [] s (Ok [])
  | follows_excused o ops s r : excused o s → follows excused (o :: ops) s r
  | follows_panic o ops s : t_panics o s → follows excused (o :: ops) s Panic
  | follows_step o ops s x s' r : t_allows o s x s' → follows excused ops s' r → follows excused (o :: ops) s (and_then x r).
  (** nothing in it yet *)
  Definition ts0 : ts := MkTs [] 0 [].
  (** actions that erase nothing *)
  Definition erases_nothing (o : ti_op K V) : Prop := match o with TErase _ | TEraseAll _ | TEraseIt _ | TClear => False | _ => True end.
  (** the actions a container offers *)
  Definition offered (c : methods K V D) (o : ti_op K V) : Prop :=
    match o with TErase _ => is_Some (c_erase c) | TEraseAll _ => is_Some (c_eraseall c) | TEraseIt _ => is_Some (c_eraseit c) | TSetV _ _ => is_Some (i_set c) | _ => True end.
End spec.
Arguments ts : clear implicits.
(** the results of a run *)
Definition results {R S} (m : res (list R * S)) : res (list R) := match m with Ok (xs, _) => Ok xs | Panic => Panic | Fuel => Fuel end.
