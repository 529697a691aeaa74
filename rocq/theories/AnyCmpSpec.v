(** What C78 says about Map, MultiMap, Set and MultiSet with an arbitrary comparison function: a
    loose meaning of the operations on lists (the entries in iteration order).  A search may miss,
    but what it finds compares as asked; everything that does not search is exact. *)
From Verif Require Import Base History RbModel RbSpec MapModel MapSpec SetModel SetSpec.
Open Scope Z_scope.

(** histories of operations whose results are only allowed, not determined *)
Section loose.
  Context {O A R : Type} (allows : O → A → R → A → Prop).
  Inductive exec : list O → A → list R → A → Prop :=
  | exec_nil a : exec [] a [] a
  | exec_cons o ops a r a1 rs a2 : allows o a r a1 → exec ops a1 rs a2 → exec (o :: ops) a (r :: rs) a2.
End loose.
(** the run ends with allowed results in a state related to an allowed content, or panics at an
    operation that may panic; it never gets stuck *)
Definition loosely {S O A R} (step : O → M S R) (allows : O → A → R → A → Prop) (panics : O → A → Prop) (rel : S → A → Prop) (ops : list O) (s : S) (a : A) : Prop :=
  match run step ops s with
  | Ok (rs, s') => ∃ a', exec allows ops a rs a' ∧ rel s' a'
  | Panic => ∃ pre o post rs a', ops = pre ++ o :: post ∧ exec allows pre a rs a' ∧ panics o a'
  | Fuel => False
  end.

(** an iterator returned by a search on l stands between L and R: it is invalid (R empty) or at an
    entry that satisfies P *)
Definition found {A} (P : A → Prop) (l L R : list A) : Prop := l = L ++ R ∧ ∀ x, head R = Some x → P x.
(** l' is l without some of the entries that satisfy P *)
Inductive thinned {A} (P : A → Prop) : list A → list A → Prop :=
| thin_nil : thinned P [] []
| thin_keep x l l' : thinned P l l' → thinned P (x :: l) (x :: l')
| thin_drop x l l' : P x → thinned P l l' → thinned P (x :: l) l'.

Section maps.
  Context {K V W : Type} (cmp : K → K → Z).
  Notation kvs := (list (K * V)).
  (** k is added between L and R: it does not compare less than the entry before, and less than the
      entry after *)
  Definition between (k : K) (L R : list K) : Prop := (∀ x, last L = Some x → 0 <= cmp k x) ∧ (∀ x, head R = Some x → cmp k x < 0).
  Definition eq_key (k : K) (kv : K * V) : Prop := cmp kv.1 k = 0.
  Definition map_searches (o : map_op K V W) (l : kvs) (r : map_res K V W) : Prop :=
    match o with
    | MGet k => ∃ L R, found (eq_key k) l L R ∧ r = ROpt (snd <$> head R)
    | MContains k => ∃ L R, found (eq_key k) l L R ∧ r = RBool (match R with [] => false | _ => true end)
    | MFind k i => ∃ L R, found (eq_key k) l L R ∧ r = REnt (R !! i)
    | MLower k i => ∃ L R, found (λ kv, cmp k kv.1 <= 0) l L R ∧ r = REnt (R !! i)
    | MUpper k i => ∃ L R, found (λ kv, cmp k kv.1 < 0) l L R ∧ r = REnt (R !! i)
    | _ => False
    end.
  Definition searching (o : map_op K V W) : bool := match o with MGet _ | MContains _ | MFind _ _ | MLower _ _ | MUpper _ _ => true | _ => false end.
  Definition map_allows (o : map_op K V W) (l : kvs) (r : map_res K V W) (l' : kvs) : Prop :=
    match o with
    | MInsert k v => r = RUnit ∧ ((∃ L kv R, l = L ++ kv :: R ∧ eq_key k kv ∧ l' = L ++ (kv.1, v) :: R) ∨ (∃ L R, l = L ++ R ∧ l' = L ++ (k, v) :: R ∧ between k L.*1 R.*1))
    | MErase k | MEraseFound k => r = RUnit ∧ ∃ L R, found (eq_key k) l L R ∧ l' = L ++ tail R
    | MEraseAt i => r = RUnit ∧ l' = delete i l
    | o => if searching o then map_searches o l r ∧ l' = l else obs cmp l o = Some (r, l')
    end.
  Definition mm_allows (o : map_op K V W) (l : kvs) (r : map_res K V W) (l' : kvs) : Prop :=
    match o with
    | MInsert k v => r = RUnit ∧ ∃ L R, l = L ++ R ∧ l' = L ++ (k, v) :: R ∧ between k L.*1 R.*1
    | MErase k => r = RUnit ∧ thinned (eq_key k) l l'
    | MEraseFound _ | MEraseAt _ => r = RUnit ∧ l' = l
    | o => if searching o then map_searches o l r ∧ l' = l else obs cmp l o = Some (r, l')
    end.
  (** reading or writing at an invalid iterator *)
  Definition map_panics (o : map_op K V W) (l : kvs) : Prop := match o with MSetAt i _ | MKeyAt i | MValueAt i => (length l <= i)%nat | _ => False end.
End maps.

Section sets.
  Context {T W : Type} (cmp : T → T → Z).
  Notation els := (list T).
  Definition equ (x y : T) : Prop := cmp y x = 0.
  Definition set_searches (o : set_op T W) (l : els) (r : set_res T W) : Prop :=
    match o with
    | SContains x => ∃ L R, found (equ x) l L R ∧ r = QBool (match R with [] => false | _ => true end)
    | SFind x i => ∃ L R, found (equ x) l L R ∧ r = QElem (R !! i)
    | SLower x i => ∃ L R, found (λ y, cmp x y <= 0) l L R ∧ r = QElem (R !! i)
    | SUpper x i => ∃ L R, found (λ y, cmp x y < 0) l L R ∧ r = QElem (R !! i)
    | _ => False
    end.
  Definition set_searching (o : set_op T W) : bool := match o with SContains _ | SFind _ _ | SLower _ _ | SUpper _ _ => true | _ => false end.
  Definition set_allows (o : set_op T W) (l : els) (r : set_res T W) (l' : els) : Prop :=
    match o with
    | SInsert x => r = QUnit ∧ ((l' = l ∧ ∃ y, y ∈ l ∧ equ x y) ∨ (∃ L R, l = L ++ R ∧ l' = L ++ x :: R ∧ between cmp x L R))
    | SErase x => r = QUnit ∧ ∃ L R, found (equ x) l L R ∧ l' = L ++ tail R
    | SEraseAll _ | SCount _ => r = QUnit ∧ l' = l
    | o => if set_searching o then set_searches o l r ∧ l' = l else s_obs cmp l o = Some (r, l')
    end.
  Definition ms_allows (o : set_op T W) (l : els) (r : set_res T W) (l' : els) : Prop :=
    match o with
    | SInsert x => r = QUnit ∧ ∃ L R, l = L ++ R ∧ l' = L ++ x :: R ∧ between cmp x L R
    | SErase x => r = QUnit ∧ ∃ L R, found (equ x) l L R ∧ l' = L ++ tail R
    | SEraseAll x => r = QUnit ∧ thinned (equ x) l l'
    | SCount x => r = QInt (Z.of_nat (length (filter (λ y, cmp y x = 0) l))) ∧ l' = l
    | o => if set_searching o then set_searches o l r ∧ l' = l else s_obs cmp l o = Some (r, l')
    end.
  Definition set_panics (o : set_op T W) (l : els) : Prop := match o with SValueAt i => (length l <= i)%nat | _ => False end.
End sets.
