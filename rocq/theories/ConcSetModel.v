(** ds/set/set.go: Union, Intersect and Diff of goroutine-safe sets, which hold the receiver's lock
    only, beside updates of the other set, which hold the other set's lock. *)
From Verif Require Import Base RbModel SetModel SetSpec ConcModel.
Open Scope Z_scope.
Open Scope go_scope.

Section two.
  Context {T : Type} (cmp : T → T → Z).
  (** the memory: the receiver (lock 0) and the other set (lock 1); the set being built is local *)
  Definition two_sets : Type := rb T bool * rb T bool.
  (** which of set.go:187-266 Intersect, Union, Diff is called *)
  Inductive comb := CUnion | CIntersect | CDiff.
  (** the calls considered on two sets s and other: combining them, or changing other *)
  Inductive two_op := TComb (k : comb) | TInsert (x : T) | TErase (x : T).
  (** what they return *)
  Inductive two_res := RUnit | RSet (n : rb T bool).
  Notation P := (prog two_sets (option two_res)).
  (** a piece of the code run without interleaving on the two sets and the local one; a panic ends the call *)
  Definition piece {A} (m : M (three (T := T)) A) (n : rb T bool) (k : A → rb T bool → P) (fail : P) : P :=
    PAct (λ w, match m (w, n) with Ok (_, w') => w'.1 | _ => w end)
         (λ w, match m (w, n) with Ok (a, w') => k a w'.2 | _ => fail end).
  (** one round of a merge loop, set.go:193-206, :217-231, :249-261; [None]: the loop ends *)
  Definition merge_round (ins_eq ins_lt ins_gt : bool) (i j : ptr) : M (three (T := T)) (option (ptr * ptr)) :=
    if it_IsValid i && it_IsValid j then
      let! a := on_s (it_Key i) in let! b := on_o (it_Key j) in
      let c := cmp a b in
      if c =? 0 then
        (if ins_eq then let! a := on_s (it_Key i) in on_n (rb_Insert cmp a set_Empty_const) else mret_ tt) ;;
        let! i := on_s (it_Next i) in let! j := on_o (it_Next j) in mret_ (Some (i, j))
      else if c <? 0 then
        (if ins_lt then let! a := on_s (it_Key i) in on_n (rb_Insert cmp a set_Empty_const) else mret_ tt) ;;
        let! i := on_s (it_Next i) in mret_ (Some (i, j))
      else
        (if ins_gt then let! b := on_o (it_Key j) in on_n (rb_Insert cmp b set_Empty_const) else mret_ tt) ;;
        let! j := on_o (it_Next j) in mret_ (Some (i, j))
    else mret_ None.
  (** one round of the loops over what is left, set.go:232-237, :262-264 *)
  Definition rest_s_round (i : ptr) : M (three (T := T)) (option ptr) :=
    if it_IsValid i then let! a := on_s (it_Key i) in on_n (rb_Insert cmp a set_Empty_const) ;; let! i := on_s (it_Next i) in mret_ (Some i) else mret_ None.
  (** one round of the loops of set.go over the rest of other *)
  Definition rest_o_round (j : ptr) : M (three (T := T)) (option ptr) :=
    if it_IsValid j then let! b := on_o (it_Key j) in on_n (rb_Insert cmp b set_Empty_const) ;; let! j := on_o (it_Next j) in mret_ (Some j) else mret_ None.
  (** what follows a lock acquired by [defer Unlock]: the result after a panic or after f rounds *)
  Context (fail : P).
  (** the merging loop of set.go's combinations as a program: one piece of memory work per round *)
  Fixpoint merge_prog (e l g : bool) (f : nat) (i j : ptr) (n : rb T bool) (k : ptr → ptr → rb T bool → P) : P :=
    match f with O => fail | S f => piece (merge_round e l g i j) n (λ r n, match r with Some ij => merge_prog e l g f ij.1 ij.2 n k | None => k i j n end) fail end.
  (** a loop over the rest of one set as a program *)
  Fixpoint rest_prog (round : ptr → M (three (T := T)) (option ptr)) (f : nat) (i : ptr) (n : rb T bool) (k : rb T bool → P) : P :=
    match f with O => fail | S f => piece (round i) n (λ r n, match r with Some i => rest_prog round f i n k | None => k n end) fail end.
  (** the two calls of First at the start of set.go's combinations *)
  Definition starts (f : ptr → ptr → P) : P := piece (on_s rb_First) rb_new (λ i _, piece (on_o rb_First) rb_new (λ j _, f i j) fail) fail.
  (** the bodies of the three methods: every piece is a stretch of real steps that happen not to be
      interleaved, so every execution of these programs is one of the real ones *)
  Definition comb_prog (f : nat) (c : comb) (done : rb T bool → P) : P :=
    match c with
    | CIntersect => starts (λ i j, merge_prog true false false f i j rb_new (λ _ _ n, done n))
    | CUnion => starts (λ i j, merge_prog true true true f i j rb_new (λ i j n, rest_prog rest_s_round f i n (λ n, rest_prog rest_o_round f j n done)))
    | CDiff => starts (λ i j, merge_prog false true false f i j rb_new (λ i _ n, rest_prog rest_s_round f i n done))
    end.
End two.
Arguments two_op : clear implicits. Arguments two_res : clear implicits. Arguments two_sets : clear implicits.

Section two.
  Context {T : Type} (cmp : T → T → Z).
  Notation P := (prog (two_sets T) (option (two_res T))).
  (** the deferred RUnlock of the receiver (set.go) *)
  Definition release (r : option (two_res T)) : P := PRUnlock 0 (PDone r).
  (** set.go:187-266 with s.locker.RLock(); defer s.locker.RUnlock(), at most f rounds per loop; and
      Insert, Erase of the other set under its own lock, :62-82 *)
  Definition two_method (f : nat) (o : two_op T) : P :=
    match o with
    | TComb c => PRLock 0 (comb_prog cmp (release None) f c (λ n, release (Some (RSet n))))
    | TInsert x => PLock 1 (piece (on_o (set_Insert cmp x)) rb_new (λ _ _, PUnlock 1 (PDone (Some RUnit))) (PUnlock 1 (PDone None)))
    | TErase x => PLock 1 (piece (on_o (set_Erase cmp x)) rb_new (λ _ _, PUnlock 1 (PDone (Some RUnit))) (PUnlock 1 (PDone None)))
    end.
  (** the methods of a set s, among them the combinations with a set oth that nobody changes meanwhile *)
  Inductive own_op (W : Type) := OwnOp (o : set_op T W) | OwnComb (k : comb).
  (** what a call on the own set returns *)
  Inductive own_res (W : Type) := OwnRes (r : set_res T W) | OwnSet (n : rb T bool).
  (** the sequential combinations of set.go *)
  Definition combine (k : comb) : rb T bool → rb T bool → res (unit * three (T := T)) :=
    match k with CUnion => set_Union cmp | CIntersect => set_Intersect cmp | CDiff => set_Diff cmp end.
  (** the methods of the receiver, with other fixed *)
  Definition own_step {W} (oth : rb T bool) (o : own_op W) : M (rb T bool) (own_res W) :=
    match o with
    | OwnOp _ o => let! r := set_step cmp o in mret_ (OwnRes W r)
    | OwnComb _ k => λ s, match combine k s oth with Ok (_, w) => Ok (OwnSet W w.2, w.1.1) | Panic => Panic | Fuel => Fuel end
    end.
  (** the receiver's lock in each: combinations take RLock *)
  Definition own_lock {W} (lk : set_op T W → mode) (o : own_op W) : mode := match o with OwnOp _ o => lk o | OwnComb _ _ => Rd end.
End two.
Arguments own_op : clear implicits. Arguments own_res : clear implicits.
Arguments OwnOp {T W}. Arguments OwnComb {T W}. Arguments OwnRes {T W}. Arguments OwnSet {T W}.
