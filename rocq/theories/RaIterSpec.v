(** Iterators as positions: what a client that keeps iterators while changing the containers sees. *)
From Verif Require Import Base RaIterModel.
Open Scope Z_scope.

(** element p of a sequence; the sequence with element p replaced, unchanged if there is none *)
Definition elem_at {T} (l : list T) (p : Z) : option T := if bool_decide (0 <= p) then l !! Z.to_nat p else None.
Definition with_elem {T} (l : list T) (p : Z) (x : T) : list T := if bool_decide (0 <= p) then <[Z.to_nat p := x]> l else l.

Section spec.
  Context {A T O R : Type}.
  (** the containers: what their methods do, the sequence that container c holds, and the state after x is stored at position p of c *)
  Context (spec : O → A → option (R * A)) (holds : A → nat → option (list T)) (store : nat → Z → T → A → A).
  (** Equal of two iterators (container, position); the position of Last in a sequence *)
  Context (same : nat * Z → nat * Z → bool) (lastp : list T → Z).
  Notation S := (A * list (nat * Z))%type.
  Notation out := (ri_out T R).
  Definition fresh_it (it : nat * Z) (s : S) : option (out * S) := Some (RIter (length s.2), (s.1, s.2 ++ [it])).
  Definition moved (i : nat) (it : nat * Z) (s : S) : option (out * S) := Some (RUnit, (s.1, <[i := it]> s.2)).
  Definition ri_spec (o : ri_op T O) (s : S) : option (out * S) :=
    match o with
    | RCall o => match spec o s.1 with Some (r, a) => Some (ROut r, (a, s.2)) | None => None end
    | RBegin c => fresh_it (c, 0) s
    | REnd c => l ← holds s.1 c; fresh_it (c, Z.of_nat (length l)) s
    | RLast c => l ← holds s.1 c; fresh_it (c, lastp l) s
    | RIterAt c p => fresh_it (c, p) s
    | RValid i => '(c, p) ← s.2 !! i; l ← holds s.1 c; Some (RBool (bool_decide (0 <= p < Z.of_nat (length l))), s)
    | RValue i => '(c, p) ← s.2 !! i; l ← holds s.1 c; x ← elem_at l p; Some (RVal x, s)
    | RSetValue i x => '(c, p) ← s.2 !! i; l ← holds s.1 c; Some (RUnit, (store c p x s.1, s.2))
    | RNext i => '(c, p) ← s.2 !! i; l ← holds s.1 c; moved i (c, if bool_decide (p < Z.of_nat (length l)) then p + 1 else p) s
    | RPrev i => '(c, p) ← s.2 !! i; moved i (c, if bool_decide (0 <= p) then p - 1 else p) s
    | RClone i => it ← s.2 !! i; fresh_it it s
    | RAt i p => it ← s.2 !! i; fresh_it (it.1, p) s
    | RPosition i => it ← s.2 !! i; Some (RInt it.2, s)
    | REqual i j => it ← s.2 !! i; jt ← s.2 !! j; Some (RBool (same it jt), s)
    end.
End spec.
(** containers that are independent sequences; one container *)
Definition seq_holds {T} (s : list (list T)) (c : nat) : option (list T) := s !! c.
Definition seq_store {T} (c : nat) (p : Z) (x : T) (s : list (list T)) : list (list T) := alter (λ l, with_elem l p x) c s.
Definition one_holds {T} (l : list T) (c : nat) : option (list T) := Some l.
Definition one_store {T} (c : nat) (p : Z) (x : T) (l : list T) : list T := with_elem l p x.
(** equal: same container, same position; or only the positions *)
Definition same_place (i j : nat * Z) : bool := bool_decide (i = j).
Definition same_position (i j : nat * Z) : bool := bool_decide (i.2 = j.2).
(** Last: the last element; or the position after it *)
Definition last_elem {T} (l : list T) : Z := Z.of_nat (length l) - 1.
Definition past_end {T} (l : list T) : Z := Z.of_nat (length l).

(** Slices and wrappers are windows into arrays: array, first position, length, positions up to the end
    of the array; windows of the same array see each other's writes *)
Record window := MkWin { n_arr : nat; n_from : nat; n_len : nat; n_cap : nat }.
Section slices.
  Context {T : Type}.
  Record windows := MkWs { ws_arrs : list (list T); ws_slices : list window; ws_wraps : list window }.
  Definition through (s : windows) (n : window) : list T := take (n_len n) (drop (n_from n) (default [] (ws_arrs s !! n_arr n))).
  (** writing x at position i of a window *)
  Definition written (n : window) (i : Z) (x : T) (s : windows) : windows :=
    if bool_decide (0 <= i < Z.of_nat (n_len n)) then
      MkWs (alter (λ l, <[n_from n + Z.to_nat i := x]> l)%nat (n_arr n) (ws_arrs s)) (ws_slices s) (ws_wraps s)
    else s.
  Definition lw_spec (o : lw_op T) (s : windows) : option (lw_out T * windows) :=
    match o with
    | LMake l => Some (LSlice (length (ws_slices s)), MkWs (ws_arrs s ++ [l]) (ws_slices s ++ [MkWin (length (ws_arrs s)) 0 (length l) (length l)]) (ws_wraps s))
    | LSub d lo hi => n ← ws_slices s !! d;
        if decide (0 <= lo <= hi ∧ hi <= Z.of_nat (n_cap n)) then
          Some (LSlice (length (ws_slices s)), MkWs (ws_arrs s) (ws_slices s ++ [MkWin (n_arr n) (n_from n + Z.to_nat lo) (Z.to_nat (hi - lo)) (n_cap n - Z.to_nat lo)]) (ws_wraps s))
        else None
    | LLenOf d => n ← ws_slices s !! d; Some (LInt (Z.of_nat (n_len n)), s)
    | LGet d i => n ← ws_slices s !! d; x ← elem_at (through s n) i; Some (LVal x, s)
    | LPut d i x => n ← ws_slices s !! d; if decide (0 <= i < Z.of_nat (n_len n)) then Some (LUnit, written n i x s) else None
    | LWrap d => n ← ws_slices s !! d; Some (LWrapper (length (ws_wraps s)), MkWs (ws_arrs s) (ws_slices s) (ws_wraps s ++ [n]))
    | LAttach o d => n ← ws_slices s !! d; _ ← ws_wraps s !! o; Some (LUnit, MkWs (ws_arrs s) (ws_slices s) (<[o := n]> (ws_wraps s)))
    | LLen o => n ← ws_wraps s !! o; Some (LInt (Z.of_nat (n_len n)), s)
    | LAt o i => n ← ws_wraps s !! o; x ← elem_at (through s n) i; Some (LVal x, s)
    | LSet o i x => n ← ws_wraps s !! o; Some (LUnit, written n i x s)
    end.
  Definition no_windows : windows := MkWs [] [] [].
  (** what a wrapper holds; storing through it *)
  Definition wraps (s : windows) (o : nat) : option (list T) := through s <$> ws_wraps s !! o.
  Definition wrap_store (o : nat) (p : Z) (x : T) (s : windows) : windows := match ws_wraps s !! o with Some n => written n p x s | None => s end.
End slices.
Arguments windows : clear implicits.

(** a run of the code gives the specified results, or panics where the specification says so *)
Definition results_are {R S A} (m : res (list R * S)) (sp : option (list R * A)) : Prop :=
  match sp with Some (rs, _) => ∃ w, m = Ok (rs, w) | None => m = Panic end.
