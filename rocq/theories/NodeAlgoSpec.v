(** What iterators of linked structures promise: they stand at one of the nodes [ps] of a sequence or nowhere
    ([None]: before the first and past the last node alike), and the nodes hold the values [l]. *)
From Verif Require Import Base.

Section spec.
  Context {W T : Type}.
  (** reading: Next, Value and Equal; [R w l]: in state w the nodes hold the values l *)
  Record node_law (next : option nat → M W (option nat)) (value : option nat → M W T) (equal : option nat → option nat → bool) (ps : list nat) (R : W → list T → Prop) : Prop := {
    nl_nodup : NoDup ps;
    nl_len w l : R w l → length l = length ps;
    nl_next w l k a : R w l → ps !! k = Some a → next (Some a) w = Ok (ps !! S k, w);
    nl_next_0 w l : R w l → next None w = Ok (None, w);
    nl_value w l k a x : R w l → ps !! k = Some a → l !! k = Some x → value (Some a) w = Ok (x, w);
    nl_value_0 w l : R w l → value None w = Panic;
    nl_equal i j : equal i j = bool_decide (i = j);
  }.
  (** writing: SetValue *)
  Record node_write (set : option nat → T → M W unit) (ps : list nat) (R : W → list T → Prop) : Prop := {
    nw_set w l k a x : R w l → ps !! k = Some a → ∃ w', set (Some a) x w = Ok (tt, w') ∧ R w' (<[k := x]> l);
  }.
  (** going back: Prev *)
  Record node_back (prev : option nat → M W (option nat)) (ps : list nat) (R : W → list T → Prop) : Prop := {
    nb_first w l a : R w l → ps !! 0%nat = Some a → prev (Some a) w = Ok (None, w);
    nb_prev w l k a : R w l → ps !! S k = Some a → prev (Some a) w = Ok (ps !! k, w);
    nb_prev_0 w l : R w l → prev None w = Ok (None, w);
  }.
End spec.

(** C99.  From Begin on, Next meets one iterator for each of the values, then the past-the-end iterator; between
    any two of them there is a range in the sense of AlgoSpec.v.  The iterators are those at the nodes ps, past
    the end [None] stands. *)
From Verif Require Import AlgoModel AlgoSpec ListLib.
Definition iterators {W T} (next : option nat → M W (option nat)) (value : option nat → M W T) (equal : option nat → option nat → bool)
    (begin : M W (option nat)) (w : W) (vals : list T) (ps : list nat) : Prop :=
  length ps = length vals ∧ begin w = Ok (ps !! 0%nat, w) ∧
  ∀ a b, (a <= b <= length vals)%nat →
    irange next value (λ i j w, Ok (equal i j, w)) w (ps !! b) (ps !! a) (zip ((λ k, ps !! k) <$> seq a (b - a)) (seg a b vals)).

(** C100.  [multimap_is]: from now on the MultiMap behaves as the list of pairs l (cf. [map_is] in EraseIterSpec.v) *)
From Verif Require Import History RbModel MapModel MapSpec.
Definition multimap_is {K V} (cmp : K → K → Z) (s : rb K V) (l : list (K * V)) : Prop :=
  ∀ (W : Type) (later : list (map_op K V W)),
    match srun (mm_spec cmp) later l with
    | Some (rs, _) => ∃ s', run (mm_step cmp) later s = Ok (rs, s')
    | None => run (mm_step cmp) later s = Panic
    end.
(** the values x and y at positions i and j exchanged *)
Definition exchanged {T} (i j : nat) (x y : T) (l : list T) : list T := <[j := x]> (<[i := y]> l).
(** the elements from a up to b in reverse order *)
Definition reversed {T} (a b : nat) (l : list T) : list T := take a l ++ rev (take (b - a) (drop a l)) ++ drop b l.
