(** The error rate that NewWithEstimates promises, as a count: the digests of the n added values and of
    the queried value are drawn from all 256^64 strings of 64 bytes each. *)
From Coq Require Import Reals.
From Verif Require Import Base History BloomModel BloomSpec BloomRateSpec.
Local Open Scope R_scope.

(** the digest function that yields these digests for these values and is [h] otherwise *)
Fixpoint with_digests (h : list BinNums.N → list BinNums.N) (vs ds : list (list BinNums.N)) : list BinNums.N → list BinNums.N :=
  match vs, ds with v :: vs, d :: ds => with_digest (with_digests h vs ds) v d | _, _ => h end.
(** the filter f, to which vs are added, reports v *)
Definition reports (h : list BinNums.N → list BinNums.N) (f : bloom) (vs : list (list BinNums.N)) (v : list BinNums.N) : Prop :=
  ∃ rs f', run (bf_step h) (FAdd <$> vs) f = Ok (rs, f') ∧ bf_contains h v f' = Ok true.
(** the new filter f has error rate at most p for n values: whichever n values are added, a value that was not
    added is reported for at most a fraction p of all (n+1)-tuples of digests *)
Definition tolerates (h : list BinNums.N → list BinNums.N) (f : bloom) (n : nat) (p : R) : Prop :=
  ∀ (v : list BinNums.N) (vs : list (list BinNums.N)) (L : list (list (list BinNums.N))), length vs = n → NoDup (v :: vs) → NoDup L →
    (∀ ds, ds ∈ L → length ds = S n ∧ Forall digest ds ∧ reports (with_digests h (v :: vs) ds) f vs v) →
    IZR (Z.of_nat (length L)) <= p * IZR (2 ^ (512 * Z.of_nat (S n))).
