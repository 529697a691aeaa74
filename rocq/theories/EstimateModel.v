(** Model of EstimateParameters and NewWithEstimates (ds/bloomfilter/bloom.go:56-62, :82-87).
    Simplification: float64 arithmetic and math.Log are exact real arithmetic and the natural
    logarithm; the conversion to uint64 is exact (in Go it is not specified for negative values,
    NaN and values from 2^64 on: fp > 1 or n = 0). *)
From Coq Require Import Reals.
From Verif Require Import Base BitmapModel BloomModel.
Local Open Scope R_scope.

(** math.Ceil and the conversion to an integer (bloom.go:84-85) *)
Definition ceil (r : R) : Z := (1 - up (- r))%Z.
(** bloom.go:84: m *)
Definition est_m (n : BinNums.N) (p : R) : BinNums.N := Z.to_N (ceil (-1 * IZR (Z.of_N n) * ln p / (ln 2 * ln 2))).
(** bloom.go:85: k *)
Definition est_k (n m : BinNums.N) : BinNums.N := Z.to_N (ceil (ln 2 * IZR (Z.of_N m) / IZR (Z.of_N n))).
(** bloom.go:83-87 EstimateParameters *)
Definition estimate (n : BinNums.N) (p : R) : BinNums.N * BinNums.N := let m := est_m n p in (m, est_k n m).
(** bloom.go:59-62 NewWithEstimates *)
Definition bf_with_estimates (n : BinNums.N) (p : R) : bloom := let mk := estimate n p in bf_new mk.1 mk.2.
