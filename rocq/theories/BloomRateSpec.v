(** The error rate of a Bloom filter.  The values added and their digests are arbitrary; the digest of
    the queried value is drawn from all 256^64 strings of 64 bytes. *)
From Verif Require Import Base History BloomModel BloomSpec.
Open Scope N_scope.

(** a 64-byte string *)
Definition digest (d : list N) : Prop := length d = 64%nat ∧ Forall (λ b, b < 256) d.
(** the digest function that yields [d] for the value [v] and is [h] otherwise *)
Definition with_digest (h : list N → list N) (v d : list N) : list N → list N := λ x, if decide (x = salt ++ v) then d else h x.
(** with digest [d] for [v], the filter reports [v] after the calls [ops] *)
Definition reported (h : list N → list N) (m k : N) (ops : list bf_op) (v d : list N) : Prop :=
  ∃ rs f, run (bf_step (with_digest h v d)) ops (bf_new m k) = Ok (rs, f) ∧ bf_contains (with_digest h v d) v f = Ok true.
(** words that fall on one of m positions, at most *)
Definition per_position (m : N) : N := (2 ^ 64 + m - 1) / m.
(** [hits] of the 2^512 digests are a fraction of at most (n·k/m)^k, where 1/m stands for
    [per_position m] / 2^64 *)
Definition rate_bound (m k n hits : N) : Prop := hits * (2 ^ 64) ^ k <= (n * k * per_position m) ^ k * 2 ^ 512.
