(** deque.go:365 computes int(float64(d.segUsed()*2) * 1.2) in float64 arithmetic; DequeModel.v
    uses the integer 24*u/10.  Here: the two are equal for every u < 2^48 (a deque with 2^48
    segments would hold 2^55 elements).
    float64(n) is exact below 2^53; the constant 1.2 is the float64 nearest to 1.2,
    0x1.3333333333333p0 = 5404319552844595 * 2^-52; the product of two float64s is the exact
    product rounded to 53 significant bits, ties to even (IEEE 754 binary64, no overflow and no
    subnormals in this range); int() truncates. *)
From Verif Require Import Base DequeModel.
Open Scope Z_scope.

(** N rounded to 53 significant bits, ties to even (N >= 0) *)
Definition round53 (N : Z) : Z :=
  let s := Z.log2 N + 1 - 53 in
  if s <=? 0 then N
  else let q := N / 2 ^ s in let r := N mod 2 ^ s in
       (if (r <? 2 ^ (s - 1)) || ((r =? 2 ^ (s - 1)) && Z.even q) then q else q + 1) * 2 ^ s.
(** the product in units of 2^-52, then truncated *)
Definition shrink_bound_float (u : Z) : Z := round53 (2 * u * 5404319552844595) / 2 ^ 52.

(** the constant is the closest float64 to 1.2: 1.2 * 2^52 differs from it by 1/5 *)
Lemma const_1_2 : 5 * 5404319552844595 = 6 * 2 ^ 52 - 1 ∧ 2 ^ 52 <= 5404319552844595 < 2 ^ 53.
Proof. by vm_compute. Qed.

Theorem shrink_bound_is_float_computation u : 0 <= u < 2 ^ 48 → shrink_bound_float u = shrink_bound u.
Proof.
  intros [Hu0 Hu]. unfold shrink_bound_float, shrink_bound. destruct (decide (u = 0)) as [->|Hn]; [by vm_compute|].
  set (N := 2 * u * 5404319552844595). set (B := 2 ^ 52).
  assert (5 * N = 12 * u * B - 2 * u) as HN. { unfold N, B. change (2 ^ 52) with 4503599627370496. ring. }
  set (F := 24 * u / 10). pose proof (Z.div_mod (24 * u) 10 ltac:(lia)) as Hdm. fold F in Hdm. pose proof (Z.mod_pos_bound (24 * u) 10 ltac:(lia)) as Hm.
  set (m := (24 * u) mod 10) in *. clearbody m F.
  assert (B = 4503599627370496) as HB by done. assert (2 ^ 48 = 281474976710656) as H48 by done.
  assert (0 < N) as HNpos by (unfold N; lia).
  pose proof (Z.log2_spec N HNpos) as [Hl1 Hl2]. set (L := Z.log2 N) in *.
  assert (L < 102) as HL. { apply Z.log2_lt_pow2; [done|]. change (2 ^ 102) with 5070602400912917605986812821504. unfold N. lia. }
  assert (53 <= L) as HL'. { apply Z.log2_le_pow2; [done|]. change (2 ^ 53) with 9007199254740992. unfold N. lia. }
  unfold round53. fold L. cbv zeta. destruct (Z.leb_spec (L + 1 - 53) 0); [lia|]. set (s := L + 1 - 53).
  assert (2 ^ s = 2 * 2 ^ (s - 1)) as Hs. { replace s with (Z.succ (s - 1)) at 1 by lia. by rewrite Z.pow_succ_r by lia. }
  assert (2 ^ L = B * 2 ^ s) as E1. { unfold B. rewrite <-Z.pow_add_r by lia. f_equal. lia. }
  assert (2 ^ Z.succ L = 2 * B * 2 ^ s) as E2. { rewrite Z.pow_succ_r by lia. rewrite E1. ring. }
  assert (B = 2 ^ (52 - s) * 2 ^ s) as E3. { unfold B. rewrite <-Z.pow_add_r by lia. f_equal. lia. }
  assert (2 ^ (s - 1) <= 2 ^ 48) as E4 by (apply Z.pow_le_mono_r; lia).
  assert (0 < 2 ^ (s - 1)) as E5 by (apply Z.pow_pos_nonneg; lia).
  pose proof (Z.div_mod N (2 ^ s) ltac:(lia)) as Hq. pose proof (Z.mod_pos_bound N (2 ^ s) ltac:(lia)) as Hr.
  set (q := N / 2 ^ s) in *. set (r := N mod 2 ^ s) in *. clearbody q r.
  rewrite E1 in Hl1. rewrite E2 in Hl2. set (h := 2 ^ (s - 1)) in *. set (k := 2 ^ (52 - s)) in *.
  (* F * 2^52 is a multiple of the rounding unit *)
  assert (F * B = F * k * 2 ^ s) as HFk by (rewrite E3; ring). set (K := F * k) in *. set (P := 2 ^ s) in *. clearbody K P h k N L s B.
  assert (0 <= F) by lia.
  set (R := (if _ : bool then q else q + 1) * P).
  assert (F * B <= R ∧ R < (F + 1) * B) as [HR1 HR2].
  2:{ symmetry. apply (Z.div_unique_pos _ _ _ (R - F * B)); lia. }
  destruct (decide (m = 0)) as [->|Hm0].
  - (* 2.4 u is an integer, the exact product is just below it *)
    assert (5 * (F * B) - 5 * N = 2 * u) as D by lia.
    assert (N < F * B) by lia. assert (q < K) by nia. 
    assert (F * B - N < h) as Dh by nia.
    assert (K = q + 1) as -> by nia.
    assert (R = (q + 1) * P) as ->.
    { unfold R. destruct (Z.ltb_spec r h); [nia|]. destruct (Z.eqb_spec r h); [nia|]. done. }
    split; lia.
  - assert (exists m', m = 2 * m' ∧ 0 < m') as (m' & -> & Hm'). { exists (12 * u - 5 * F). lia. }
    assert (F * B <= N) by (clear - HN HB H48 Hdm Hu Hm'; subst B; lia). assert (K <= q) by nia.
    assert (q * P <= R ∧ R <= q * P + P ∧ (r < h → R = q * P)) as (R1 & R2 & R3).
    { unfold R. destruct (Z.ltb_spec r h); cbn [orb]; [lia|]. destruct (_ && _); lia. }
    split; [nia|]. assert (5 * N <= 5 * (F * B) + 4 * B) by (clear - HN HB H48 Hdm Hu0 Hm Hm'; subst B; lia).
    destruct (decide (r < h)); [rewrite R3 by done|]; lia.
Qed.
Print Assumptions shrink_bound_is_float_computation.
Example shrink_bound_float_ex : shrink_bound_float 5 = 12 ∧ shrink_bound_float 4 = 9 ∧ shrink_bound_float 1000003 = 2400007.
Proof. by vm_compute. Qed.
