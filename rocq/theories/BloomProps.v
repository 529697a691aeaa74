(** Properties C09-C11, C60: hash generator and Bloom filter.  [h] is the digest function
    (SHA-512 in the code); nothing is assumed of it but that it yields 64 bytes. *)
From Verif Require Import Base History BitmapModel BloomModel BloomSpec BloomProofs.
Open Scope N_scope.

(** a concrete digest function used by the examples *)
Definition demo_h (d : list N) : list N := take 64 (d ++ replicate 64 1).
Lemma demo_h_length d : length (demo_h d) = 64%nat.
Proof. unfold demo_h. rewrite take_length, app_length, replicate_length. lia. Qed.

(** C09: after any history of Add / Contains / Data+NewFromData, every added value is reported. *)
Theorem bloom_no_false_negatives_partial h m k ops : (∀ d, length (h d) = 64%nat) →
  0 < m <= 2 ^ 64 - 8 → k < 2 ^ 63 →
  ∃ rs f, run (bf_step h) ops (bf_new m k) = Ok (rs, f) ∧
          ∀ v, v ∈ added_by ops → bf_contains h v f = Ok true.
Proof.
  intros Hh Hm Hk. destruct (bf_history h Hh m k ops Hm Hk) as (rs & f & E & H).
  exists rs, f. split; [done|]. intros v Hv. destruct (H v) as (r & -> & Hr). f_equal. apply Hr.
  intros i Hi. exists v, i. done.
Qed.
Print Assumptions bloom_no_false_negatives_partial.
Example bloom_example :
  match run (bf_step demo_h) [FAdd [1]; FContains [2]; FReload; FAdd [7]; FContains [1]; FContains [7]] (bf_new 13 2)
  with Ok (rs, _) => Some rs | _ => None end
  = Some [None; Some false; None; None; Some true; Some true].
Proof. vm_compute. reflexivity. Qed.

(** C09 is false for the 7 largest m (the bitmap is empty, Add is lost), and Add panics for m = 0. *)
Theorem bloom_no_false_negatives_refuted h k v : (∀ d, length (h d) = 64%nat) → 0 < k < 2 ^ 63 →
  (∀ m, 2 ^ 64 - 8 < m < 2 ^ 64 → ∃ f, bf_add h v (bf_new m k) = Ok f ∧ bf_contains h v f = Ok false) ∧
  bf_add h v (bf_new 0 k) = Panic.
Proof. intros Hh Hk. split; [intros m Hm; by apply bloom_wraps|by apply bloom_zero]. Qed.
Print Assumptions bloom_no_false_negatives_refuted.

(** C60: Contains answers exactly whether each probed bit was probed by an added value. *)
Theorem bloom_contains_exact h m k ops : (∀ d, length (h d) = 64%nat) → 0 < m <= 2 ^ 64 - 8 → k < 2 ^ 63 →
  ∃ rs f, run (bf_step h) ops (bf_new m k) = Ok (rs, f) ∧
    ∀ v, ∃ r, bf_contains h v f = Ok r ∧ (r = true ↔ covered h m k (added_by ops) v).
Proof. intros Hh. exact (bf_history h Hh m k ops). Qed.
Print Assumptions bloom_contains_exact.

(** C10: export and import give a filter that answers every later history identically; m and k are any
    uint64s and nothing is assumed of the digest. *)
Theorem bloom_data_round_trip h m k ops rs f :
  m < 2 ^ 64 → k < 2 ^ 64 → run (bf_step h) ops (bf_new m k) = Ok (rs, f) →
  ∃ f', bf_from_data (bf_Data f) = Ok f' ∧
        (∀ v, bf_contains h v f' = bf_contains h v f) ∧
        ∀ later, run (bf_step h) later f' = run (bf_step h) later f.
Proof. intros Hm Hk E. exists f. split; [exact (bloom_round h m k ops rs f Hm Hk E)|done]. Qed.
Print Assumptions bloom_data_round_trip.
Example bloom_data_example :
  match bf_add demo_h [1] (bf_new 300 2) with
  | Ok f => (length (bf_Data f), bf_from_data (bf_Data f)) = (54%nat, Ok f)
  | _ => False end.
Proof. vm_compute. reflexivity. Qed.

(** C11, the true part: exactly n values for n >= 0, each determined by the seed alone
    (value i does not depend on n), the first 8 being the 8 words of the digest. *)
Theorem gen_hash_ints_partial h seed n : (∀ d, length (h d) = 64%nat) → (0 <= n)%Z →
  ∃ l, gen_hash_ints h seed n = Ok l ∧ Z.of_nat (length l) = n ∧
       ∀ i, (i < length l)%nat → l !! i = Some (be_word (take 8 (drop (8 * (i mod 8)) (h seed)))).
Proof.
  intros Hh Hn. destruct (gen_hash_ints_ok h Hh seed n Hn) as (l & E & Hl & Hi).
  exists l. split_and!; [done|lia|]. rewrite Hl. exact Hi.
Qed.
Print Assumptions gen_hash_ints_partial.
Example gen_hash_ints_example : gen_hash_ints demo_h [0;0;0;0;0;0;0;5;0;0;0;0;0;0;0;6] 2 = Ok [5; 6].
Proof. vm_compute. reflexivity. Qed.

(** C11 is false: whatever the digest, value i+8 equals value i for every seed, so at most 8
    different hash functions exist. *)
Theorem gen_hash_ints_distinct_refuted h seed n i : (∀ d, length (h d) = 64%nat) → (Z.of_nat i + 8 < n)%Z →
  ∃ l x, gen_hash_ints h seed n = Ok l ∧ l !! i = Some x ∧ l !! (i + 8)%nat = Some x.
Proof.
  intros Hh Hn. destruct (gen_hash_ints_ok h Hh seed n ltac:(lia)) as (l & E & Hl & Hi).
  exists l, (word_at h seed i). split_and!; [done|apply Hi; lia|].
  rewrite Hi by lia. unfold word_at. do 5 f_equal.
  replace (i + 8)%nat with (i + 1 * 8)%nat by lia. by rewrite Nat.mod_add.
Qed.
Print Assumptions gen_hash_ints_distinct_refuted.
