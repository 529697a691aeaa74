(** What a search in a skip list costs on average over the random words. *)
From Verif Require Import Base History RbSpec MapSpec SkipModel SkipSpec CrashModel CrashSkipModel.
Open Scope Z_scope.
Open Scope go_scope.

(** the comparison function that keeps a tally of its calls *)
Definition tally {K} (cmp : K → K → Z) : user_cmp K nat := λ a b n, (Some (cmp a b), S n).
(** f 0 + ... + f (n - 1) *)
Fixpoint sum_below (n : nat) (f : Z → Z) : Z := match n with O => 0 | S n => sum_below n f + f (Z.of_nat n) end.
(** the sum of f over all lists of n numbers below D *)
Fixpoint total (D n : nat) (f : list Z → Z) : Z := match n with O => f [] | S n => sum_below D (λ w, total D n (λ ws, f (w :: ws))) end.
(** how many values rand.Uint64 has *)
Definition words : nat := Z.to_nat (2 ^ 64).

Section spec.
  Context {K V W : Type} (cmp : K → K → Z).
  (** the same call, drawing the word w if it draws one *)
  Definition set_word (o : sk_op K V W) (w : Z) : sk_op K V W := match o with SInsert _ k v => SInsert w k v | o => o end.
  (** the same history with the words ws *)
  Definition with_words (ops : list (sk_op K V W)) (ws : list Z) : list (sk_op K V W) := zip_with set_word ops ws.
  (** the key a call looks for *)
  Definition looks_for (o : sk_op K V W) : option K := match o with SInsert _ k _ | SGet k | SRemove k => Some k | _ => None end.
  (** how often the call o calls the comparison function after the history ops with the words ws *)
  Definition comparisons (max : Z) (ops : list (sk_op K V W)) (o : sk_op K V W) (ws : list Z) : Z :=
    match sk_New max with
    | Ok s0 => match run (sk_step cmp) (with_words ops ws) s0 with
               | Ok (_, s) => Z.of_nat (x_sk_step (tally cmp) o (s, 0%nat)).2.2
               | _ => 0 end
    | _ => 0 end.
  (** the keys in the list that come before k *)
  Definition keys_before (k : K) (l : list (K * V)) : Z := Z.of_nat (length (filter (λ kv, cmp kv.1 k < 0) l)).
End spec.
