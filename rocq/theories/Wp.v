(** Weakest preconditions for state-passing Go code: the run ends normally (no panic, no
    exhausted fuel) in a state satisfying Q. *)
From Verif Require Import Base.
Definition wp {S A} (m : M S A) (Q : A → S → Prop) (s : S) : Prop :=
  match m s with Ok (a, s') => Q a s' | Panic => False | Fuel => False end.
Section wp.
  Context {S : Type}.
  Lemma wp_Ok {A} (m : M S A) Q s : wp m Q s ↔ ∃ a s', m s = Ok (a, s') ∧ Q a s'.
  Proof.
    unfold wp. destruct (m s) as [[a s']| |]; split; try done; try naive_solver.
  Qed.
  Lemma wp_ret {A} (a : A) (Q : A → S → Prop) (s : S) : Q a s → wp (mret_ a) Q s.
  Proof. done. Qed.
  Lemma wp_bind {A B} (m : M S A) (f : A → M S B) Q s :
    wp m (λ a s', wp (f a) Q s') s → wp (mbind_ m f) Q s.
  Proof. unfold wp, mbind_. by destruct (m s) as [[a s']| |]. Qed.
  Lemma wp_mono {A} (m : M S A) (Q Q' : A → S → Prop) s :
    wp m Q s → (∀ a s', Q a s' → Q' a s') → wp m Q' s.
  Proof. unfold wp. destruct (m s) as [[a s']| |]; auto. Qed.
  Lemma wp_eq {A} (m : M S A) (Q : A → S → Prop) s a s' : m s = Ok (a, s') → Q a s' → wp m Q s.
  Proof. unfold wp. by intros ->. Qed.
  Lemma wp_elim {A} (m : M S A) (Q : A → S → Prop) s a s' : wp m Q s → m s = Ok (a, s') → Q a s'.
  Proof. unfold wp. by intros ? E; rewrite E in *. Qed.
End wp.
Global Opaque wp.
(** step into a bind whose head has the exact result lemma [H] *)
Ltac wp_step H := apply wp_bind; eapply wp_eq; [exact H|].
(** the same when [H] still has premises, which become goals after the main one *)
Ltac wp_ap H := apply wp_bind; eapply wp_eq; [apply H|].
Ltac wp_go := apply wp_bind; eapply wp_eq; [reflexivity|].
