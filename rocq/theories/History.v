(** Operation histories: running a list of operations on an implementation (which may
    panic or run out of fuel) and on an abstract specification (where [None] means "this
    call must panic"). *)
From Verif Require Import Base.

Section history.
  Context {S A O R : Type}.
  (** implementation step *)
  Context (step : O → M S R).
  (** specification step *)
  Context (spec : O → A → option (R * A)).

  Fixpoint run (ops : list O) (s : S) : res (list R * S) :=
    match ops with
    | [] => Ok ([], s)
    | o :: ops => match step o s with
                  | Ok (r, s') => match run ops s' with
                                  | Ok (rs, s'') => Ok (r :: rs, s'')
                                  | Panic => Panic
                                  | Fuel => Fuel
                                  end
                  | Panic => Panic
                  | Fuel => Fuel
                  end
    end.

  Fixpoint srun (ops : list O) (a : A) : option (list R * A) :=
    match ops with
    | [] => Some ([], a)
    | o :: ops => match spec o a with
                  | Some (r, a') => match srun ops a' with
                                    | Some (rs, a'') => Some (r :: rs, a'')
                                    | None => None
                                    end
                  | None => None
                  end
    end.

  Context (rel : S → A → Prop).
  (** [res] outcome [m] agrees with the specified outcome [sp]. *)
  Definition agrees {X} (m : res (X * S)) (sp : option (X * A)) : Prop :=
    match sp with
    | Some (x, a') => ∃ s', m = Ok (x, s') ∧ rel s' a'
    | None => m = Panic
    end.

  Lemma run_agrees (good : O → Prop) :
    (∀ o s a, good o → rel s a → agrees (step o s) (spec o a)) →
    ∀ ops s a, Forall good ops → rel s a → agrees (run ops s) (srun ops a).
  Proof.
    intros H ops. induction ops as [|o ops IH]; intros s a Hg Hr; simpl.
    - eexists. split; [done|done].
    - apply Forall_cons in Hg as [Hg Hgs]. pose proof (H o s a Hg Hr) as Ho. unfold agrees in Ho.
      destruct (spec o a) as [[r a']|]; simpl.
      + destruct Ho as (s' & -> & Hr'). specialize (IH s' a' Hgs Hr'). unfold agrees in IH.
        destruct (srun ops a') as [[rs a'']|]; simpl.
        * destruct IH as (s'' & -> & ?). eexists. split; [done|done].
        * by rewrite IH.
      + by rewrite Ho.
  Qed.
End history.
