(** Playing a schedule: computes one execution of the machine, for examples and refutations. *)
From Verif Require Import Base ConcModel.
Inductive action (O : Type) := ACall (i : nat) (o : O) | AStep (i : nat) | ARet (i : nat).
Arguments ACall {O}. Arguments AStep {O}. Arguments ARet {O}.
Section play.
  Context {S O R : Type} (method : O → prog S R).
  Notation cfg := (config S R).
  Notation ev := (event O R).
  Definition play_step (p : prog S R) (s : S) (f : nat → rwmutex) : option (prog S R * S * (nat → rwmutex)) :=
    match p with
    | PDone _ => None
    | PAct w k => Some (k s, w s, f)
    | PRLock l p => if rw_writer (f l) then None else Some (p, s, set_lock f l (MkRw (Datatypes.S (rw_readers (f l))) false))
    | PRUnlock l p => match rw_readers (f l) with 0%nat => None | Datatypes.S n => Some (p, s, set_lock f l (MkRw n (rw_writer (f l)))) end
    | PLock l p => if rw_writer (f l) then None else Some (PLocking l p, s, set_lock f l (MkRw (rw_readers (f l)) true))
    | PLocking l p => match rw_readers (f l) with 0%nat => Some (p, s, f) | _ => None end
    | PUnlock l p => if rw_writer (f l) then Some (p, s, set_lock f l (MkRw (rw_readers (f l)) false)) else None
    end.
  Definition play1 (c : cfg) (a : action O) : option (list ev * cfg) :=
    match a with
    | ACall i o => match calls c !! i with None => Some ([EInv i o], MkCfg (mem c) (lks c) (<[i := Running (method o)]> (calls c))) | _ => None end
    | AStep i => match calls c !! i with
                 | Some (Running p) => match play_step p (mem c) (lks c) with Some (p', s', f') => Some ([], MkCfg s' f' (<[i := Running p']> (calls c))) | None => None end
                 | _ => None end
    | ARet i => match calls c !! i with Some (Running (PDone r)) => Some ([ERet i r], MkCfg (mem c) (lks c) (<[i := Returned]> (calls c))) | _ => None end
    end.
  Fixpoint play (acts : list (action O)) (c : cfg) : option (list ev * cfg) :=
    match acts with
    | [] => Some ([], c)
    | a :: acts => match play1 c a with
                   | Some (h, c) => match play acts c with Some (h', c) => Some (h ++ h', c) | None => None end
                   | None => None end
    end.
  Lemma play_step_sound p s f p' s' f' : play_step p s f = Some (p', s', f') → pstep p s f p' s' f'.
  Proof.
    destruct p as [r|w k|l p|l p|l p|l p|l p]; cbn [play_step]; [done | | | | | |].
    - intros [= <- <- <-]. constructor.
    - destruct (f l) as [n b] eqn:E; cbn. destruct b; [done|]. intros [= <- <- <-]. by constructor.
    - destruct (f l) as [n b] eqn:E; cbn. destruct n; [done|]. intros [= <- <- <-]. by constructor.
    - destruct (f l) as [n b] eqn:E; cbn. destruct b; [done|]. intros [= <- <- <-]. by constructor.
    - destruct (f l) as [n b] eqn:E; cbn. destruct n; [|done]. intros [= <- <- <-]. by econstructor.
    - destruct (f l) as [n b] eqn:E; cbn. destruct b; [|done]. intros [= <- <- <-]. by constructor.
  Qed.
  Lemma play1_sound s h c a h' c' : execution method s h c → play1 c a = Some (h', c') → execution method s (h ++ h') c'.
  Proof.
    intros Hex. destruct c as [m f cs]. destruct a as [i o|i|i]; cbn [play1 calls mem lks].
    - destruct (cs !! i) eqn:E; [done|]. intros [= <- <-]. eapply ex_event; [done|]. by constructor.
    - destruct (cs !! i) as [[p|]|] eqn:E; [|done..]. destruct (play_step p m f) as [[[p' s'] f']|] eqn:Ep; [|done]. intros [= <- <-]. rewrite app_nil_r.
      eapply ex_silent; [done|]. econstructor; [done|]. by apply play_step_sound.
    - destruct (cs !! i) as [[[r| | | | | |]|]|] eqn:E; try done. intros [= <- <-]. eapply ex_event; [done|]. by constructor.
  Qed.
  Lemma play_sound_from s acts : ∀ h c h' c', execution method s h c → play acts c = Some (h', c') → execution method s (h ++ h') c'.
  Proof.
    induction acts as [|a acts IH]; intros h c h' c' Hex; cbn [play]; [intros [= <- <-]; by rewrite app_nil_r|].
    destruct (play1 c a) as [[h1 c1]|] eqn:E1; [|done]. destruct (play acts c1) as [[h2 c2]|] eqn:E2; [|done]. intros [= <- <-]. rewrite app_assoc.
    eapply IH; [|done]. by eapply play1_sound.
  Qed.
  Lemma play_sound s acts h c : play acts (start s) = Some (h, c) → execution method s h c.
  Proof. intros H. eapply (play_sound_from s acts [] _ h c); [constructor | done]. Qed.
  (** only the history *)
  Definition history_of (acts : list (action O)) (s : S) : option (list ev) := fst <$> play acts (start s).
  Lemma history_sound s acts h : history_of acts s = Some h → ∃ c, execution method s h c.
  Proof. unfold history_of. destruct (play acts (start s)) as [[h' c]|] eqn:E; [|done]. intros [= <-]. exists c. by eapply play_sound. Qed.
End play.
