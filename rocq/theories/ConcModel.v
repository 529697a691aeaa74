(** Goroutines, methods as programs with lock commands, and sync.RWMutex.

    A method is a program: a tree whose memory steps ([PAct]) each read and write the shared state
    at once and whose lock commands name a lock.  Go's data race rules make finer steps
    unnecessary to consider where the theorems of ConcProps apply: they hold for every decomposition
    of the methods into steps, however small.  Every call is an activity of its own; a goroutine is
    a sequence of calls, so its executions are among those considered. *)
From Verif Require Import Base.

Section machine.
  Context {S O R : Type}.
  (** a call in progress: return, a memory action, or a lock command of locker.go:10-15 and what follows *)
  Inductive prog :=
  | PDone (r : R)
  | PAct (w : S → S) (k : S → prog)
  | PRLock (l : nat) (p : prog)
  | PRUnlock (l : nat) (p : prog)
  | PLock (l : nat) (p : prog)
  | PLocking (l : nat) (p : prog)
  | PUnlock (l : nat) (p : prog).

  (** sync.RWMutex behind the interface of utils/sync/locker.go:8-15 (WithGoroutineSafe; FakeLocker, :19-39, does nothing): readers inside; a writer announced or inside *)
  Record rwmutex := MkRw { rw_readers : nat; rw_writer : bool }.
  (** a free sync.RWMutex *)
  Definition rw_free : rwmutex := MkRw 0 false.

  (** a call is running or has returned *)
  Inductive thread := Running (p : prog) | Returned.
  (** an invocation or a response *)
  Inductive event := EInv (i : nat) (o : O) | ERet (i : nat) (r : R).
  (** the shared memory, the locks, the calls *)
  Record config := MkCfg { mem : S; lks : nat → rwmutex; calls : gmap nat thread }.

  (** the locks with one replaced *)
  Definition set_lock (f : nat → rwmutex) (l : nat) (x : rwmutex) : nat → rwmutex := λ m, if decide (m = l) then x else f m.
  (** what one call does when the scheduler picks it: memory and locks before and after *)
  Inductive pstep : prog → S → (nat → rwmutex) → prog → S → (nat → rwmutex) → Prop :=
  | ps_act w k s f : pstep (PAct w k) s f (k s) (w s) f
  (** RLock waits while a writer is inside or waiting *)
  | ps_rlock l p s f n : f l = MkRw n false → pstep (PRLock l p) s f p s (set_lock f l (MkRw (Datatypes.S n) false))
  | ps_runlock l p s f n b : f l = MkRw (Datatypes.S n) b → pstep (PRUnlock l p) s f p s (set_lock f l (MkRw n b))
  (** Lock waits for the other writer, then keeps new readers out, then waits for the readers inside *)
  | ps_lock l p s f n : f l = MkRw n false → pstep (PLock l p) s f (PLocking l p) s (set_lock f l (MkRw n true))
  | ps_locking l p s f b : f l = MkRw 0 b → pstep (PLocking l p) s f p s f
  | ps_unlock l p s f n : f l = MkRw n true → pstep (PUnlock l p) s f p s (set_lock f l (MkRw n false)).

  (** a step of the whole program *)
  Context (method : O → prog).
  (** one step of one call; RLock waits for the writer and for announced writers, Lock for everyone, as sync.RWMutex *)
  Inductive mstep : config → option event → config → Prop :=
  | ms_call s f cs i o : cs !! i = None → mstep (MkCfg s f cs) (Some (EInv i o)) (MkCfg s f (<[i := Running (method o)]> cs))
  | ms_step s f cs i p p' s' f' : cs !! i = Some (Running p) → pstep p s f p' s' f' →
      mstep (MkCfg s f cs) None (MkCfg s' f' (<[i := Running p']> cs))
  | ms_return s f cs i r : cs !! i = Some (Running (PDone r)) → mstep (MkCfg s f cs) (Some (ERet i r)) (MkCfg s f (<[i := Returned]> cs)).

  (** the executions from s and the history of calls and returns each makes *)
  Definition start (s : S) : config := MkCfg s (λ _, rw_free) ∅.
  (** the executions from a memory, with their invocations and responses *)
  Inductive execution (s : S) : list event → config → Prop :=
  | ex_start : execution s [] (start s)
  | ex_silent h c c' : execution s h c → mstep c None c' → execution s h c'
  | ex_event h c c' e : execution s h c → mstep c (Some e) c' → execution s (h ++ [e]) c'.
End machine.
Arguments prog : clear implicits.
Arguments event : clear implicits.
Arguments thread : clear implicits.
Arguments config : clear implicits.

Section methods.
  Context {S R R' : Type}.
  (** sequential composition of programs *)
  Fixpoint bindp (p : prog S R) (k : R → prog S R') : prog S R' :=
    match p with
    | PDone r => k r
    | PAct w q => PAct w (λ s, bindp (q s) k)
    | PRLock l p => PRLock l (bindp p k)
    | PRUnlock l p => PRUnlock l (bindp p k)
    | PLock l p => PLock l (bindp p k)
    | PLocking l p => PLocking l (bindp p k)
    | PUnlock l p => PUnlock l (bindp p k)
    end.
End methods.
Section methods.
  Context {S R : Type}.
  (** the lock a method takes: RLock or Lock *)
  Inductive mode := Rd | Wr.
  (** x.locker.Lock(); defer x.locker.Unlock(); body   — and the same with RLock, RUnlock.  The
      deferred unlock runs on a normal return and on a panic; R has a value for panics. *)
  Definition locked (m : mode) (body : prog S R) : prog S R :=
    match m with
    | Rd => PRLock 0 (bindp body (λ r, PRUnlock 0 (PDone r)))
    | Wr => PLock 0 (bindp body (λ r, PUnlock 0 (PDone r)))
    end.
  (** running a program alone, where locks never wait *)
  Fixpoint exec (p : prog S R) (s : S) : R * S :=
    match p with
    | PDone r => (r, s)
    | PAct w k => exec (k s) (w s)
    | PRLock _ p | PRUnlock _ p | PLock _ p | PLocking _ p | PUnlock _ p => exec p s
    end.
  (** no lock commands; no lock commands and no writes *)
  Fixpoint plain (p : prog S R) : Prop := match p with PDone _ => True | PAct w k => ∀ s, plain (k s) | _ => False end.
  (** no memory action changes the memory *)
  Fixpoint reading (p : prog S R) : Prop := match p with PDone _ => True | PAct w k => ∀ s, w s = s ∧ reading (k s) | _ => False end.
End methods.

(** methods that enter the lock several times: a sequence of critical sections, each chosen by the
    results of the earlier ones *)
Section sections.
  Context {S SO SR R : Type} (lock : SO → mode) (body : SO → prog S SR).
  (** a method consisting of several critical sections *)
  Inductive code := CRet (r : R) | COp (o : SO) (k : SR → code).
  (** the program of such a method: each section between its lock and unlock *)
  Fixpoint flatten (c : code) : prog S R :=
    match c with CRet r => PDone r | COp o k => bindp (locked (lock o) (body o)) (λ r, flatten (k r)) end.
End sections.
Arguments code : clear implicits.
