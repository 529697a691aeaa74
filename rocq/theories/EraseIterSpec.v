(** A Map behaves from now on as the finite map with the pairs l (MapSpec.v): every later history of calls
    returns what it says. *)
From Verif Require Import Base History RbModel MapModel MapSpec.
Definition map_is {K V} (cmp : K → K → Z) (s : rb K V) (l : list (K * V)) : Prop :=
  ∀ (W : Type) (later : list (map_op K V W)),
    match srun (map_spec cmp) later l with
    | Some (rs, _) => ∃ s', run (map_step cmp) later s = Ok (rs, s')
    | None => run (map_step cmp) later s = Panic
    end.
(** the pairs that are not picked *)
Definition rest {K V} (pick : K → V → bool) (l : list (K * V)) : list (K * V) := filter (λ kv, pick kv.1 kv.2 = false) l.
