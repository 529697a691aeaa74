(** ds/ketama/ketama.go with WithGoroutineSafe: which critical sections the methods consist of. *)
From Verif Require Import Base RbModel MapModel BloomModel KetamaModel ConcModel.
Open Scope Z_scope.
Open Scope go_scope.

Section ketama.
  Context (dig : bytes → bytes) (replicas : Z).
  (** the critical sections: of Empty :66-69, of Add :74-86, of Remove :90-103, the second of Get :114-122 *)
  Inductive kt_section := SecEmpty | SecAdd (nodes : list bytes) | SecRemove (nodes : list bytes) | SecGet (hash : BinNums.N).
  (** ketama.go:67, :75, :91, :115: the lock each section takes *)
  Definition section_lock (o : kt_section) : mode := match o with SecEmpty => Rd | _ => Wr end.
  (** the memory effect of each section *)
  Definition section_step (o : kt_section) : M (rb BinNums.N bytes) kt_res :=
    match o with
    | SecEmpty => let! b := kt_Empty in mret_ (KBool b)
    | SecAdd nodes => kt_Add dig replicas nodes ;; mret_ KUnit
    | SecRemove nodes => kt_Remove dig replicas nodes ;; mret_ KUnit
    | SecGet hash => let! r := kt_get_locked hash in mret_ (KNode r)
    end.
  (** the methods; [None] is a panic.  Get :106-123 calls Empty, which locks and unlocks, hashes the
      key without the lock, and then locks again *)
  Definition kt_method (o : kt_op) : code kt_section (option kt_res) (option kt_res) :=
    match o with
    | KAdd nodes => COp (SecAdd nodes) CRet
    | KRemove nodes => COp (SecRemove nodes) CRet
    | KEmpty => COp SecEmpty CRet
    | KGet key => COp SecEmpty (λ r,
        match r with
        | Some (KBool true) => CRet (Some (KNode None))
        | Some (KBool false) =>
            match gen_hash_ints dig (ksalt ++ key) 1 with
            | Ok hashs => match hashs !! 0%nat with Some hash => COp (SecGet hash) CRet | None => CRet None end
            | _ => CRet None
            end
        | _ => CRet None
        end)
    end.
End ketama.
