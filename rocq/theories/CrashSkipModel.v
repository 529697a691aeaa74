(** Skiplist with a comparison function that may panic (CrashModel.v): the code of SkipModel.v with the
    calls of the comparison function spelt out. *)
From Verif Require Import Base SkipModel SkipSpec CrashModel.
Open Scope Z_scope.
Open Scope go_scope.
Open Scope x_scope.

Section skiplist.
  Context {K V W C : Type} (u : user_cmp K C).
  Notation XS := (X (skip K V * C)).
  (** skiplist.go:183-188 *)
  Fixpoint x_walk (f : nat) (key : K) (i : Z) (prev next : option nat) : XS (option nat) :=
    match f with O => xfuel | S f =>
      match next with
      | None => xret prev
      | Some _ => let? e := xrun (el next) in
                  let? c := xcmp u (e_key e) key in
                  if c >=? 0 then xret prev
                  else let? next' := xrun (nextat next i) in x_walk f key i next next'
      end
    end.
  (** skiplist.go:181-191 *)
  Fixpoint x_prev_loop (lv : nat) (f : nat) (key : K) (prev : option nat) : XS unit :=
    match lv with
    | O => xret tt
    | S lv =>
        let i := Z.of_nat lv in
        let? h := xrun (nextat None i) in
        let? prev := (match h with
                      | Some _ => let? next := xrun (nextat prev i) in x_walk f key i prev next
                      | None => xret prev
                      end) in
        xrun (setprev i prev) ;? x_prev_loop lv f key prev
    end.
  (** skiplist.go:178-193 findPrevNodes *)
  Definition x_findPrevNodes (key : K) : XS unit :=
    let? max := xrun getmax in let? f := xrun walkfuel in x_prev_loop (Z.to_nat max) f key None.
  (** skiplist.go:86-113 Insert; what follows the last comparison is as in SkipModel.v *)
  Definition x_sk_Insert (word : Z) (key : K) (value : V) : XS unit :=
    x_findPrevNodes key ;?
    let? p := xrun (prevat 0) in
    let? c := xrun (nextat p 0) in
    let? same := (match c with None => xret false | Some _ => let? e := xrun (el c) in let? z := xcmp u (e_key e) key in xret (z =? 0) end) in
    xrun (if same : bool then setval c value
          else
            let! max := getmax in
            let! level := (λ s, match randomLevel 64 max word with Ok l => Ok (l, s) | Panic => Panic | Fuel => Fuel end) in
            let! e := newelem key value level in
            link_loop (Z.to_nat level) 0 e ;; addlen 1).
  (** skiplist.go:122-132 *)
  Fixpoint x_get_walk (f : nat) (key : K) (i : Z) (pre cur : option nat) : XS (V + option nat) :=
    match f with O => xfuel | S f =>
      match cur with
      | None => xret (inr pre)
      | Some _ => let? e := xrun (el cur) in
                  let? c := xcmp u (e_key e) key in
                  if c =? 0 then xret (inl (e_val e))
                  else if c >? 0 then xret (inr pre)
                  else let? cur' := xrun (nextat cur i) in x_get_walk f key i cur cur'
      end
    end.
  (** skiplist.go:120-133 *)
  Fixpoint x_get_loop (lv f : nat) (key : K) (pre : option nat) : XS (option V) :=
    match lv with
    | O => xret None
    | S lv => let i := Z.of_nat lv in
              let? cur := xrun (nextat pre i) in
              let? r := x_get_walk f key i pre cur in
              match r with inl v => xret (Some v) | inr pre => x_get_loop lv f key pre end
    end.
  (** skiplist.go:116-135 Get *)
  Definition x_sk_Get (key : K) : XS (option V) := let? max := xrun getmax in let? f := xrun walkfuel in x_get_loop (Z.to_nat max) f key None.
  (** skiplist.go:138-156 Remove *)
  Definition x_sk_Remove (key : K) : XS bool :=
    x_findPrevNodes key ;?
    let? p := xrun (prevat 0) in
    let? c := xrun (nextat p 0) in
    match c with
    | None => xret false
    | Some _ => let? e := xrun (el c) in
                let? z := xcmp u (e_key e) key in
                xrun (if negb (z =? 0) then mret_ false
                      else (unlink_loop (length (e_next e)) 0 c ;; addlen (-1) ;; mret_ true))
    end.
  (** skiplist.go:86-156 the methods that compare; the others do not and are as before *)
  Definition x_sk_step (o : sk_op K V W) : XS (sk_res K V W) :=
    match o with
    | SInsert w k v => x_sk_Insert w k v ;? xret SUnit
    | SGet k => let? r := x_sk_Get k in xret (SVal r)
    | SRemove k => let? b := x_sk_Remove k in xret (SBool b)
    | o => xrun (sk_step (λ _ _, 0) o)
    end.
End skiplist.
