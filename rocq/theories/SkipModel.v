(** Model of ds/skiplist/skiplist.go at pointer level.  Elements live in an arena and are addressed
    by their index; a *Node is the head ([None]) or the node of an element ([Some a]); nil elements
    are [None].  The word drawn from rand.Uint64 is a parameter of Insert.  Len is an unbounded
    integer.  The locker is left to the concurrency model. *)
From Verif Require Import Base.
Open Scope Z_scope.
Open Scope go_scope.

Section skiplist.
  Context {K V : Type} (cmp : K → K → Z).
  (** skiplist.go:42-52 Node, Element *)
  Record elem := MkElem { e_next : list (option nat); e_key : K; e_val : V }.
  (** skiplist.go:54-63 Skiplist *)
  Record skip := MkSkip { sk_els : list elem; sk_head : list (option nat); sk_max : Z; sk_len : Z; sk_cache : list (option (option nat)) }.
  Notation SM := (M skip).

  (** skiplist.go:65-83 New with WithMaxLevel(max); make panics on a negative length *)
  Definition sk_New (max : Z) : res skip :=
    if max <? 0 then Panic else Ok (MkSkip [] (replicate (Z.to_nat max) None) max 0 (replicate (Z.to_nat max) None)).

  (** an element behind a pointer *)
  Definition el (p : option nat) : SM elem := λ s, match p with None => Panic | Some a => match sk_els s !! a with Some e => Ok (e, s) | None => Panic end end.
  (** node.next[i] of a node *)
  Definition nextat (r : option nat) (i : Z) : SM (option nat) := λ s,
    match r with
    | None => match idx (sk_head s) i with Ok p => Ok (p, s) | Panic => Panic | Fuel => Fuel end
    | Some a => match sk_els s !! a with Some e => match idx (e_next e) i with Ok p => Ok (p, s) | Panic => Panic | Fuel => Fuel end | None => Panic end
    end.
  (** node.next[i] = p *)
  Definition setnext (r : option nat) (i : Z) (p : option nat) : SM unit := λ s,
    match r with
    | None => match upd (sk_head s) i p with Ok h => Ok (tt, MkSkip (sk_els s) h (sk_max s) (sk_len s) (sk_cache s)) | Panic => Panic | Fuel => Fuel end
    | Some a => match sk_els s !! a with
                | Some e => match upd (e_next e) i p with
                            | Ok h => Ok (tt, MkSkip (<[a := MkElem h (e_key e) (e_val e)]> (sk_els s)) (sk_head s) (sk_max s) (sk_len s) (sk_cache s))
                            | Panic => Panic | Fuel => Fuel end
                | None => Panic end
    end.
  (** element.value = v *)
  Definition setval (p : option nat) (v : V) : SM unit := λ s,
    match p with
    | None => Panic
    | Some a => match sk_els s !! a with
                | Some e => Ok (tt, MkSkip (<[a := MkElem (e_next e) (e_key e) v]> (sk_els s)) (sk_head s) (sk_max s) (sk_len s) (sk_cache s))
                | None => Panic end
    end.
  (** skiplist.go:99-105 the new Element with level forward pointers *)
  Definition newelem (k : K) (v : V) (level : Z) : SM nat := λ s,
    if level <? 0 then Panic
    else Ok (length (sk_els s), MkSkip (sk_els s ++ [MkElem (replicate (Z.to_nat level) None) k v]) (sk_head s) (sk_max s) (sk_len s) (sk_cache s)).
  (** sl.len += d *)
  Definition addlen (d : Z) : SM unit := λ s, Ok (tt, MkSkip (sk_els s) (sk_head s) (sk_max s) (sk_len s + d) (sk_cache s)).
  (** prevs[i], where prevs is the cache slice; then dereferenced, so nil panics *)
  Definition prevat (i : Z) : SM (option nat) := λ s, match idx (sk_cache s) i with Ok (Some r) => Ok (r, s) | Ok None => Panic | Panic => Panic | Fuel => Fuel end.
  (** sl.prevNodesCache[i] = the node r *)
  Definition setprev (i : Z) (r : option nat) : SM unit := λ s,
    match upd (sk_cache s) i (Some r) with Ok c => Ok (tt, MkSkip (sk_els s) (sk_head s) (sk_max s) (sk_len s) c) | Panic => Panic | Fuel => Fuel end.
  (** sl.maxLevel *)
  Definition getmax : SM Z := λ s, Ok (sk_max s, s).
  (** fuel for walking along a level *)
  Definition walkfuel : SM nat := λ s, Ok (S (length (sk_els s)), s).

  (** uint64 arithmetic *)
  Definition u64 (x : Z) : Z := x mod 2 ^ 64.
  (** Go's << on uint64 *)
  Definition shl64 (a k : Z) : Z := if k <? 64 then u64 (Z.shiftl a k) else 0.
  (** skiplist.go:171-174 the loop of randomLevel: for ; total > k; level++ { levelN >>= 1; total -= levelN } *)
  Fixpoint level_loop (f : nat) (total k levelN level : Z) : res Z :=
    match f with O => Fuel | S f =>
      if total >? k then let levelN := Z.shiftr levelN 1 in level_loop f (u64 (total - levelN)) k levelN (level + 1)
      else Ok level
    end.
  (** skiplist.go:165-176 randomLevel; word is what rander.Uint64() returns; % panics when total is zero *)
  Definition randomLevel (f : nat) (max word : Z) : res Z :=
    let total := u64 (shl64 1 (u64 max) - 1) in
    if total =? 0 then Panic else
    let k := word mod total in
    let levelN := shl64 1 (u64 (u64 max - 1)) in
    level_loop f (u64 (total - levelN)) k levelN 1.

  (** skiplist.go:183-188 for next := prev.next[i]; next != nil; next = next.next[i] {...}: the new prev *)
  Fixpoint walk (f : nat) (key : K) (i : Z) (prev next : option nat) : SM (option nat) :=
    match f with O => mfuel | S f =>
      match next with
      | None => mret_ prev
      | Some _ => let! e := el next in
                  if cmp (e_key e) key >=? 0 then mret_ prev
                  else let! next' := nextat next i in walk f key i next next'
      end
    end.
  (** skiplist.go:181-191 the loop over the levels, i counting down; fuel is the number of levels left *)
  Fixpoint prev_loop (lv : nat) (f : nat) (key : K) (prev : option nat) : SM unit :=
    match lv with
    | O => mret_ tt
    | S lv =>
        let i := Z.of_nat lv in
        let! h := nextat None i in
        let! prev := (match h with
                      | Some _ => let! next := nextat prev i in walk f key i prev next
                      | None => mret_ prev
                      end) in
        setprev i prev ;; prev_loop lv f key prev
    end.
  (** skiplist.go:178-193 findPrevNodes; prevs is the cache itself *)
  Definition findPrevNodes (key : K) : SM unit :=
    let! max := getmax in let! f := walkfuel in prev_loop (Z.to_nat max) f key None.

  (** skiplist.go:107-110 for i := range e.next *)
  Fixpoint link_loop (n : nat) (i : Z) (e : nat) : SM unit :=
    match n with
    | O => mret_ tt
    | S n => let! p := prevat i in
             let! nx := nextat p i in
             setnext (Some e) i nx ;;
             let! p := prevat i in
             setnext p i (Some e) ;; link_loop n (i + 1) e
    end.
  (** skiplist.go:86-113 Insert *)
  Definition sk_Insert (word : Z) (key : K) (value : V) : SM unit :=
    findPrevNodes key ;;
    let! p := prevat 0 in
    let! c := nextat p 0 in
    let! same := (match c with None => mret_ false | Some _ => let! e := el c in mret_ (cmp (e_key e) key =? 0) end) in
    if same then setval c value
    else
      let! max := getmax in
      let! level := (λ s, match randomLevel 64 max word with Ok l => Ok (l, s) | Panic => Panic | Fuel => Fuel end) in
      let! e := newelem key value level in
      link_loop (Z.to_nat level) 0 e ;; addlen 1.

  (** skiplist.go:122-132 the inner loop of Get; [inl v] found, [inr pre] go down *)
  Fixpoint get_walk (f : nat) (key : K) (i : Z) (pre cur : option nat) : SM (V + option nat) :=
    match f with O => mfuel | S f =>
      match cur with
      | None => mret_ (inr pre)
      | Some _ => let! e := el cur in
                  let c := cmp (e_key e) key in
                  if c =? 0 then mret_ (inl (e_val e))
                  else if c >? 0 then mret_ (inr pre)
                  else let! cur' := nextat cur i in get_walk f key i cur cur'
      end
    end.
  (** skiplist.go:120-133 the outer loop of Get, levels from the top *)
  Fixpoint get_loop (lv f : nat) (key : K) (pre : option nat) : SM (option V) :=
    match lv with
    | O => mret_ None
    | S lv => let i := Z.of_nat lv in
              let! cur := nextat pre i in
              let! r := get_walk f key i pre cur in
              match r with inl v => mret_ (Some v) | inr pre => get_loop lv f key pre end
    end.
  (** skiplist.go:116-135 Get; [None] is ErrorNotFound *)
  Definition sk_Get (key : K) : SM (option V) := let! max := getmax in let! f := walkfuel in get_loop (Z.to_nat max) f key None.

  (** skiplist.go:150-152 for i, v := range element.next { prevs[i].next[i] = v }; range evaluates the slice
      once, its cells when they are reached; no cell of element.next is written in the loop *)
  Fixpoint unlink_loop (n : nat) (i : Z) (e : option nat) : SM unit :=
    match n with
    | O => mret_ tt
    | S n => let! v := nextat e i in
             let! p := prevat i in
             setnext p i v ;; unlink_loop n (i + 1) e
    end.
  (** skiplist.go:138-156 Remove *)
  Definition sk_Remove (key : K) : SM bool :=
    findPrevNodes key ;;
    let! p := prevat 0 in
    let! c := nextat p 0 in
    match c with
    | None => mret_ false
    | Some _ => let! e := el c in
                if negb (cmp (e_key e) key =? 0) then mret_ false
                else unlink_loop (length (e_next e)) 0 c ;; addlen (-1) ;; mret_ true
    end.
  (** skiplist.go:159-163 Len *)
  Definition sk_Len : SM Z := λ s, Ok (sk_len s, s).
  (** skiplist.go:196-205 Traversal; w is the visitor's own state *)
  Fixpoint trav_loop {W} (f : nat) (vis : K → V → W → bool * W) (p : option nat) (w : W) : SM W :=
    match f with O => mfuel | S f =>
      match p with
      | None => mret_ w
      | Some _ => let! e := el p in
                  let bw := vis (e_key e) (e_val e) w in
                  if bw.1 then let! q := nextat p 0 in trav_loop f vis q bw.2 else mret_ bw.2
      end
    end.
  (** skiplist.go:196-205 Traversal *)
  Definition sk_Traversal {W} (vis : K → V → W → bool * W) (w : W) : SM W :=
    let! p := nextat None 0 in let! f := walkfuel in trav_loop f vis p w.
  (** skiplist.go:208-215 Keys *)
  Definition sk_Keys : SM (list K) := sk_Traversal (λ k _ ks, (true, ks ++ [k])) [].
End skiplist.
Arguments elem : clear implicits.
Arguments skip : clear implicits.
