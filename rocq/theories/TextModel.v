(** Model of the String() methods of Deque, bidlist.List, simplelist.List, Queue and Stack, and of
    ds/list/simplelist/iterator.go.  fmt.Sprintf("%v", x) is the parameter [show]; strings are byte
    strings.  Vector.String and Array.String are one call of fmt.Sprintf and are not modelled. *)
From Coq Require Import String Ascii.
From Verif Require Import Base DequeModel BidlistModel SlistModel AdapterModel.
Open Scope Z_scope.
Open Scope go_scope.

Section text.
  Context {T : Type} (show : T → string).
  (** if str != "[" { str += " " }; str += fmt.Sprintf("%v", x) *)
  Definition add_text (str : string) (x : T) : string :=
    ((if negb (String.eqb str "[") then str ++ " " else str) ++ show x)%string.

  (** deque.go:389-394 for i := 0; i < d.Size(); i++; c bounds the number of rounds *)
  Fixpoint dq_text_loop (c : nat) (i : Z) (str : string) : M (deque T) string :=
    match c with O => mfuel | S c =>
      let! n := dq_Size in
      if i <? n then let! x := dq_at i in dq_text_loop c (i + 1) (add_text str x) else mret_ str end.
  (** deque.go:387-398 String *)
  Definition dq_String : M (deque T) string :=
    let! d := dget in
    let! str := dq_text_loop (S (Z.to_nat (dq_size d))) 0 "["%string in mret_ (str ++ "]")%string.

  (** bidlist/list.go:287-292 for n := l.FrontNode(); n != nil; n = n.Next() *)
  Fixpoint b_text_loop (c : nat) (n : option nat) (str : string) : M (bworld T) string :=
    match n with
    | None => mret_ str
    | Some _ => match c with O => mfuel | S c =>
                  let! x := nd n in let str := add_text str (b_val x) in
                  let! n := b_Next n in b_text_loop c n str end
    end.
  (** bidlist/list.go:285-295 String *)
  Definition b_String (fuel l : nat) : M (bworld T) string :=
    let! n := b_FrontNode l in let! str := b_text_loop fuel n "["%string in mret_ (str ++ "]")%string.

  (** simplelist/simplelist.go:147-152 *)
  Fixpoint s_text_loop (c : nat) (n : option nat) (str : string) : M (sworld T) string :=
    match n with
    | None => mret_ str
    | Some _ => match c with O => mfuel | S c =>
                  let! x := sn n in let str := add_text str (sn_val x) in
                  let! n := s_Next n in s_text_loop c n str end
    end.
  (** simplelist/simplelist.go:145-155 String *)
  Definition s_String (fuel l : nat) : M (sworld T) string :=
    let! n := s_FrontNode l in let! str := s_text_loop fuel n "["%string in mret_ (str ++ "]")%string.

  (** queue.go:125-130 and stack.go:116-121 String return q.container.String(): the container's text *)
  Definition q_String_deque : M (deque T) string := dq_String.
  (** queue.go:125-130, stack.go:116-121 String over a bidlist *)
  Definition q_String_list (fuel l : nat) : M (bworld T) string := b_String fuel l.
End text.

Section siter.
  Context {T : Type}.
  (** simplelist/iterator.go: a ListIterator is the node pointer it holds.
      :19-21 IsValid, :24-29 Next (the moved iterator), :32-37 Value, :40-44 SetValue, :47-49 Clone, :52-61 Equal *)
  Definition sli_IsValid (i : option nat) : bool := bool_decide (i ≠ None).
  (** iterator.go:24-29 Next *)
  Definition sli_Next (i : option nat) : M (sworld T) (option nat) := match i with None => mret_ None | Some _ => s_Next i end.
  (** iterator.go:32-37 Value *)
  Definition sli_Value (i : option nat) : M (sworld T) T := match i with None => mpanic | Some _ => let! n := sn i in mret_ (sn_val n) end.
  (** iterator.go:40-44 SetValue *)
  Definition sli_SetValue (i : option nat) (x : T) : M (sworld T) unit := match i with None => mret_ tt | Some _ => sset_val i x end.
  (** iterator.go:47-49 Clone *)
  Definition sli_Clone (i : option nat) : option nat := i.
  (** iterator.go:52-61 Equal *)
  Definition sli_Equal (i other : option nat) : bool := speq other i.
  (** the client loop [for it := from; it.IsValid(); it.Next() { use(it.Value()) }] *)
  Fixpoint sli_walk (fuel : nat) (i : option nat) : M (sworld T) (list T) :=
    if sli_IsValid i then
      match fuel with
      | O => mfuel
      | S f => let! x := sli_Value i in let! j := sli_Next i in let! xs := sli_walk f j in mret_ (x :: xs)
      end
    else mret_ [].
  (** the client loop that rewrites every element: for ...; it.Next() { it.SetValue(f(it.Value())) } *)
  Fixpoint sli_map (f : T → T) (fuel : nat) (i : option nat) : M (sworld T) unit :=
    if sli_IsValid i then
      match fuel with
      | O => mfuel
      | S n => let! x := sli_Value i in sli_SetValue i (f x) ;; let! j := sli_Next i in sli_map f n j
      end
    else mret_ tt.
End siter.
