(** A queue is the list of its elements, oldest first; a stack is the list of its elements, newest
    first.  [None]: the call must panic. *)
From Verif Require Import Base AdapterModel.
Open Scope Z_scope.
Definition q_spec {T} (o : q_op T) (l : list T) : option (ad_out T * list T) :=
  match o with
  | QPush x => Some (AUnit, l ++ [x])
  | QPop => match l with x :: l' => Some (AVal x, l') | [] => None end
  | QFront => match l with x :: _ => Some (AVal x, l) | [] => None end
  | QBack => match last l with Some x => Some (AVal x, l) | None => None end
  | QSize => Some (AInt (Z.of_nat (length l)), l)
  | QEmpty => Some (ABool (bool_decide (l = [])), l)
  | QClear => Some (AUnit, [])
  end.
Definition st_spec {T} (o : st_op T) (l : list T) : option (ad_out T * list T) :=
  match o with
  | TPush x => Some (AUnit, x :: l)
  | TPop => match l with x :: l' => Some (AVal x, l') | [] => None end
  | TTop => match l with x :: _ => Some (AVal x, l) | [] => None end
  | TSize => Some (AInt (Z.of_nat (length l)), l)
  | TEmpty => Some (ABool (bool_decide (l = [])), l)
  | TClear => Some (AUnit, [])
  end.
(** what a container object must do for the adapters, [rel s l] saying that s holds the elements l *)
Record cont_law {S T} (c : container S T) (rel : S → list T → Prop) : Prop := {
  cl_push_back : ∀ s l x, rel s l → ∃ s', c_PushBack c x s = Ok (tt, s') ∧ rel s' (l ++ [x]);
  cl_push_front : ∀ s l x, rel s l → ∃ s', c_PushFront c x s = Ok (tt, s') ∧ rel s' (x :: l);
  cl_front : ∀ s l, rel s l → match head l with Some x => ∃ s', c_Front c s = Ok (x, s') ∧ rel s' l | None => c_Front c s = Panic end;
  cl_back : ∀ s l, rel s l → match last l with Some x => ∃ s', c_Back c s = Ok (x, s') ∧ rel s' l | None => c_Back c s = Panic end;
  cl_pop_front : ∀ s l, rel s l → match l with x :: l' => ∃ s', c_PopFront c s = Ok (x, s') ∧ rel s' l' | [] => c_PopFront c s = Panic end;
  cl_pop_back : ∀ s l, rel s l → (l = [] → c_PopBack c s = Panic) ∧ ∀ l' x, l = l' ++ [x] → ∃ s', c_PopBack c s = Ok (x, s') ∧ rel s' l';
  cl_empty : ∀ s l, rel s l → ∃ s', c_Empty c s = Ok (bool_decide (l = []), s') ∧ rel s' l;
  cl_size : ∀ s l, rel s l → ∃ s', c_Size c s = Ok (Z.of_nat (length l), s') ∧ rel s' l;
  cl_clear : ∀ s l, rel s l → ∃ s', c_Clear c s = Ok (tt, s') ∧ rel s' [];
}.
