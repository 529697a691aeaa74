(** The API of Skiplist and its meaning on ascending lists of pairs ([upsert], [lookup_k],
    [erase_k], [visit] are those of the Map specification). *)
From Verif Require Import Base History RbSpec MapSpec SkipModel.
Open Scope Z_scope.
Open Scope go_scope.

(** SInsert carries the word the random generator returns if it is asked *)
Inductive sk_op (K V W : Type) := SInsert (word : Z) (k : K) (v : V) | SGet (k : K) | SRemove (k : K) | SLen | SKeys | STraverse (vis : K → V → W → bool * W) (w : W).
Arguments SInsert {K V W}. Arguments SGet {K V W}. Arguments SRemove {K V W}. Arguments SLen {K V W}. Arguments SKeys {K V W}. Arguments STraverse {K V W}.
Inductive sk_res (K V W : Type) := SUnit | SVal (o : option V) | SBool (b : bool) | SInt (z : Z) | SKeyList (l : list K) | SVis (w : W).
Arguments SUnit {K V W}. Arguments SVal {K V W}. Arguments SBool {K V W}. Arguments SInt {K V W}. Arguments SKeyList {K V W}. Arguments SVis {K V W}.
Section spec.
  Context {K V W : Type} (cmp : K → K → Z).
  Definition sk_step (o : sk_op K V W) : M (skip K V) (sk_res K V W) :=
    match o with
    | SInsert w k v => sk_Insert cmp w k v ;; mret_ SUnit
    | SGet k => let! r := sk_Get cmp k in mret_ (SVal r)
    | SRemove k => let! b := sk_Remove cmp k in mret_ (SBool b)
    | SLen => let! n := sk_Len in mret_ (SInt n)
    | SKeys => let! l := sk_Keys in mret_ (SKeyList l)
    | STraverse vis w => let! w := sk_Traversal vis w in mret_ (SVis w)
    end.
  Definition sk_spec (o : sk_op K V W) (l : list (K * V)) : option (sk_res K V W * list (K * V)) :=
    match o with
    | SInsert _ k v => Some (SUnit, upsert cmp k v l)
    | SGet k => Some (SVal (lookup_k cmp k l), l)
    | SRemove k => Some (SBool (existsb (is_k cmp k) l), erase_k cmp k l)
    | SLen => Some (SInt (Z.of_nat (length l)), l)
    | SKeys => Some (SKeyList l.*1, l)
    | STraverse vis w => Some (SVis (visit vis l w), l)
    end.
  (** random words are 64-bit *)
  Definition sk_op_ok (o : sk_op K V W) : Prop := match o with SInsert w _ _ => 0 <= w < 2 ^ 64 | _ => True end.
End spec.
