(** What C107 talks about: the memory a container keeps alive. Following pointers from the container,
    as the garbage collector does, must lead only to the elements it still contains. *)
From Verif Require Import Base RbModel BidlistModel SlistModel SkipModel GoSliceModel VectorModel DequeModel.
Open Scope nat_scope.

(** node [a] can be reached from the red-black tree: from its root through parent, left and right
    (rbtree.go:17-21 RbTree; node.go:13-20 Node) *)
Inductive rb_held {K V} (s : rb K V) : nat → Prop :=
| rh_root a : rb_root s = Some a → rb_held s a
| rh_ptr a b n : rb_held s a → rb_heap s !! a = Some n → n_parent n = Some b ∨ n_left n = Some b ∨ n_right n = Some b → rb_held s b.

(** node [a] can be reached from list [l]: from its head through prev, next and the owner's head
    (list.go:19-24 Node; :53-56 List) *)
Inductive b_held {T} (w : bworld T) (l : nat) : nat → Prop :=
| bh_head a x : b_lists w !! l = Some x → b_head x = Some a → b_held w l a
| bh_ptr a b n : b_held w l a → b_nodes w !! a = Some n → b_prev n = Some b ∨ b_next n = Some b → b_held w l b
| bh_owner a b n k x : b_held w l a → b_nodes w !! a = Some n → b_owner n = Some k → b_lists w !! k = Some x → b_head x = Some b → b_held w l b.

(** node [a] can be reached from list [l]: from its head or tail through next
    (simplelist.go:9-12 Node; :23-27 List) *)
Inductive s_held {T} (w : sworld T) (l : nat) : nat → Prop :=
| sh_head a x : sw_lists w !! l = Some x → sl_head x = Some a ∨ sl_tail x = Some a → s_held w l a
| sh_ptr a b n : s_held w l a → sw_nodes w !! a = Some n → sn_next n = Some b → s_held w l b.

(** element [a] can be reached from the skip list: from its head's forward pointers or the cache of
    previous nodes, through forward pointers (skiplist.go:43-63) *)
Inductive sk_held {K V} (s : skip K V) : nat → Prop :=
| kh_head a : Some a ∈ sk_head s → sk_held s a
| kh_cache a : Some (Some a) ∈ sk_cache s → sk_held s a
| kh_ptr a b e : sk_held s a → sk_els s !! a = Some e → Some b ∈ e_next e → sk_held s b.

(** value [x] lies in the array behind vector [v] (vector.go:24-26; a slice keeps its whole array alive) *)
Definition v_held {T} (w : world T) (v : nat) (x : T) : Prop :=
  ∃ s, w_vecs w !! v = Some s ∧ x ∈ array_of (s_arr s) (w_mem w).

(** value [x] lies in the array of a segment of the deque, live or pooled
    (deque.go:19-25 Deque; segment.go:4-9 Segment; pool.go:4-6) *)
Definition dq_held {T} (d : deque T) (x : T) : Prop :=
  ∃ a sg, (Some a ∈ dq_segs d ∨ a ∈ dq_pool d) ∧ dq_heap d !! a = Some sg ∧ x ∈ sg_data sg.
