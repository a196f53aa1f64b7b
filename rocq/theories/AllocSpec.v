(** What a memory allocator has to guarantee. *)
From Coq Require Import List ZArith Bool.
From Verif Require Import AllocModel.
Import ListNotations.
Local Open Scope list_scope.
Local Open Scope Z_scope.

(** Block [i] occupies [n] bytes from offset [o] of chunk [c]. *)
Definition occupies (s : ast) (i c : nat) (o n : Z) : Prop :=
  m_ptr (mems s i) = Some (c, o) /\ m_bytes (mems s i) = n.

(** A block handed out for [b] bytes on device [d] is usable: it lies inside a chunk of
    that device that is still held, and is large enough. *)
Definition usable (s : ast) (i : nat) (b : Z) (d : nat) : Prop :=
  exists c o n size, occupies s i c o n /\ In (c, d, size) (held s) /\ 0 <= o /\ o + n <= size /\ b <= n /\ 0 < n.

Definition disjoint (s : ast) (i j : nat) : Prop :=
  forall c o n c' o' n', occupies s i c o n -> occupies s j c' o' n' ->
    c <> c' \/ o + n <= o' \/ o' + n' <= o.

(** Total size of the chunks held on a device. *)
Definition held_bytes (d : nat) (l : list (nat * nat * Z)) : Z :=
  fold_right Z.add 0 (map (fun x => if Nat.eqb (snd (fst x)) d then snd x else 0) l).

(** Live blocks of a device of at most 1 MB (small) or more. *)
Definition live_blocks (s : ast) (sm : bool) (d : nat) (live : list (nat * Z * nat)) : list (nat * Z * nat) :=
  filter (fun e => Nat.eqb (snd e) d && Bool.eqb (m_bytes (mems s (fst (fst e))) <=? 1048576) sm) live.
