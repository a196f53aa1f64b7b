(** What the element-copying functions should compute. *)
From Coq Require Import List ZArith.
From Verif Require Import NdSpec.
Import ListNotations.
Local Open Scope list_scope.
Local Open Scope Z_scope.

(** The element of an array, given by its elements in row-major order, at an index. *)
Definition elem (a shape idx : list Z) : Z := nth (Z.to_nat (position 0 idx shape)) a 0.

(** The inner product of two arrays. *)
Fixpoint inner (a b : list Z) : Z :=
  match a, b with x :: a, y :: b => x * y + inner a b | _, _ => 0 end.

(** [fwd], from arrays of [nx] elements to arrays of [ny] elements and given the previous
    contents of its output, is total and [bwd] is its gradient: it computes the linear map
    adjoint to the one [fwd] computes, and adds it to the previous gradient or replaces that. *)
Definition adjoint (nx ny : Z) (fwd : list Z -> list Z -> option (list Z))
    (bwd : bool -> list Z -> list Z -> option (list Z)) : Prop :=
  forall accum dy dx0, Z.of_nat (length dy) = ny -> Z.of_nat (length dx0) = nx ->
  exists dx, bwd accum dy dx0 = Some dx /\ length dx = length dx0 /\
  forall x y0, Z.of_nat (length x) = nx -> Z.of_nat (length y0) = ny ->
  exists y, fwd x y0 = Some y /\
    inner dx x = (if accum then inner dx0 x else 0) + inner dy y.

(** The forward pass is total, and relates the elements of the output to those of the input. *)
Definition computes (xshape yshape : list Z) (fwd : list Z -> list Z -> option (list Z))
    (rel : (list Z -> Z) -> (list Z -> Z) -> Prop) : Prop :=
  forall x y0, Z.of_nat (length x) = size xshape -> Z.of_nat (length y0) = size yshape ->
  exists y, fwd x y0 = Some y /\ length y = length y0 /\ rel (elem x xshape) (elem y yshape).

(** Extending an axis of [n] elements to all integers: by its outermost elements, mirrored
    with the outermost elements repeated, or mirrored at the outermost elements. *)
Definition nearest (n p : Z) : Z := Z.min (Z.max p 0) (n - 1).
Definition mirror_half (n p : Z) : Z := let a := p mod (2 * n) in if a <? n then a else 2 * n - 1 - a.
Definition mirror_whole (n p : Z) : Z :=
  if n =? 1 then 0 else let a := p mod (2 * (n - 1)) in if a <? n then a else 2 * (n - 1) - a.

(** Entry [k], counting axes, of a list aligned with the last axes. *)
Definition aligned (l : list Z) (ndim k : nat) : Z :=
  if Nat.ltb (k + length l) ndim then 0 else nth (k + length l - ndim) l 0.
(** The amounts [pads k] and [padf k] before and after axis [k] given by pad_width. *)
Definition pad_before (w : list Z) (ndim k : nat) : Z :=
  if Nat.ltb (2 * k + length w) (2 * ndim) then 0 else nth (2 * k + length w - 2 * ndim) w 0.
Definition pad_after (w : list Z) (ndim k : nat) : Z :=
  if Nat.ltb (2 * k + length w) (2 * ndim) then 0 else nth (2 * k + length w - 2 * ndim + 1) w 0.
(** Axis [k] is among [axes], which may be counted from the end. *)
Definition among (axes : list Z) (ndim k : nat) : bool :=
  existsb (fun a => (a =? Z.of_nat k) || (a + Z.of_nat ndim =? Z.of_nat k))%bool axes.
