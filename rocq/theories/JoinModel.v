(** Model of Concatenate, Split and Stack of src/nbla/function/generic/.

    The conventions of IdxModel hold: elements are integers, None is any error.  Arrays are
    lists in memory order; an array got with the flag write_only holds its previous values. *)
From Coq Require Import List ZArith Bool.
From Verif Require Import IdxModel.
Import ListNotations.
Local Open Scope list_scope.
Local Open Scope Z_scope.

(** Variable::size(axis) (src/nbla/nd_array.cpp:96-101). *)
Definition size_from (shape : list Z) (axis : nat) : Z := prod (skipn axis shape).
(** Division of Size_t values: by zero it is an error. *)
Definition divide (a b : Z) : option Z := if b =? 0 then None else Some (Z.quot a b).
(** A loop doing [dst[d] = (accum ? dst[d] : 0) + src[s]]. *)
Definition acc_loop (accum : bool) : list (Z * Z) -> list Z -> list Z -> option (list Z) :=
  if accum then add_loop else copy_loop.
(** Two nested loops over o and i. *)
Definition nest (outer inner : Z) (f : Z -> Z -> Z * Z) : list (Z * Z) :=
  flat_map (fun o => map (f o) (upto inner)) (upto outer).

(** * Concatenate (concatenate.cpp) *)

(** The comparison of the other extents (concatenate.cpp:43-51): the axes of the first input
    are looked up in the shape of the other one, which is read past its end when shorter. *)
Fixpoint others_agree (j axis : nat) (first shape : list Z) : option bool :=
  match first with
  | [] => Some true
  | n :: first =>
      obind (others_agree (S j) axis first shape) (fun b =>
      if Nat.eqb j axis then Some b
      else obind (nth_error shape j) (fun m => Some ((m =? n) && b)))
  end.
Fixpoint set_nth (l : list Z) (k : nat) (v : Z) : list Z :=
  match l, k with
  | [], _ => []
  | _ :: l, O => v :: l
  | x :: l, S k => x :: set_nth l k v
  end.
(** The loop of setup_impl over the inputs after the first (concatenate.cpp:34-53): the shape
    of the output. *)
Fixpoint cat_shape (axis : nat) (shape : list Z) (shapes : list (list Z)) : option (list Z) :=
  match shapes with
  | [] => Some shape
  | s :: shapes =>
      match s with [] => None | _ =>
      obind (nth_error s axis) (fun n =>
      let shape := set_nth shape axis (nth axis shape 0 + n) in
      obind (others_agree 0 axis shape s) (fun ok => if ok then cat_shape axis shape shapes else None))
      end
  end.
(** setup_impl (concatenate.cpp:27-56): axis, shape of the output, outer_size_,
    inner_total_size_. *)
Definition cat_setup (axis : Z) (shapes : list (list Z)) : option (nat * list Z * Z * Z) :=
  match shapes with
  | [] => None
  | first :: rest =>
      obind (refine_axis (length first) axis) (fun a =>
      let a := Z.to_nat a in
      obind (cat_shape a first rest) (fun shape =>
      obind (divide (size_from first 0) (size_from first a)) (fun outer =>
      Some (a, shape, outer, fold_left (fun t s => t + size_from s a) shapes 0))))
  end.
(** forward_impl (concatenate.cpp:58-74). *)
Fixpoint cat_copy (outer total offset : Z) (l : list (Z * list Z)) (y : list Z) : option (list Z) :=
  match l with
  | [] => Some y
  | (inner, x) :: l =>
      obind (copy_loop (nest outer inner (fun o i => (o * total + offset + i, o * inner + i))) x y) (cat_copy outer total (offset + inner) l)
  end.
Definition cat_forward (axis : Z) (shapes xs : list (list Z)) (y : list Z) : option (list Z) :=
  obind (cat_setup axis shapes) (fun '(a, _, outer, total) =>
  cat_copy outer total 0 (combine (map (fun s => size_from s a) shapes) xs) y).
(** backward_impl (concatenate.cpp:76-98): an input carries propagate_down, accum and its
    gradient. *)
Fixpoint cat_back (outer total offset : Z) (dy : list Z) (l : list (Z * (bool * bool * list Z))) : option (list (list Z)) :=
  match l with
  | [] => Some []
  | (inner, (prop, accum, dx)) :: l =>
      obind (if prop : bool then
               acc_loop accum (nest outer inner (fun o i => (o * inner + i, o * total + offset + i))) dy dx
             else Some dx) (fun dx =>
      obind (cat_back outer total (offset + inner) dy l) (fun r => Some (dx :: r)))
  end.
Definition cat_backward (axis : Z) (shapes : list (list Z)) (dy : list Z) (dxs : list (bool * bool * list Z)) : option (list (list Z)) :=
  obind (cat_setup axis shapes) (fun '(a, _, outer, total) =>
  cat_back outer total 0 dy (combine (map (fun s => size_from s a) shapes) dxs)).

(** * Split (split.cpp) *)

(** setup_impl (split.cpp:26-54): shape of the outputs, num_outputs_, outer_size_,
    inner_size_, given the number of outputs. *)
Definition split_setup (axis : Z) (shape : list Z) (outputs : nat) : option (list Z * Z * Z * Z) :=
  let axis := if axis <? 0 then axis + Z.of_nat (length shape) else axis in
  if axis <? 0 then None else
  if Z.of_nat (length shape) <=? axis then None else
  let a := Z.to_nat axis in
  let num := nth a shape 0 in
  if negb (num =? Z.of_nat outputs) then None else
  let out := firstn a shape ++ skipn (S a) shape in
  match outputs with O => None | _ =>
  let inner := size_from out a in
  if inner =? 0 then None else
  obind (divide (size_from out 0) inner) (fun outer =>
  if inner * num * outer =? size_from shape 0 then Some (out, num, outer, inner) else None)
  end.
(** forward_impl (split.cpp:56-68). *)
Fixpoint split_copy (num outer inner i0 : Z) (x : list Z) (ys : list (list Z)) : option (list (list Z)) :=
  match ys with
  | [] => Some []
  | y :: ys =>
      obind (copy_loop (nest outer inner (fun i1 i2 => (i1 * inner + i2, i1 * (inner * num) + i0 * inner + i2))) x y) (fun y =>
      obind (split_copy num outer inner (i0 + 1) x ys) (fun r => Some (y :: r)))
  end.
Definition split_forward (axis : Z) (shape x : list Z) (ys : list (list Z)) : option (list (list Z)) :=
  obind (split_setup axis shape (length ys)) (fun '(_, num, outer, inner) => split_copy num outer inner 0 x ys).
(** backward_impl (split.cpp:69-100). *)
Fixpoint split_back (num outer inner i0 : Z) (accum : bool) (dys : list (list Z)) (dx : list Z) : option (list Z) :=
  match dys with
  | [] => Some dx
  | dy :: dys =>
      obind (acc_loop accum (nest outer inner (fun i1 i2 => (i1 * (inner * num) + i0 * inner + i2, i1 * inner + i2))) dy dx)
        (split_back num outer inner (i0 + 1) accum dys)
  end.
Definition split_backward (axis : Z) (shape : list Z) (accum : bool) (dys : list (list Z)) (dx : list Z) : option (list Z) :=
  obind (split_setup axis shape (length dys)) (fun '(_, num, outer, inner) => split_back num outer inner 0 accum dys dx).

(** * Stack (stack.cpp) *)

(** setup_impl (stack.cpp:26-55), where inputs[0] has the shape [shape] and the comparison
    of the shapes is with it: shape of the output, outer_size_, inner_size_. *)
Definition stack_setup (axis : Z) (shapes : list (list Z)) : option (list Z * Z * Z) :=
  match shapes with
  | [] => None
  | shape :: rest =>
      let axis := if axis <? 0 then axis + (Z.of_nat (length shape) + 1) else axis in
      if axis <? 0 then None else
      if Z.of_nat (length shape) <? axis then None else
      if negb (forallb (fun s => if list_eq_dec Z.eq_dec s shape then true else false) rest) then None else
      let a := Z.to_nat axis in
      let inner := size_from shape a in
      obind (divide (size_from shape 0) inner) (fun outer =>
      Some (firstn a shape ++ Z.of_nat (length shapes) :: skipn a shape, outer, inner))
  end.
(** forward_impl (stack.cpp:57-69). *)
Fixpoint stack_copy (num outer inner i0 : Z) (xs : list (list Z)) (y : list Z) : option (list Z) :=
  match xs with
  | [] => Some y
  | x :: xs =>
      obind (copy_loop (nest outer inner (fun i1 i2 => (i1 * (inner * num) + i0 * inner + i2, i1 * inner + i2))) x y)
        (stack_copy num outer inner (i0 + 1) xs)
  end.
Definition stack_forward (axis : Z) (shapes xs : list (list Z)) (y : list Z) : option (list Z) :=
  obind (stack_setup axis shapes) (fun '(_, outer, inner) =>
  stack_copy (Z.of_nat (length shapes)) outer inner 0 xs y).
(** backward_impl (stack.cpp:71-90). *)
Fixpoint stack_back (num outer inner i0 : Z) (dy : list Z) (l : list (bool * bool * list Z)) : option (list (list Z)) :=
  match l with
  | [] => Some []
  | (prop, accum, dx) :: l =>
      obind (if prop : bool then
               acc_loop accum (nest outer inner (fun i1 i2 => (i1 * inner + i2, i1 * (inner * num) + i0 * inner + i2))) dy dx
             else Some dx) (fun dx =>
      obind (stack_back num outer inner (i0 + 1) dy l) (fun r => Some (dx :: r)))
  end.
Definition stack_backward (axis : Z) (shapes : list (list Z)) (dy : list Z) (dxs : list (bool * bool * list Z)) : option (list (list Z)) :=
  obind (stack_setup axis shapes) (fun '(_, outer, inner) =>
  stack_back (Z.of_nat (length shapes)) outer inner 0 dy dxs).
