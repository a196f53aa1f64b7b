(** Model of the index arithmetic of include/nbla/utils/nd_index.hpp.

    The element type T of shapes and indices (int, int64_t or size_t) is modelled by the
    integers: products of shapes are assumed to fit T.  But [nd2flat], [inner_size] and
    [outer_size] pass an int literal as the initial value of std::inner_product and
    std::accumulate, so their running value is a 32-bit int; [wrap] models the conversion
    of each step's result to it.  Assertions are modelled as conditions; None: an
    assertion fails, or begin() + 1 of an empty vector. *)
From Coq Require Import List ZArith Bool.
Import ListNotations.
Local Open Scope list_scope.
Local Open Scope Z_scope.

(** Conversion to a 32-bit int. *)
Definition wrap (z : Z) : Z := (z + 2147483648) mod 4294967296 - 2147483648.

(** std::partial_sum from the right with multiplication. *)
Fixpoint psum_r (v : list Z) : list Z :=
  match v with
  | [] => []
  | x :: t => match psum_r t with [] => [x] | y :: r => y * x :: y :: r end
  end.

(** strides (nd_index.hpp:38-43). *)
Definition strides (shape : list Z) : option (list Z) :=
  match shape with
  | [] => None
  | _ :: t => Some (psum_r (t ++ [1]))
  end.

(** std::inner_product(..., 0). *)
Fixpoint inner_product (acc : Z) (a b : list Z) : Z :=
  match a, b with
  | x :: a, y :: b => inner_product (wrap (acc + x * y)) a b
  | _, _ => acc
  end.

(** nd2flat (nd_index.hpp:47-51). *)
Definition nd2flat (index stride : list Z) : option Z :=
  if Nat.leb (length index) (length stride) then Some (inner_product 0 index stride) else None.

(** Negative axes count from the end. *)
Definition norm_axis (axis : Z) (n : nat) : Z := if axis <? 0 then axis + Z.of_nat n else axis.

(** nd2flat with an axis (nd_index.hpp:56-66). *)
Definition nd2flat_axis (index stride : list Z) (axis : Z) : option Z :=
  let ax := norm_axis axis (length stride) in
  if Nat.leb (length index) (length stride) && (0 <=? ax) && (ax <? Z.of_nat (length index))
  then Some (inner_product 0 (firstn (Z.to_nat ax) index) stride) else None.

(** nd2flat with a pair of axes (nd_index.hpp:71-87); here the running value has type T. *)
Fixpoint dot (a b : list Z) : Z :=
  match a, b with x :: a, y :: b => x * y + dot a b | _, _ => 0 end.
Definition nd2flat_range (index stride : list Z) (from to : Z) : option Z :=
  let f := norm_axis from (length stride) in
  let t := norm_axis to (length stride) in
  if Nat.leb (length index) (length stride) && (0 <=? f) && (f <=? t) && (t <=? Z.of_nat (length index))
  then Some (dot (skipn (Z.to_nat f) (firstn (Z.to_nat t) index)) (skipn (Z.to_nat f) stride)) else None.

(** flat2nd (nd_index.hpp:90-99). *)
Fixpoint flat2nd (index : Z) (stride : list Z) : list Z :=
  match stride with
  | [] => []
  | s :: stride => index / s :: flat2nd (index - index / s * s) stride
  end.

(** std::accumulate(..., 1, multiplies). *)
Definition accumulate (l : list Z) : Z := fold_left (fun acc x => wrap (acc * x)) l 1.
(** inner_size (nd_index.hpp:106-114) and outer_size (nd_index.hpp:121-129). *)
Definition inner_size (shape : list Z) (axis : Z) : option Z :=
  let ax := norm_axis axis (length shape) in
  if (0 <=? ax) && (ax <? Z.of_nat (length shape)) then Some (accumulate (skipn (Z.to_nat ax) shape)) else None.
Definition outer_size (shape : list Z) (axis : Z) : option Z :=
  let ax := norm_axis axis (length shape) in
  if (0 <=? ax) && (ax <? Z.of_nat (length shape)) then Some (accumulate (firstn (Z.to_nat ax) shape)) else None.

(** The loop of increment (nd_index.hpp:142-156) runs over the axes from the last to the
    first; [inc_rev] sees the lists reversed. *)
Fixpoint inc_rev (index shape : list Z) : list Z * bool :=
  match index, shape with
  | i :: index, s :: shape =>
      if i + 1 <? s then (i + 1 :: index, true)
      else let (r, b) := inc_rev index shape in (0 :: r, b)
  | index, _ => (index, false)
  end.
Definition increment (index shape : list Z) : option (list Z * bool) :=
  if Nat.eqb (length index) (length shape) then
    let (r, b) := inc_rev (rev index) (rev shape) in Some (rev r, b)
  else None.
(** increment up to an axis (nd_index.hpp:170-186). *)
Definition increment_axis (index shape : list Z) (axis : Z) : option (list Z * bool) :=
  let ax := norm_axis axis (length index) in
  if Nat.eqb (length index) (length shape) && (0 <=? ax) && (ax <? Z.of_nat (length index)) then
    let k := S (Z.to_nat ax) in
    let (r, b) := inc_rev (rev (firstn k index)) (rev (firstn k shape)) in
    Some (rev r ++ skipn k index, b)
  else None.

(** batch_reduced_shape (nd_index.hpp:221-228); the vector assigned is one longer than the
    remaining axes. *)
Definition batch_reduced_shape (shape : list Z) (axis : nat) : option (list Z) :=
  if Nat.ltb axis (length shape) then
    match outer_size shape (Z.of_nat axis) with
    | Some o => Some (o :: skipn axis shape)
    | None => None
    end
  else None.

(** The loop of the example above increment: all indices visited from the given one;
    None: out of fuel. *)
Fixpoint visit (fuel : nat) (index shape : list Z) : option (list (list Z)) :=
  match fuel with
  | O => None
  | S fuel =>
      match increment index shape with
      | Some (next, true) => match visit fuel next shape with Some l => Some (index :: l) | None => None end
      | Some (_, false) => Some [index]
      | None => None
      end
  end.
