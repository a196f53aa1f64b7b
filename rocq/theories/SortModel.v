(** Model of Sort, TopKData and TopKGrad of src/nbla/function/generic/ and of
    include/nbla/utils/top_k.hpp.

    The conventions of ScanModel hold.  std::sort and the heap functions of the standard
    library are given; what the standard says about them is in SortSpec.  Indices are
    integers (size_t in the code). *)
From Coq Require Import List ZArith Bool QArith Qcanon.
From Verif Require Import IdxModel JoinModel ScanModel ReduceModel.
Import ListNotations.
Local Open Scope list_scope.
Local Open Scope Z_scope.

(** * Sort (sort.cpp) *)

(** setup_impl (sort.cpp:27-51): the product of the sizes before the axis, the size of the
    axis, and inner_size.  outer_size and total_size are products of these. *)
Definition sort_setup (axis : Z) (shape : list Z) : option (Z * Z * Z) :=
  obind (refine_axis (length shape) axis) (fun a =>
  obind (vget shape a) (fun n =>
  Some (prod (firstn (Z.to_nat a) shape), n, prod (skipn (S (Z.to_nat a)) shape)))).

(** The elements x[i * stride] from position [j], in order of i. *)
Definition line (n stride j : Z) (x : list Qc) : option (list Qc) := omap (fun i => get x (i * stride + j)) (upto n).
Section sort.
(** std::sort with a comparison. *)
Variable std_sort : (Z -> Z -> bool) -> list Z -> list Z.
Definition at_line (l : list Qc) (i : Z) : Qc := nth (Z.to_nat i) l 0%Qc.
(** The comparisons (sort.cpp:76-82). *)
Definition sort_cmp (reverse : bool) (l : list Qc) (i1 i2 : Z) : bool :=
  if reverse then more (at_line l i1) (at_line l i2) else less (at_line l i1) (at_line l i2).
(** The first loops of forward_impl (sort.cpp:67-92).  The pointers that the while loops move
    are positions [j] of [lines]: the outer loop moves by outer_size up to total_size. *)
Definition sort_indices (reverse : bool) (size0 n stride : Z) (x : list Qc) (ind : list Z) : option (list Z) :=
  lines size0 n stride (fun j ind =>
    obind (line n stride j x) (fun l =>
    loop (fun p ind => put ind (fst p * stride + j) (snd p)) (combine (upto n) (std_sort (sort_cmp reverse l) (upto n))) ind)) ind.
(** The second loops (sort.cpp:94-119). *)
Definition sort_values (size0 n stride : Z) (ind : list Z) (x y : list Qc) : option (list Qc) :=
  lines size0 n stride (fun j => loop (fun i y =>
    obind (get ind (i * stride + j)) (fun k =>
    obind (get x (k * stride + j)) (fun v => put y (i * stride + j) v))) (upto n)) y.
(** forward_impl (sort.cpp:53-126): the sorted values and sort_index.  Which of the two are
    outputs depends on with_index and only_index. *)
Definition sort_forward (axis : Z) (reverse : bool) (shape : list Z) (x y : list Qc) (ind : list Z) : option (list Qc * list Z) :=
  obind (sort_setup axis shape) (fun '(size0, n, stride) =>
  obind (sort_indices reverse size0 n stride x ind) (fun ind =>
  obind (sort_values size0 n stride ind x y) (fun y => Some (y, ind)))).
End sort.
(** backward_impl (sort.cpp:128-172). *)
Definition sort_backward (axis : Z) (shape : list Z) (accum : bool) (ind : list Z) (dy dx : list Qc) : option (list Qc) :=
  obind (sort_setup axis shape) (fun '(size0, n, stride) =>
  lines size0 n stride (fun j => loop (fun i dx =>
    obind (get ind (i * stride + j)) (fun k =>
    obind (get dy (k * stride + j)) (fun g =>
    if accum then obind (get dx (i * stride + j)) (fun old => put dx (i * stride + j) (old + g)%Qc)
    else put dx (i * stride + j) g))) (upto n)) dx).

(** * The k best elements (top_k.hpp) *)

(** The heap functions of the standard library on the whole vector, with a comparison. *)
Record heap_functions := {
  make_heap : (Qc * Z -> Qc * Z -> bool) -> list (Qc * Z) -> list (Qc * Z);
  pop_heap : (Qc * Z -> Qc * Z -> bool) -> list (Qc * Z) -> list (Qc * Z);
  push_heap : (Qc * Z -> Qc * Z -> bool) -> list (Qc * Z) -> list (Qc * Z);
  sort_heap : (Qc * Z -> Qc * Z -> bool) -> list (Qc * Z) -> list (Qc * Z) }.
Section top_k.
Variable std : heap_functions.
(** greater (top_k.hpp:33-34). *)
Definition greater (largest : bool) (a b : Qc) : bool := if largest then more a b else less a b.
Definition cmp (largest : bool) (a b : Qc * Z) : bool := greater largest (fst a) (fst b).
(** The body of the loop over i (top_k.hpp:50-57): [p] is x_at_i and i. *)
Definition top_step (largest : bool) (p : Qc * Z) (heap : list (Qc * Z)) : option (list (Qc * Z)) :=
  obind (get heap 0) (fun front =>
  if greater largest (fst p) (fst front) then
    obind (put (pop_heap std (cmp largest) heap) (Z.of_nat (length heap) - 1) p) (fun heap =>
    Some (push_heap std (cmp largest) heap))
  else Some heap).
(** top_k (top_k.hpp:31-63) on the elements of one sample; top_k_abs (top_k.hpp:69-101) is
    the same with absolute values. *)
Definition magnitude (v : Qc) : Qc := if less v 0%Qc then (- v)%Qc else v.
Definition top_k (largest abs : bool) (x : list Qc) (k : Z) : option (list Z) :=
  let val v := if abs then magnitude v else v in
  obind (omap (fun i => obind (get x i) (fun v => Some (val v, i))) (upto k)) (fun heap =>
  obind (omap (fun i => obind (get x i) (fun v => Some (val v, i))) (between k (Z.of_nat (length x)))) (fun rest =>
  obind (loop (top_step largest) rest (make_heap std (cmp largest) heap)) (fun heap =>
  Some (map snd (sort_heap std (cmp largest) heap))))).

(** * TopKData (top_k_data.cpp) *)

(** setup_impl (top_k_data.cpp:26-69) without the outputs for indices: the shape of the
    output, ss_, ns_ and fs_. *)
Definition top_setup (k : Z) (reduce : bool) (base_axis : Z) (shape : list Z) : option (list Z * Z * Z * Z) :=
  obind (refine_axis (length shape) base_axis) (fun a =>
  let a := Z.to_nat a in
  let ss := size_from shape a in
  if k <=? 0 then None else
  if ss <? k then None else
  let out := if reduce then firstn a shape ++ [k] else shape in
  obind (divide (size_from shape 0) ss) (fun ns => Some (out, ss, ns, size_from out a))).
(** forward_impl (top_k_data.cpp:71-105): the values and the indices of the k best. *)
Definition top_forward (k : Z) (abs reduce : bool) (base_axis : Z) (largest : bool) (shape : list Z) (x y : list Qc) (ind : list Z) : option (list Qc * list Z) :=
  obind (top_setup k reduce base_axis shape) (fun '(_, ss, ns, fs) =>
  loop (fun s '(y, ind) =>
    obind (row x s ss) (fun l =>
    obind (top_k largest abs l k) (fun tk =>
    obind (loop (fun p ind => put ind (s * k + fst p) (snd p)) (combine (upto k) tk) ind) (fun ind =>
    obind (loop (fun j y => obind (get ind (s * k + j)) (fun i => obind (get x (s * ss + i)) (fun v =>
      put y (s * fs + (if reduce then j else i)) v))) (upto k) y) (fun y =>
    Some (y, ind)))))) (upto ns) (if reduce then y else map (fun _ => 0%Qc) y, ind)).
(** backward_impl (top_k_data.cpp:107-145), after a forward pass. *)
Definition top_backward (k : Z) (reduce : bool) (base_axis : Z) (shape : list Z) (accum : bool) (ind : list Z) (dy dx : list Qc) : option (list Qc) :=
  obind (top_setup k reduce base_axis shape) (fun '(_, ss, ns, fs) =>
  let dx := if accum then dx else map (fun _ => 0%Qc) dx in
  if reduce then
    loop (fun s => loop (fun j dx => obind (get ind (s * k + j)) (fun i => obind (get dy (s * fs + j)) (fun g =>
      obind (get dx (s * ss + i)) (fun old => put dx (s * ss + i) (old + g)%Qc)))) (upto k)) (upto ns) dx
  else
    loop (fun i dx => obind (get dy i) (fun g => obind (get dx i) (fun old => put dx i (old + g)%Qc))) (upto (size_from shape 0)) dx).

(** * TopKGrad (top_k_grad.cpp) *)

(** backward_impl (top_k_grad.cpp:61-95); the forward pass copies. *)
Definition top_grad (k : Z) (abs : bool) (base_axis : Z) (shape : list Z) (accum : bool) (dy dx : list Qc) : option (list Qc) :=
  obind (top_setup k false base_axis shape) (fun '(_, ss, ns, _) =>
  loop (fun s dx =>
    obind (row dy s ss) (fun l => obind (top_k true abs l k) (fun tk =>
    loop (fun i dx => obind (get dy (s * ss + i)) (fun g => obind (get dx (s * ss + i)) (fun old => put dx (s * ss + i) (old + g)%Qc))) tk dx)))
    (upto ns) (if accum then dx else map (fun _ => 0%Qc) dx)).
End top_k.
