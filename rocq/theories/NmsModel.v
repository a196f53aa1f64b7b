(** Model of NmsDetection2d (src/nbla/function/generic/nms_detection2d.cpp) and
    ONNXNonMaxSuppression (src/nbla/function/generic/onnx_non_max_suppression.cpp).

    The conventions of ScanModel hold: elements are rational numbers, index arithmetic is
    exact, and None is any error, including a read or write outside an array.  Not-a-number
    is not modelled.  std::sort is given; what the standard says about it is in SortSpec.
    The loops marked for OpenMP write to different elements and are run in order. *)
From Coq Require Import List ZArith Bool QArith Qcanon.
From Verif Require Import NdModel IdxModel JoinModel ScanModel ReduceModel FindModel.
Import ListNotations.
Local Open Scope list_scope.
Local Open Scope Z_scope.

(** std::min and std::max. *)
Definition qmin (a b : Qc) : Qc := if less b a then b else a.
Definition qmax (a b : Qc) : Qc := if less a b then b else a.
Definition two : Qc := Q2Qc 2.
(** The four numbers at a pointer. *)
Definition four (y : list Qc) (offset : Z) : option (Qc * Qc * Qc * Qc) :=
  obind (get y offset) (fun a => obind (get y (offset + 1)) (fun b => obind (get y (offset + 2)) (fun c => obind (get y (offset + 3)) (fun d =>
  Some (a, b, c, d))))).

(** * NmsDetection2d *)

(** calculate_overlap (nms_detection2d.cpp:42-45). *)
Definition overlap (x1 w1 x2 w2 : Qc) : Qc := (qmin (x1 + w1 / two) (x2 + w2 / two) - qmax (x1 - w1 / two) (x2 - w2 / two))%Qc.
(** The end of calculate_iou (nms_detection2d.cpp:58-71, onnx_non_max_suppression.cpp:73-83). *)
Definition ratio (w h w1 h1 w2 h2 : Qc) : Qc :=
  if negb (more w 0%Qc) || negb (more h 0%Qc) then 0%Qc else
  let intersection := (w * h)%Qc in
  let union_ := (w1 * h1 + w2 * h2 - intersection)%Qc in
  (intersection / union_)%Qc.
(** calculate_iou (nms_detection2d.cpp:47-71). *)
Definition calculate_iou (a b : Qc * Qc * Qc * Qc) : Qc :=
  let '(x1, y1, w1, h1) := a in
  let '(x2, y2, w2, h2) := b in
  ratio (overlap x1 w1 x2 w2) (overlap y1 h1 y2 h2) w1 h1 w2 h2.

Section nms.
Variable std_sort : (Z -> Z -> bool) -> list Z -> list Z.
(** index_sort_ascend (nms_detection2d.cpp:73-78) of 0, ..., size - 1, which were stored before
    (nms_detection2d.cpp:126-129, 197-199).  [from] is the place of scores in [y]. *)
Definition index_sort (y : list Qc) (from size stride : Z) : list Z :=
  std_sort (fun i j => more (nth (Z.to_nat (from + i * stride)) y 0%Qc) (nth (Z.to_nat (from + j * stride)) y 0%Qc)) (upto size).
(** suppress_under_thresh (nms_detection2d.cpp:80-82). *)
Definition suppress_under (v thresh : Qc) : Qc := if less v thresh then 0%Qc else v.
(** The loop that fills the outputs (nms_detection2d.cpp:102-115, 174-187): body. *)
Definition nms_fill (thresh : Qc) (num_c num_classes : Z) (x : list Qc) (i : Z) (y : list Qc) : option (list Qc) :=
  let at_ := i * num_c in
  obind (loop (fun c y => obind (get x (at_ + c)) (fun v => put y (at_ + c) v)) [0; 1; 2; 3] y) (fun y =>
  obind (get x (at_ + 4)) (fun o =>
  let objectness := suppress_under o thresh in
  obind (put y (at_ + 4) objectness) (fun y =>
  loop (fun k y => obind (get x (at_ + (5 + k))) (fun p => put y (at_ + (5 + k)) (suppress_under (objectness * p)%Qc thresh))) (upto num_classes) y))).
(** The body of the loop over j (nms_detection2d.cpp:141-152).  [offset] is that of the box, and
    [b0] is b * num_nhw. *)
Definition class_step (nms : Qc) (num_c k b0 : Z) (a b : Z) (y : list Qc) : option (list Qc) :=
  let offset := (b0 + a) * num_c in
  let offset2 := (b0 + b) * num_c in
  obind (get y (offset2 + 5 + k)) (fun prob2 =>
  if same prob2 0%Qc then Some y else
  obind (four y offset) (fun box => obind (four y offset2) (fun box2 =>
  if more (calculate_iou box box2) nms then put y (offset2 + 5 + k) 0%Qc else Some y))).
(** Whether a box goes on to suppress others (nms_detection2d.cpp:135-139). *)
Definition class_test (num_c k b0 : Z) (a : Z) (y : list Qc) : option bool :=
  obind (get y ((b0 + a) * num_c + 5 + k)) (fun prob => Some (negb (same prob 0%Qc))).
(** Two nested loops over pairs in the order of indexes (nms_detection2d.cpp:134-154,
    onnx_non_max_suppression.cpp:122-142). *)
Definition suppress {S : Type} (test : Z -> S -> option bool) (step : Z -> Z -> S -> option S) (indexes : list Z) (n : Z) : S -> option S :=
  loop (fun i s =>
    obind (get indexes i) (fun a => obind (test a s) (fun t =>
    if negb t then Some s else
    loop (fun j s => obind (get indexes j) (fun b => step a b s)) (between (i + 1) n) s))) (upto n).
(** forward_impl_per_class (nms_detection2d.cpp:84-157). *)
Definition per_class (thresh nms : Qc) (num_b num_nhw num_c : Z) (x y : list Qc) : option (list Qc) :=
  let num_classes := num_c - 5 in
  obind (loop (nms_fill thresh num_c num_classes x) (upto (num_b * num_nhw)) y) (fun y =>
  loop (fun k => loop (fun b y =>
    suppress (class_test num_c k (b * num_nhw)) (class_step nms num_c k (b * num_nhw))
      (index_sort y (b * num_nhw * num_c + 5 + k) num_nhw num_c) num_nhw y) (upto num_b)) (upto num_classes) y).
(** The body of the loop over i (nms_detection2d.cpp:205-222). *)
Definition box_step (nms : Qc) (num_c num_classes b0 : Z) (indexes : list Z) (i : Z) (y : list Qc) : option (list Qc) :=
  obind (get indexes i) (fun a =>
  let offset := num_c * (b0 + a) in
  obind (get y (offset + 4)) (fun objectness =>
  if same objectness 0%Qc then Some y else
  loop (fun j y => obind (get indexes j) (fun b =>
    obind (four y offset) (fun box => obind (four y (num_c * (b0 + b))) (fun box2 =>
    if more (calculate_iou box box2) nms then
      obind (put y (offset + 4) 0%Qc) (fun y =>
      loop (fun k y => put y (offset + 5 + k) 0%Qc) (upto num_classes) y)
    else Some y)))) (rev (upto i)) y)).
(** forward_impl (nms_detection2d.cpp:159-224). *)
Definition nms_forward (nms_per_class : bool) (thresh nms : Qc) (num_b num_nhw num_c : Z) (x y : list Qc) : option (list Qc) :=
  if nms_per_class then per_class thresh nms num_b num_nhw num_c x y else
  let num_classes := num_c - 5 in
  obind (loop (nms_fill thresh num_c num_classes x) (upto (num_b * num_nhw)) y) (fun y =>
  loop (fun b y =>
    let indexes := index_sort y (b * num_nhw * num_c + 4) num_nhw num_c in
    loop (box_step nms num_c num_classes (b * num_nhw) indexes) (rev (upto num_nhw)) y) (upto num_b) y).
(** setup_impl (nms_detection2d.cpp:26-40) and forward_impl: the shape of the output is that of
    the input. *)
Definition nms_detection (nms_per_class : bool) (thresh nms : Qc) (shape : list Z) (x y : list Qc) : option (list Qc) :=
  match shape with
  | [num_b; num_nhw; num_c] => if 5 <? num_c then nms_forward nms_per_class thresh nms num_b num_nhw num_c x y else None
  | _ => None
  end.

(** * ONNXNonMaxSuppression *)

(** calculate_overlap_with_range and calculate_overlap_with_center
    (onnx_non_max_suppression.cpp:23-34). *)
Definition overlap_range (a_begin a_end b_begin b_end : Qc) : Qc := (qmin a_end b_end - qmax a_begin b_begin)%Qc.
Definition overlap_center (a wa b wb : Qc) : Qc := overlap_range (a - wa / two) (a + wa / two) (b - wb / two) (b + wb / two).
(** std::minmax. *)
Definition minmax (a b : Qc) : Qc * Qc := if less b a then (b, a) else (a, b).
(** calculate_iou (onnx_non_max_suppression.cpp:36-83). *)
Definition onnx_iou (center_point_box : Z) (a b : Qc * Qc * Qc * Qc) : option Qc :=
  let '(a0, a1, a2, a3) := a in
  let '(b0, b1, b2, b3) := b in
  if center_point_box =? 0 then
    let '(ya_bgn, ya_end) := minmax a0 a2 in
    let '(xa_bgn, xa_end) := minmax a1 a3 in
    let '(yb_bgn, yb_end) := minmax b0 b2 in
    let '(xb_bgn, xb_end) := minmax b1 b3 in
    Some (ratio (overlap_range xa_bgn xa_end xb_bgn xb_end) (overlap_range ya_bgn ya_end yb_bgn yb_end)
      (xa_end - xa_bgn) (ya_end - ya_bgn) (xb_end - xb_bgn) (yb_end - yb_bgn))%Qc
  else if center_point_box =? 1 then
    Some (ratio (overlap_center a0 a2 b0 b2) (overlap_center a1 a3 b1 b3) a2 a3 b2 b3)
  else None.
(** The body of the loop over j (onnx_non_max_suppression.cpp:130-141), on selected_boxes. *)
Definition onnx_step (center : Z) (threshold : Qc) (boxes : list Qc) (b0 : Z) (a b : Z) (sel : list bool) : option (list bool) :=
  obind (get sel b) (fun s2 =>
  if negb s2 then Some sel else
  obind (four boxes ((b0 + a) * 4)) (fun box => obind (four boxes ((b0 + b) * 4)) (fun box2 =>
  obind (onnx_iou center box box2) (fun iou =>
  if more iou threshold then put sel b false else Some sel)))).
Definition onnx_test (a : Z) (sel : list bool) : option bool := get sel a.
(** The loop that fills the outputs (onnx_non_max_suppression.cpp:145-155), with count. *)
Fixpoint onnx_fill (indexes : list Z) (sel : list bool) (count max : Z) : option (list Z) :=
  match indexes with
  | [] => Some []
  | a :: indexes =>
      obind (get sel a) (fun s =>
      if s then
        if max <=? count + 1 then Some [a] else obind (onnx_fill indexes sel (count + 1) max) (fun l => Some (a :: l))
      else onnx_fill indexes sel count max)
  end.
(** The body of the loops over b and k (onnx_non_max_suppression.cpp:105-155). *)
Definition onnx_class (center max : Z) (iou_threshold score_threshold : Qc) (num_boxes num_classes : Z) (boxes scores : list Qc) (b k : Z) : option (list (Z * Z * Z)) :=
  let at_ := (b * num_classes + k) * num_boxes in
  let indexes := index_sort scores at_ num_boxes 1 in
  obind (omap (fun i => obind (get scores (at_ + i)) (fun s => Some (negb (less s score_threshold)))) (upto num_boxes)) (fun sel =>
  obind (suppress onnx_test (onnx_step center iou_threshold boxes (b * num_boxes)) indexes num_boxes sel) (fun sel =>
  obind (onnx_fill indexes sel 0 max) (fun l => Some (map (fun a => (b, k, a)) l)))).
(** non_max_suppression_impl (onnx_non_max_suppression.cpp:85-158): selected_indices. *)
Definition onnx_nms (center max : Z) (iou_threshold score_threshold : Qc) (batch_size num_boxes num_classes : Z) (boxes scores : list Qc) : option (list (Z * Z * Z)) :=
  if max =? 0 then Some [] else
  loop (fun b => loop (fun k sel =>
    obind (onnx_class center max iou_threshold score_threshold num_boxes num_classes boxes scores b k) (fun l => Some (sel ++ l))) (upto num_classes)) (upto batch_size) [].
(** setup_impl (onnx_non_max_suppression.cpp:162-205) and non_max_suppression (lines 214-241):
    the shape of the output and its elements. *)
Definition onnx_setup (center max : Z) (iou_threshold score_threshold : Qc) (boxes_shape scores_shape : list Z) (boxes scores : list Qc) : option (list Z * list Z) :=
  match boxes_shape, scores_shape with
  | [batch_size; num_boxes; d], [batch_size'; num_classes; num_boxes'] =>
      if negb (d =? 4) then None else
      if negb (batch_size' =? batch_size) then None else
      if negb (num_boxes' =? num_boxes) then None else
      if negb ((0 <=? center) && (center <=? 1)) then None else
      if negb (0 <=? max) then None else
      obind (onnx_nms center max iou_threshold score_threshold batch_size num_boxes num_classes boxes scores) (fun sel =>
      Some ([Z.of_nat (length sel); 3], flat_map (fun '(b, k, a) => [b; k; a]) sel))
  | _, _ => None
  end.
(** forward_impl (onnx_non_max_suppression.cpp:207-212) does nothing: the output after setup stays. *)
Definition onnx_forward (boxes scores : list Qc) (y : list Z * list Z) : option (list Z * list Z) := Some y.
End nms.
