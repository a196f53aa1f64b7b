(** Model of WarpByFlow (src/nbla/function/generic/warp_by_flow.cpp).

    Elements are rational numbers without rounding.  Arrays are lists of the lengths that go with the
    sizes N, C, H and W; setup is left out. *)
From Coq Require Import List ZArith Bool QArith Qcanon Qround.
From Verif Require Import ReduceModel.
Import ListNotations.
Local Open Scope list_scope.
Local Open Scope Qc_scope.

Record sizes := Sizes { N : nat; C : nat; H : nat; W : nat }.
Definition floor_of (v : Qc) : Z := Qfloor (this v).
(** clamp_to_index (warp_by_flow.cpp:51-54). *)
Definition clamp_to_index (value maximum : Z) : Z := Z.max 0 (Z.min maximum value).
Definition at_ (l : list Qc) (i : Z) : Qc := nth (Z.to_nat i) l 0.

(** The loops over n, c, y and x (warp_by_flow.cpp:73-79). *)
Definition positions (s : sizes) : list (nat * nat * nat * nat) :=
  flat_map (fun n => flat_map (fun c => flat_map (fun y => map (fun x => (n, c, y, x)) (seq 0 (W s))) (seq 0 (H s))) (seq 0 (C s))) (seq 0 (N s)).
(** *flow_x++, *flow_y++ and data_c (warp_by_flow.cpp:75-77). *)
Definition place_x (s : sizes) (n y x : nat) : Z := Z.of_nat (H s * W s * (n * 2) + (y * W s + x)).
Definition place_y (s : sizes) (n y x : nat) : Z := Z.of_nat (H s * W s * (n * 2 + 1) + (y * W s + x)).
Definition plane (s : sizes) (n c : nat) : Z := Z.of_nat (H s * W s * (n * C s + c)).

(** xf and yf, and the corners (warp_by_flow.cpp:80-85). *)
Record corners := Corners { xf : Qc; yf : Qc; xl : Z; xr : Z; yt : Z; yb : Z }.
Definition corners_at (s : sizes) (xf yf : Qc) : corners :=
  let w := (Z.of_nat (W s) - 1)%Z in
  let h := (Z.of_nat (H s) - 1)%Z in
  Corners xf yf (clamp_to_index (floor_of xf) w) (clamp_to_index (floor_of xf + 1) w) (clamp_to_index (floor_of yf) h) (clamp_to_index (floor_of yf + 1) h).
Definition moved (s : sizes) (flow : list Qc) (n y x : nat) : corners :=
  corners_at s (of_Z (Z.of_nat x) + at_ flow (place_x s n y x)) (of_Z (Z.of_nat y) + at_ flow (place_y s n y x)).
Definition corner (s : sizes) (base : Z) (y x : Z) : Z := (base + (y * Z.of_nat (W s) + x))%Z.
(** One output (warp_by_flow.cpp:86-93). *)
Definition warp (s : sizes) (data : list Qc) (base : Z) (k : corners) : Qc :=
  let tl := at_ data (corner s base (yt k) (xl k)) in
  let tr := at_ data (corner s base (yt k) (xr k)) in
  let bl := at_ data (corner s base (yb k) (xl k)) in
  let br := at_ data (corner s base (yb k) (xr k)) in
  let alpha := xf k - of_Z (xl k) in
  let beta := yf k - of_Z (yt k) in
  let upper := alpha * (tr - tl) + tl in
  let lower := alpha * (br - bl) + bl in
  beta * (lower - upper) + upper.
Definition flow_forward (s : sizes) (data flow : list Qc) : list Qc :=
  map (fun '(n, c, y, x) => warp s data (plane s n c) (moved s flow n y x)) (positions s).

(** l[i] += v. *)
Fixpoint add_at (i : nat) (v : Qc) (l : list Qc) : list Qc :=
  match l, i with [], _ => [] | a :: l, O => a + v :: l | a :: l, S i => a :: add_at i v l end.
Definition zeroed (accum : bool) (l : list Qc) : list Qc := if accum then l else map (fun _ => 0) l.
(** The loop for the gradient of the data (warp_by_flow.cpp:116-146). *)
Definition data_step (s : sizes) (flow : list Qc) (g : list Qc) (e : nat * nat * nat * nat * Qc) : list Qc :=
  let '(n, c, y, x, grad) := e in
  let k := moved s flow n y x in
  let put yy xx v g := add_at (Z.to_nat (corner s (plane s n c) yy xx)) v g in
  let g := put (yt k) (xl k) ((1 - xf k + of_Z (xl k)) * (1 - yf k + of_Z (yt k)) * grad) g in
  let g := put (yb k) (xl k) ((1 - xf k + of_Z (xl k)) * (yf k - of_Z (yt k)) * grad) g in
  let g := put (yt k) (xr k) ((xf k - of_Z (xl k)) * (1 - yf k + of_Z (yt k)) * grad) g in
  put (yb k) (xr k) ((xf k - of_Z (xl k)) * (yf k - of_Z (yt k)) * grad) g.
Definition backward_data (s : sizes) (accum : bool) (gdata flow grads : list Qc) : list Qc :=
  fold_left (data_step s flow) (combine (positions s) grads) (zeroed accum gdata).
(** g1 and g2 (warp_by_flow.cpp:176-181). *)
Definition slope_x (s : sizes) (data : list Qc) (base : Z) (k : corners) : Qc :=
  let tl := at_ data (corner s base (yt k) (xl k)) in
  let tr := at_ data (corner s base (yt k) (xr k)) in
  let bl := at_ data (corner s base (yb k) (xl k)) in
  let br := at_ data (corner s base (yb k) (xr k)) in
  (of_Z (yb k) - yf k) * (tr - tl) + (1 - of_Z (yb k) + yf k) * (br - bl).
Definition slope_y (s : sizes) (data : list Qc) (base : Z) (k : corners) : Qc :=
  let tl := at_ data (corner s base (yt k) (xl k)) in
  let tr := at_ data (corner s base (yt k) (xr k)) in
  let bl := at_ data (corner s base (yb k) (xl k)) in
  let br := at_ data (corner s base (yb k) (xr k)) in
  (of_Z (xr k) - xf k) * (bl - tl) + (1 - of_Z (xr k) + xf k) * (br - tr).
(** The loop for the gradient of the flow (warp_by_flow.cpp:148-189). *)
Definition flow_step (s : sizes) (data flow : list Qc) (g : list Qc) (e : nat * nat * nat * nat * Qc) : list Qc :=
  let '(n, c, y, x, grad) := e in
  let k := moved s flow n y x in
  let g := add_at (Z.to_nat (place_x s n y x)) (grad * slope_x s data (plane s n c) k) g in
  add_at (Z.to_nat (place_y s n y x)) (grad * slope_y s data (plane s n c) k) g.
Definition backward_flow (s : sizes) (accum : bool) (gflow data flow grads : list Qc) : list Qc :=
  fold_left (flow_step s data flow) (combine (positions s) grads) (zeroed accum gflow).
