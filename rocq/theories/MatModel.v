(** Model of Affine and BatchMatmul of src/nbla/function/generic/.

    The conventions of ConvModel hold: arrays are lists of rational numbers, an access outside
    is [None], division truncates and by zero is [None], an [int] does not overflow.  A
    gradient is a pair of the accum flag and the previous value if it is to be propagated to.
    Assignments of Eigen matrices write element by element; the right-hand sides do not alias
    the left-hand side. *)
From Coq Require Import List ZArith Bool QArith Qcanon.
From Verif Require Import IdxModel JoinModel ScanModel ReduceModel ConvModel.
Import ListNotations.
Local Open Scope list_scope.
Local Open Scope Z_scope.

(** * Affine (affine.cpp) *)

(** i_row_ = o_row_, i_col_ = w_row_, w_col_ = o_col_ and the shape of the output. *)
Record affine := { i_row : Z; i_col : Z; w_col : Z; a_out : list Z }.
(** setup_impl (affine.cpp:29-78).  [bias] is the shape of the third input. *)
Definition affine_setup (base_axis : Z) (data weights : list Z) (bias : option (list Z)) : option affine :=
  if Nat.ltb (length weights) 2 then None else
  obind (refine_axis (length data) base_axis) (fun base =>
  let base := Z.to_nat base in
  let i_col := size_from data base in
  match weights with
  | [] => None
  | w_row :: w_out =>
      if negb (i_col =? w_row) then None else
      obind (divide (prod data) i_col) (fun i_row =>
      obind (divide (prod weights) w_row) (fun w_col =>
      let out := firstn base data ++ w_out in
      if negb (prod out =? i_row * w_col) then None else
      if negb (match bias with None => true | Some b => if list_eq_dec Z.eq_dec b w_out then true else false end) then None else
      Some {| i_row := i_row; i_col := i_col; w_col := w_col; a_out := out |}))
  end).
(** dst.rowwise() += b. *)
Definition add_rowwise (rows cols : Z) (b dst : list Qc) : option (list Qc) :=
  loop (fun r => loop (fun c dst =>
    obind (get b c) (fun v => obind (get dst (r * cols + c)) (fun old => put dst (r * cols + c) (old + v)%Qc))) (upto cols)) (upto rows) dst.
(** dst = a.colwise().sum(), or dst += a.colwise().sum(). *)
Definition colwise_sums (accum : bool) (rows cols : Z) (a dst : list Qc) : option (list Qc) :=
  loop (fun c dst =>
    obind (omap (fun r => get a (r * cols + c)) (upto rows)) (fun l =>
    if accum then obind (get dst c) (fun old => put dst c (old + sum_list l)%Qc) else put dst c (sum_list l))) (upto cols) dst.
(** forward_impl (affine.cpp:80-96). *)
Definition affine_forward (f : affine) (x w : list Qc) (b : option (list Qc)) (y : list Qc) : option (list Qc) :=
  obind (matmul false (i_row f) (i_col f) (w_col f) (mat x 0 (i_col f)) (mat w 0 (w_col f)) 0 y) (fun y =>
  match b with Some b => add_rowwise (i_row f) (w_col f) b y | None => Some y end).
(** If propagate_down, do [f] with the accum flag and the gradient. *)
Definition with_grad (f : bool -> list Qc -> option (list Qc)) (g : grad) : option (option (list Qc)) :=
  match g with Some (accum, a) => obind (f accum a) (fun a => Some (Some a)) | None => Some None end.
(** backward_impl (affine.cpp:98-138). *)
Definition affine_backward (f : affine) (x w dy : list Qc) (gx gw gb : grad) : option (option (list Qc) * option (list Qc) * option (list Qc)) :=
  let m_dy := mat dy 0 (w_col f) in
  obind (with_grad (fun accum => matmul accum (i_row f) (w_col f) (i_col f) m_dy (transposed_mat (mat w 0 (w_col f))) 0) gx) (fun dx =>
  obind (with_grad (fun accum => matmul accum (i_col f) (i_row f) (w_col f) (transposed_mat (mat x 0 (i_col f))) m_dy 0) gw) (fun dw =>
  obind (with_grad (fun accum => colwise_sums accum (i_row f) (w_col f) dy) gb) (fun db => Some (dx, dw, db)))).

(** * BatchMatmul (batch_matmul.cpp) *)

(** The loop over the axes before the last two (batch_matmul.cpp:63-87): shape_a_broadcast,
    shape_b_broadcast, shape_o, broadcast_a and broadcast_b. *)
Fixpoint bmm_axes (a b : list Z) : option (list Z * list Z * list Z * bool * bool) :=
  match a, b with
  | m :: a, n :: b =>
      if negb ((m =? n) || (m =? 1) || (n =? 1)) then None else
      obind (bmm_axes a b) (fun '(sa, sb, so, fa, fb) =>
      if negb (m =? 1) && (n =? 1) then Some (m :: sa, m :: sb, m :: so, fa, true)
      else if (m =? 1) && negb (n =? 1) then Some (n :: sa, n :: sb, n :: so, true, fb)
      else Some (m :: sa, n :: sb, m :: so, fa, fb))
  | _, _ => Some ([], [], [], false, false)
  end.
(** The members; [bc_a] is the shape of f_broadcast_a_ unless that is null. *)
Record bmm := { trans_a : bool; trans_b : bool; row_a : Z; col_a : Z; row_b : Z; col_b : Z; bc_a : option (list Z); bc_b : option (list Z);
  samples : Z; shape_a : list Z; shape_b : list Z; m_out : list Z }.
Definition row_y (f : bmm) : Z := if trans_a f then col_a f else row_a f.
Definition col_y (f : bmm) : Z := if trans_b f then row_b f else col_b f.
(** setup_impl (batch_matmul.cpp:27-101). *)
Definition bmm_setup (ta tb : bool) (a b : list Z) : option bmm :=
  if Nat.ltb (length a) 3 then None else
  if Nat.ltb (length b) 3 then None else
  let ra := nth (length a - 2) a 0 in let ca := nth (length a - 1) a 0 in
  let rb := nth (length b - 2) b 0 in let cb := nth (length b - 1) b 0 in
  if negb ((if ta then ra else ca) =? (if tb then cb else rb)) then None else
  if negb (Nat.eqb (length a) (length b)) then None else
  obind (bmm_axes (firstn (length a - 2) a) (firstn (length a - 2) b)) (fun '(sa, sb, so, fa, fb) =>
  Some {| trans_a := ta; trans_b := tb; row_a := ra; col_a := ca; row_b := rb; col_b := cb;
          bc_a := if fa then Some (sa ++ [ra; ca]) else None; bc_b := if fb then Some (sb ++ [rb; cb]) else None;
          samples := prod so; shape_a := a; shape_b := b;
          m_out := so ++ [if ta then ca else ra; if tb then rb else cb] |}).

(** Broadcast (IdxModel) for arrays of rational numbers. *)
Definition copy_all (ps : list (Z * Z)) (src dst : list Qc) : option (list Qc) :=
  loop (fun '(d, s) dst => obind (get src s) (fun v => put dst d v)) ps dst.
Definition add_all (ps : list (Z * Z)) (src dst : list Qc) : option (list Qc) :=
  loop (fun '(d, s) dst => obind (get src s) (fun v => obind (get dst d) (fun old => put dst d (old + v)%Qc))) ps dst.
(** Memory of a new variable, with the value [junk]. *)
Definition fresh (junk : Qc) (shape : list Z) : list Qc := repeat junk (Z.to_nat (prod shape)).
(** The data of an input, broadcast if necessary (batch_matmul.cpp:110-119). *)
Definition bc_data (junk : Qc) (shape : list Z) (bc : option (list Z)) (x : list Qc) : option (list Qc) :=
  match bc with
  | None => Some x
  | Some target => obind (bc_pairs shape target) (fun ps => copy_all ps x (fresh junk target))
  end.
(** Compute the gradient [dx] with [body], through the broadcast if there is one
    (batch_matmul.cpp:152-176). *)
Definition bc_grad (junk : Qc) (shape : list Z) (bc : option (list Z)) (body : bool -> list Qc -> option (list Qc)) (accum : bool) (dx : list Qc) : option (list Qc) :=
  match bc with
  | None => body accum dx
  | Some target =>
      obind (body false (fresh junk target)) (fun d =>
      obind (bc_pairs shape target) (fun ps => add_all (map swap ps) d (cleared accum dx)))
  end.
(** The matrix of sample [s], transposed if [t]. *)
Definition op_mat (t : bool) (a : list Qc) (rows cols s : Z) : Z -> Z -> option Qc :=
  let m := mat a (s * (rows * cols)) cols in if t then transposed_mat m else m.
(** NBLA_EIGEN_MATMUL_T (include/nbla/utils/eigen.hpp:48-80) for the transposed matrices
    [a] and [b]; C.transpose() OP a * b is C OP b.transpose() * a.transpose(). *)
Definition matmul_t (accum tc : bool) (rows depth cols : Z) (a b : Z -> Z -> option Qc) (off : Z) (dst : list Qc) : option (list Qc) :=
  if tc then matmul accum rows depth cols (transposed_mat b) (transposed_mat a) off dst
  else matmul accum rows depth cols a b off dst.
(** forward_impl (batch_matmul.cpp:103-127). *)
Definition bmm_forward (junk : Qc) (f : bmm) (a b y : list Qc) : option (list Qc) :=
  obind (bc_data junk (shape_a f) (bc_a f) a) (fun a =>
  obind (bc_data junk (shape_b f) (bc_b f) b) (fun b =>
  loop (fun s => matmul_t false false (row_y f) (if trans_a f then row_a f else col_a f) (col_y f)
    (op_mat (trans_a f) a (row_a f) (col_a f) s) (op_mat (trans_b f) b (row_b f) (col_b f) s) (s * (row_y f * col_y f))) (upto (samples f)) y)).
(** backward_impl (batch_matmul.cpp:129-206). *)
Definition bmm_backward (junk : Qc) (f : bmm) (a b dy : list Qc) (ga gb : grad) : option (option (list Qc) * option (list Qc)) :=
  obind (with_grad (fun accum da =>
    obind (bc_data junk (shape_a f) (bc_a f) a) (fun _ =>
    obind (bc_data junk (shape_b f) (bc_b f) b) (fun b =>
    bc_grad junk (shape_a f) (bc_a f) (fun accum => loop (fun s =>
      matmul_t accum (trans_a f) (row_a f) (col_y f) (col_a f) (op_mat false dy (row_y f) (col_y f) s) (op_mat (negb (trans_b f)) b (row_b f) (col_b f) s) (s * (row_a f * col_a f))) (upto (samples f))) accum da))) ga) (fun da =>
  obind (with_grad (fun accum db =>
    obind (bc_data junk (shape_a f) (bc_a f) a) (fun a =>
    obind (bc_data junk (shape_b f) (bc_b f) b) (fun _ =>
    bc_grad junk (shape_b f) (bc_b f) (fun accum => loop (fun s =>
      matmul_t accum (trans_b f) (row_b f) (row_y f) (col_b f) (op_mat (negb (trans_a f)) a (row_a f) (col_a f) s) (op_mat false dy (row_y f) (col_y f) s) (s * (row_b f * col_b f))) (upto (samples f))) accum db))) gb) (fun db =>
  Some (da, db))).
