(** Model of SearchSorted, NonZero, TopNError, ConfusionMatrix, BinaryError and Unique of
    src/nbla/function/generic/.

    The conventions of ScanModel hold: elements are rational numbers, index arithmetic is
    exact, and None is any error, including a read or write outside an array.  Not-a-number
    is not modelled.  std::sort and std::stable_sort are given; what the standard says about
    them is in SortSpec and FindSpec. *)
From Coq Require Import List ZArith Bool QArith Qcanon.
From Verif Require Import NdModel IdxModel JoinModel ScanModel ReduceModel.
Import ListNotations.
Local Open Scope list_scope.
Local Open Scope Z_scope.

(** a == b on elements. *)
Definition same (a b : Qc) : bool := negb (less a b) && negb (less b a).

(** * SearchSorted (searchsorted.cpp) *)

(** The checks of setup_impl (searchsorted.cpp:28-41). *)
Fixpoint same_but_last (a b : list Z) : bool :=
  match a, b with
  | [], [] => true
  | [_], [_] => true
  | x :: a, y :: b => (x =? y) && same_but_last a b
  | _, _ => false
  end.
(** setup_impl (searchsorted.cpp:25-49): inner_size_, ss_last_dim_ and v_last_dim_.  The shapes
    of arrays of no axes have no last entry. *)
Definition search_setup (sshape vshape : list Z) : option (Z * Z * Z) :=
  if negb (same_but_last sshape vshape) then None else
  match sshape with
  | [] => None
  | _ =>
      let n := last sshape 0 in
      obind (divide (size_from sshape 0) n) (fun inner => Some (inner, n, last vshape 0))
  end.
(** search (searchsorted.cpp:51-77).  [fuel] bounds the depth of the recursion. *)
Fixpoint search (fuel : nat) (right : bool) (s : list Qc) (v : Qc) (start finish : Z) : option Z :=
  match fuel with
  | O => None
  | S fuel =>
      obind (get s finish) (fun e =>
      if more v e then Some (finish + 1) else
      if right && same v e then Some (finish + 1) else
      obind (get s start) (fun b =>
      if less v b then Some start else
      if negb right && same v b then Some start else
      if finish - start <=? 1 then Some finish else
      let mid := Z.quot (start + finish + 1) 2 in
      obind (get s mid) (fun m =>
      if (if right then less v m else negb (more v m)) then search fuel right s v start mid
      else search fuel right s v mid finish)))
  end.
(** The body of the loop over j (searchsorted.cpp:91-96). *)
Definition search_step (right : bool) (n m : Z) (s values : list Qc) (i j : Z) (y : list Z) : option (list Z) :=
  let v_idx := i * m + j in
  obind (get values v_idx) (fun v =>
  obind (search (S (Z.to_nat n)) right s v (i * n) ((i + 1) * n - 1)) (fun k =>
  put y v_idx (k - i * n))).
(** forward_impl (searchsorted.cpp:80-99).  The output holds integers; those that a float
    cannot hold are not modelled. *)
Definition search_forward (right : bool) (sshape vshape : list Z) (s values : list Qc) (y : list Z) : option (list Z) :=
  obind (search_setup sshape vshape) (fun '(inner, n, m) =>
  loop (fun i => loop (search_step right n m s values i) (upto m)) (upto inner) y).

(** * NonZero (nonzero.cpp) *)

Definition is_zero (v : Qc) : bool := same v 0%Qc.
(** The first loop of non_zero (nonzero.cpp:34-38). *)
Definition count_nonzeros (x : list Qc) : Z := fold_left (fun n v => n + (if is_zero v then 0 else 1)) x 0.
(** The body of the loop over i (nonzero.cpp:47-54): y and nonzero_index. *)
Definition nonzero_step (strides : list Z) (ndim num : Z) (x : list Qc) (i : Z) (st : list Z * Z) : option (list Z * Z) :=
  let '(y, k) := st in
  obind (get x i) (fun v =>
  if is_zero v then Some (y, k) else
  let nd := flat2nd i strides in
  obind (loop (fun dim y => obind (get nd dim) (fun d => put y (dim * num + k) d)) (upto ndim) y) (fun y =>
  Some (y, k + 1))).
(** non_zero (nonzero.cpp:28-56): the shape and the elements of the output.  A new output
    array holds unspecified values, here zeros. *)
Definition non_zero (shape : list Z) (x : list Qc) : option (list Z * list Z) :=
  let ndim := Z.of_nat (length shape) in
  let num := count_nonzeros (firstn (Z.to_nat (size_from shape 0)) x) in
  obind (loop (nonzero_step (cstrides shape) ndim num x) (upto (size_from shape 0)) (repeat 0 (Z.to_nat (ndim * num)), 0)) (fun st =>
  Some ([ndim; num], fst st)).
(** setup_impl and forward_impl (nonzero.cpp:59-68): the output after setup with [x0] and a
    forward pass with [x]. *)
Definition nonzero_setup (shape : list Z) (x0 : list Qc) : option (list Z * list Z) := non_zero shape x0.
Definition nonzero_forward (shape : list Z) (x : list Qc) (y : list Z * list Z) : option (list Z * list Z) := Some y.

(** * TopNError (top_n_error.cpp) and ConfusionMatrix (confusion_matrix.cpp) *)

(** The checks of the shape of the labels (top_n_error.cpp:34-49, confusion_matrix.cpp:38-54). *)
Fixpoint labels_fit (axis : Z) (in_shape label_shape : list Z) : bool :=
  match in_shape, label_shape with
  | [], [] => true
  | n :: in_shape, m :: label_shape => (if axis =? 0 then m =? 1 else m =? n) && labels_fit (axis - 1) in_shape label_shape
  | _, _ => false
  end.
(** setup_impl (top_n_error.cpp:27-59, confusion_matrix.cpp:30-66): size0_, size1_ and size2_. *)
Definition label_setup (axis : Z) (shape label_shape : list Z) : option (Z * Z * Z) :=
  obind (refine_axis (length shape) axis) (fun a =>
  if negb (labels_fit a shape label_shape) then None else
  let size := size_from shape 0 in
  obind (divide size (size_from shape (Z.to_nat a))) (fun size0 =>
  obind (vget shape a) (fun size1 =>
  obind (divide size size0) (fun q =>
  obind (divide q size1) (fun size2 =>
  if size0 * size1 * size2 =? size then Some (size0, size1, size2) else None))))).
(** The body of the loops of TopNError (top_n_error.cpp:71-79).  The output is 0 or 1. *)
Definition top_n_step (n size1 size2 : Z) (p : list Qc) (l : list Z) (i0 i2 : Z) (y : list Z) : option (list Z) :=
  let j := i0 * size2 + i2 in
  obind (get l j) (fun label =>
  let k := i0 * size1 * size2 + i2 in
  obind (get p (k + label * size2)) (fun threshold =>
  obind (loop (fun i1 count => obind (get p (k + i1 * size2)) (fun v => Some (count + (if less v threshold then 0 else 1)))) (upto size1) 0) (fun count =>
  put y j (if n <? count then 1 else 0)))).
(** forward_impl (top_n_error.cpp:62-82). *)
Definition top_n_forward (axis n : Z) (shape label_shape : list Z) (p : list Qc) (l y : list Z) : option (list Z) :=
  obind (label_setup axis shape label_shape) (fun '(size0, size1, size2) =>
  loop (fun i0 => loop (top_n_step n size1 size2 p l i0) (upto size2)) (upto size0) y).

(** The body of the loops of ConfusionMatrix (confusion_matrix.cpp:79-88). *)
Definition confusion_step (size1 size2 : Z) (p : list Qc) (l : list Z) (i0 i2 : Z) (y : list Z) : option (list Z) :=
  let j := i0 * size2 + i2 in
  obind (get l j) (fun label =>
  let k := i0 * size1 * size2 + i2 in
  obind (loop (fun i1 index =>
    obind (get p (k + i1 * size2)) (fun a => obind (get p (k + index * size2)) (fun b =>
    Some (if more a b then i1 else index)))) (between 1 size1) 0) (fun index =>
  obind (get y (label * size1 + index)) (fun c => put y (label * size1 + index) (c + 1)))).
(** forward_impl (confusion_matrix.cpp:69-91). *)
Definition confusion_forward (axis : Z) (shape label_shape : list Z) (p : list Qc) (l y : list Z) : option (list Z) :=
  obind (label_setup axis shape label_shape) (fun '(size0, size1, size2) =>
  loop (fun i0 => loop (confusion_step size1 size2 p l i0) (upto size2)) (upto size0) (map (fun _ => 0) y)).

(** BinaryError (binary_error.cpp:27-51). *)
Definition half : Qc := Q2Qc (1 # 2).
Definition binary_error_forward (shape0 shape1 : list Z) (x0 x1 : list Qc) (y : list Z) : option (list Z) :=
  if negb (if list_eq_dec Z.eq_dec shape0 shape1 then true else false) then None else
  loop (fun s y => obind (get x0 s) (fun a => obind (get x1 s) (fun b =>
    put y s (if Bool.eqb (negb (less a half)) (negb (less b half)) then 0 else 1)))) (upto (size_from shape0 0)) y.

(** * Unique (unique.cpp) *)

(** std::lexicographical_compare and std::equal on rows of the same length. *)
Fixpoint lex_less (a b : list Qc) : bool :=
  match a, b with
  | x :: a, y :: b => if less x y then true else if less y x then false else lex_less a b
  | _, _ => false
  end.
Fixpoint rows_equal (a b : list Qc) : bool :=
  match a, b with
  | x :: a, y :: b => same x y && rows_equal a b
  | _, _ => true
  end.
(** Row [a] of x with col_size [col]: x + a * col_size to x + (a + 1) * col_size. *)
Definition row_at (x : list Qc) (col a : Z) : list Qc := map (fun j => nth (Z.to_nat (a * col + j)) x 0%Qc) (upto col).

(** unique_preprocess (unique.cpp:143-183): the elements, row_size and col_size. *)
Definition axis_first (a : Z) (ndim : Z) : list Z := a :: filter (fun i => negb (i =? a)) (upto ndim).
Definition unique_preprocess (flatten : bool) (axis : Z) (shape : list Z) (x : list Qc) : option (list Qc * Z * Z) :=
  if flatten then Some (x, prod shape, 1)
  else
    let ta := axis_first axis (Z.of_nat (length shape)) in
    obind (transposed ta shape x) (fun xt =>
    obind (omap (vget shape) ta) (fun ts => Some (xt, hd 0 ts, prod (tl ts)))).

(** arg_indices, indices_val, inverse_indices_val, counts and num_unique. *)
Record scan_state := { s_args : list Z; s_indices : list Z; s_inverse : list Z; s_counts : list Z; s_num : Z }.
Section unique.
Variable std_sort std_stable_sort : (Z -> Z -> bool) -> list Z -> list Z.
(** The body of the loop over i (unique.cpp:209-225). *)
Definition unique_step (x : list Qc) (col : Z) (i : Z) (s : scan_state) : option scan_state :=
  obind (get (s_args s) i) (fun current =>
  obind (get (s_args s) (i - 1)) (fun previous =>
  if negb (rows_equal (row_at x col current) (row_at x col previous)) then
    obind (put (s_args s) (s_num s) current) (fun args =>
    obind (put (s_inverse s) current (s_num s)) (fun inverse =>
    Some {| s_args := args; s_indices := s_indices s ++ [current]; s_inverse := inverse; s_counts := s_counts s ++ [1]; s_num := s_num s + 1 |}))
  else
    obind (put (s_inverse s) current (s_num s - 1)) (fun inverse =>
    obind (get (s_counts s) (s_num s - 1)) (fun c =>
    obind (put (s_counts s) (s_num s - 1) (c + 1)) (fun counts =>
    Some {| s_args := s_args s; s_indices := s_indices s; s_inverse := inverse; s_counts := counts; s_num := s_num s |}))))).
(** unique (unique.cpp:185-230) until create_outputs. *)
Definition unique_scan (x : list Qc) (row col : Z) : option scan_state :=
  let args := std_stable_sort (fun a b => lex_less (row_at x col a) (row_at x col b)) (upto row) in
  obind (get args 0) (fun first =>
  obind (put (repeat 0 (Z.to_nat row)) first 0) (fun inverse =>
  loop (unique_step x col) (between 1 (Z.of_nat (length args)))
    {| s_args := args; s_indices := [first]; s_inverse := inverse; s_counts := [1]; s_num := 1 |})).
(** output_order (unique.cpp:36-44). *)
Definition output_order (sorted : bool) (indices_val : list Z) : list Z :=
  let order := upto (Z.of_nat (length indices_val)) in
  if sorted then order else std_sort (fun a b => nth (Z.to_nat a) indices_val 0 <? nth (Z.to_nat b) indices_val 0) order.
(** The output y (unique.cpp:46-88), into a new array. *)
Definition unique_y (flatten : bool) (axis : Z) (shape : list Z) (x : list Qc) (indices_val order : list Z) : option (list Z * list Qc) :=
  let num := Z.of_nat (length indices_val) in
  if flatten then
    obind (loop (fun i y => obind (get order i) (fun o => obind (get indices_val o) (fun k => obind (get x k) (fun v => put y i v)))) (upto num)
      (repeat 0%Qc (Z.to_nat num))) (fun y => Some ([num], y))
  else
    obind (vget shape axis) (fun axis_n =>
    let inner := prod (skipn (S (Z.to_nat axis)) shape) in
    let outer := prod (firstn (Z.to_nat axis) shape) in
    obind (loop (fun i y => obind (get order i) (fun o => obind (get indices_val o) (fun k =>
        loop (fun j => loop (fun t y => obind (get x (k * inner + j * (axis_n * inner) + t)) (fun v =>
          put y (i * inner + j * (num * inner) + t) v)) (upto inner)) (upto outer) y))) (upto num)
      (repeat 0%Qc (Z.to_nat (outer * num * inner)))) (fun y =>
    Some (firstn (Z.to_nat axis) shape ++ num :: skipn (S (Z.to_nat axis)) shape, y))).
(** The other outputs (unique.cpp:90-140): each is made if with_index_, with_inverse_ or
    with_counts_ says so; here all are. *)
Definition unique_index (indices_val order : list Z) : option (list Z) :=
  omap (fun i => obind (get order i) (fun o => get indices_val o)) (upto (Z.of_nat (length indices_val))).
Definition unique_inverse (inverse_val order : list Z) (num : Z) : option (list Z) :=
  obind (loop (fun i t => obind (get order i) (fun o => put t o i)) (upto num) (repeat 0 (Z.to_nat num))) (fun table =>
  omap (fun i => obind (get inverse_val i) (fun k => get table k)) (upto (Z.of_nat (length inverse_val)))).
Definition unique_counts (counts_val order : list Z) (num : Z) : option (list Z) :=
  omap (fun i => obind (get order i) (fun o => get counts_val o)) (upto num).
(** What setup_impl computes (unique.cpp:233-248): the shape of y, y, indices, inverse indices
    and counts.  forward_impl does nothing, but auto-forward has to be on. *)
Record uniques := { u_shape : list Z; u_y : list Qc; u_index : list Z; u_inverse : list Z; u_counts : list Z }.
Definition unique (flatten : bool) (axis : Z) (sorted : bool) (shape : list Z) (x : list Qc) : option uniques :=
  obind (refine_axis (length shape) axis) (fun axis =>
  obind (unique_preprocess flatten axis shape x) (fun '(xt, row, col) =>
  obind (unique_scan xt row col) (fun s =>
  let order := output_order sorted (s_indices s) in
  let num := Z.of_nat (length (s_indices s)) in
  obind (unique_y flatten axis shape x (s_indices s) order) (fun '(ys, y) =>
  obind (unique_index (s_indices s) order) (fun index =>
  obind (unique_inverse (s_inverse s) order num) (fun inverse =>
  obind (unique_counts (s_counts s) order num) (fun counts =>
  Some {| u_shape := ys; u_y := y; u_index := index; u_inverse := inverse; u_counts := counts |}))))))).
End unique.
