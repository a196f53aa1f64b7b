(** Model of the arrays that batch normalization folding computes:
    python/src/nnabla/experimental/graph_converters/batch_normalization_folding.py and
    batch_normalization_self_folding.py.  (GcvModel models what the converters do to graphs.)

    A NumPy array is a shape and the list of its elements in row-major order.  The elements are
    rational numbers, without rounding; numpy.sqrt is a parameter [root].  numpy raises no error
    at a division by zero, which gives infinity or NaN; here it gives zero, and the theorems
    exclude it.  An exception is [None].  NumPy itself is not part of /repo: its broadcasting,
    transpose, reshape, squeeze and sum are given by their documentation. *)
From Coq Require Import List ZArith Bool QArith Qcanon.
From Verif Require Import IdxModel.
Import ListNotations.
Local Open Scope list_scope.
Local Open Scope Z_scope.

(** * NumPy *)
Record nd := { sh : list Z; el : list Qc }.
Fixpoint ravel (idx shape : list Z) : Z :=
  match idx, shape with i :: idx, n :: shape => i * fold_right Z.mul 1 shape + ravel idx shape | _, _ => 0 end.
Fixpoint ndindex (shape : list Z) : list (list Z) :=
  match shape with
  | [] => [[]]
  | n :: shape => flat_map (fun i => map (cons (Z.of_nat i)) (ndindex shape)) (seq 0 (Z.to_nat n))
  end.
Definition np_at (a : nd) (idx : list Z) : Qc := nth (Z.to_nat (ravel idx (sh a))) (el a) 0%Qc.
Definition np_build (shape : list Z) (f : list Z -> Qc) : nd := {| sh := shape; el := map f (ndindex shape) |}.
Definition same_shape (a b : list Z) : bool := if list_eq_dec Z.eq_dec a b then true else false.
(** Broadcasting: shapes are aligned at their last axes, extents agree or are 1. *)
Fixpoint bshape_rev (a b : list Z) : option (list Z) :=
  match a, b with
  | [], b => Some b
  | a, [] => Some a
  | m :: a, n :: b => obind (if m =? n then Some m else if m =? 1 then Some n else if n =? 1 then Some m else None) (fun k =>
      obind (bshape_rev a b) (fun r => Some (k :: r)))
  end.
Definition bshape (a b : list Z) : option (list Z) := obind (bshape_rev (rev a) (rev b)) (fun r => Some (rev r)).
Fixpoint pick (shape idx : list Z) : list Z :=
  match shape, idx with n :: shape, i :: idx => (if n =? 1 then 0 else i) :: pick shape idx | _, _ => [] end.
Definition np_pick (a : nd) (idx : list Z) : Qc := np_at a (pick (sh a) (skipn (length idx - length (sh a)) idx)).
Definition np_op (op : Qc -> Qc -> Qc) (a b : nd) : option nd :=
  obind (bshape (sh a) (sh b)) (fun s => Some (np_build s (fun i => op (np_pick a i) (np_pick b i)))).
(** a += b: the result has the shape of [a]. *)
Definition np_iop (op : Qc -> Qc -> Qc) (a b : nd) : option nd :=
  obind (np_op op a b) (fun r => if same_shape (sh r) (sh a) then Some r else None).
Definition np_map (f : Qc -> Qc) (a : nd) : nd := {| sh := sh a; el := map f (el a) |}.
Definition np_reshape (shape : list Z) (a : nd) : option nd :=
  if fold_right Z.mul 1 shape =? fold_right Z.mul 1 (sh a) then Some {| sh := shape; el := el a |} else None.
Definition np_squeeze (a : nd) : nd := {| sh := filter (fun n => negb (n =? 1)) (sh a); el := el a |}.
(** Axis [i] of the result is axis [nth i axes] of [a]. *)
Fixpoint where_is (k : nat) (axes : list nat) : nat :=
  match axes with [] => O | x :: axes => if Nat.eqb x k then O else S (where_is k axes) end.
Definition np_transpose (axes : list nat) (a : nd) : nd :=
  np_build (map (fun k => nth k (sh a) 0) axes) (fun i => np_at a (map (fun k => nth (where_is k axes) i 0) (seq 0 (length (sh a))))).
(** numpy.sum over the axes for which [reduced] holds. *)
Fixpoint kept (reduced : nat -> bool) (k : nat) (l : list Z) : list Z :=
  match l with [] => [] | x :: l => if reduced k then kept reduced (S k) l else x :: kept reduced (S k) l end.
Definition np_sum (reduced : nat -> bool) (a : nd) : nd :=
  np_build (kept reduced 0 (sh a)) (fun i =>
    fold_right Qcplus 0%Qc (map (np_at a) (filter (fun j => same_shape (kept reduced 0 j) i) (ndindex (sh a))))).

(** * Parameters *)
Inductive kind := Convolution | Deconvolution | Affine.
(** The inputs of BatchNormalization after the first, and eps. *)
Record stats := { beta : nd; gamma : nd; mean : nd; var : nd; eps : Qc }.
Definition on_stats (f : nd -> option nd) (s : stats) : option stats :=
  obind (f (beta s)) (fun b => obind (f (gamma s)) (fun g => obind (f (mean s)) (fun m => obind (f (var s)) (fun v =>
  Some {| beta := b; gamma := g; mean := m; var := v; eps := eps s |})))).
(** axes = list(range(ndim)); axes[0], axes[k] = axes[k], axes[0] with k = -1 or 1
    (batch_normalization_folding.py:162-164).  All parameters use the rank of the first. *)
Definition switched (channel_last : bool) (ndim : nat) : option (list nat) :=
  let k := if channel_last then (ndim - 1)%nat else 1%nat in
  if Nat.ltb k ndim then Some (map (fun i => if Nat.eqb i 0 then k else if Nat.eqb i k then O else i) (seq 0 ndim)) else None.
Definition switch_axes (channel_last : bool) (s : stats) : option stats :=
  obind (switched channel_last (length (sh (beta s)))) (fun axes =>
  on_stats (fun a => if Nat.eqb (length (sh a)) (length axes) then Some (np_transpose axes a) else None) s).
(** bn_param.reshape(bn_param.shape[1], bn_param.shape[0], ...). *)
Definition swap_extents (more : list Z) (a : nd) : option nd :=
  match sh a with m :: n :: _ => np_reshape (n :: m :: more) a | _ => None end.
(** reshape_bn_parameters (batch_normalization_folding.py:153-172). *)
Definition reshape_bn (k : kind) (channel_last : bool) (s : stats) : option stats :=
  match k with
  | Convolution => switch_axes channel_last s
  | Affine => on_stats (swap_extents []) s
  | Deconvolution => Some s
  end.
(** std, c0 and c1 (batch_normalization_folding.py:184-188). *)
Definition scale_shift (root : Qc -> Qc) (s : stats) : option (nd * nd) :=
  let std := np_map (fun v => root (v + eps s)%Qc) (var s) in
  obind (np_op Qcdiv (gamma s) std) (fun c0 =>
  obind (np_op Qcmult (gamma s) (mean s)) (fun gm => obind (np_op Qcdiv gm std) (fun q =>
  obind (np_op Qcminus (beta s) q) (fun c1 => Some (c0, c1))))).
(** _compute_folded_parameters (batch_normalization_folding.py:174-198). *)
Definition folded (root : Qc -> Qc) (k : kind) (channel_last : bool) (w : nd) (b : option nd) (s : stats) : option (nd * nd) :=
  obind (reshape_bn k channel_last s) (fun s =>
  obind (scale_shift root s) (fun c =>
  let c0 := fst c in let c1 := snd c in
  obind (np_op Qcmult c0 w) (fun w' =>
  obind (match b with
         | Some b => obind (np_reshape (sh c1) b) (fun b => obind (np_op Qcmult c0 b) (fun p => np_iop Qcplus c1 p))
         | None => Some c1
         end) (fun b' => Some (w', np_squeeze b'))))).
(** get_parameter_or_create of a name that does not exist, with a NumPy array (parameter.py:243-246). *)
Definition created (shape : list Z) (a : nd) : option nd := if same_shape shape (sh a) then Some a else None.
(** The new parameters in modify (batch_normalization_folding.py:136-149). *)
Definition fold_layer (root : Qc -> Qc) (k : kind) (channel_last : bool) (w b : nd) (s : stats) : option (nd * nd) :=
  obind (folded root k channel_last w (Some b) s) (fun p =>
  obind (created (sh w) (fst p)) (fun w' => obind (created (sh b) (snd p)) (fun b' => Some (w', b')))).
(** The bias of AddBiasModifier (batch_normalization_folding.py:84-88): zeros. *)
Definition added_bias (k : kind) (w : nd) : option nd :=
  obind (nth_error (sh w) (match k with Affine => 1%nat | _ => 0%nat end)) (fun n => Some {| sh := [n]; el := repeat 0%Qc (Z.to_nat n) |}).

(** * The opposite direction *)
(** reshape_bn_parameters (batch_normalization_folding.py:260-279). *)
Definition reshape_bn_opposite (k : kind) (channel_last : bool) (s : stats) : option stats :=
  match k with
  | Deconvolution => switch_axes channel_last s
  | Affine => on_stats (swap_extents [1; 1]) s
  | Convolution => Some s
  end.
(** axes_to_reduce (batch_normalization_folding.py:312-318); Affine does not get there. *)
Definition reduced_axes (k : kind) (channel_last : bool) (ndim axis : nat) : bool :=
  match k with
  | Deconvolution => if channel_last then Nat.ltb axis (ndim - 1) else negb (Nat.eqb axis 1)
  | _ => negb (Nat.eqb axis 0)
  end.
(** _compute_folded_parameters (batch_normalization_folding.py:281-325).  For Affine d_3 is a
    tuple, and numpy.reshape with a tuple among the extents raises TypeError. *)
Definition folded_opposite (root : Qc -> Qc) (k : kind) (channel_last : bool) (w : nd) (b : option nd) (s : stats) : option (nd * nd) :=
  obind (reshape_bn_opposite k channel_last s) (fun s =>
  obind (scale_shift root s) (fun c =>
  let c0 := fst c in let c1 := snd c in
  match k with
  | Affine => None
  | _ =>
      obind (np_op Qcmult c0 w) (fun w' =>
      obind (np_op Qcmult w' c1) (fun p =>
      let b' := np_sum (reduced_axes k channel_last (length (sh w'))) p in
      obind (match b with Some b => np_iop Qcplus b' b | None => Some b' end) (fun b' => Some (w', b'))))
  end)).
(** ip_func.inputs[1].d = w_data; ip_func.inputs[2].d = b_data (batch_normalization_folding.py:250-251).
    (NumPy would also accept an array with more leading axes of extent 1.) *)
Definition fold_layer_opposite (root : Qc -> Qc) (k : kind) (channel_last : bool) (w b : nd) (s : stats) : option (nd * nd) :=
  obind (folded_opposite root k channel_last w (Some b) s) (fun p =>
  obind (created (sh w) (fst p)) (fun w' => obind (created (sh b) (snd p)) (fun b' => Some (w', b')))).

(** * Self folding *)
(** _compute_self_folded_parameters (batch_normalization_self_folding.py:59-81): the arrays c0 and
    c1 of c0 * x + c1. *)
Definition self_folded (root : Qc -> Qc) (s : stats) : option (nd * nd) :=
  let shape := sh (beta s) in
  obind (on_stats (fun a => Some (np_squeeze a)) s) (fun s =>
  obind (scale_shift root s) (fun c =>
  obind (np_reshape shape (fst c)) (fun c0 => obind (np_reshape shape (snd c)) (fun c1 => Some (c0, c1))))).
