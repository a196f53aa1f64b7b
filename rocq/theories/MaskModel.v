(** Model of Where, BoolFill, BoolGather, BoolScatter and OneHot of src/nbla/function/generic/.

    The conventions of ConvModel hold: arrays are lists of rational numbers, an access outside
    is [None], division truncates and by zero is [None], an [int] does not overflow.  A
    gradient is a pair of the accum flag and the previous value if it is to be propagated to.
    Masks are arrays of rational numbers, too. *)
From Coq Require Import List ZArith Bool QArith Qcanon Qround.
From Verif Require Import IdxModel JoinModel ScanModel ReduceModel ConvModel MatModel.
Import ListNotations.
Local Open Scope list_scope.
Local Open Scope Z_scope.

(** Conversion of a number to bool: mask[b] != T(0). *)
Definition truth (c : Qc) : bool := if Qc_eq_dec c 0%Qc then false else true.
(** T(bool). *)
Definition flag (b : bool) : Qc := if b then 1%Qc else 0%Qc.

(** * Where (where.cpp) *)

(** The loop over cshape (where.cpp:34-38). *)
Fixpoint same_front (c t : list Z) : bool :=
  match c, t with [], _ => true | m :: c, n :: t => (m =? n) && same_front c t | _ :: _, [] => false end.
(** setup_impl (where.cpp:24-40): the shape of the output. *)
Definition where_setup (c t f : list Z) : option (list Z) :=
  if negb (if list_eq_dec Z.eq_dec t f then true else false) then None else
  if negb (Nat.leb (length c) (length t)) then None else
  if negb (same_front c t) then None else Some t.
(** forward_impl (where.cpp:42-56); the sizes are those of condition and x_true. *)
Definition where_forward (csize xsize : Z) (cond x_true x_false y : list Qc) : option (list Qc) :=
  obind (divide xsize csize) (fun inner =>
  loop (fun s y => obind (divide s inner) (fun c => obind (get cond c) (fun b =>
    obind (if truth b then get x_true s else get x_false s) (put y s)))) (upto xsize) y).
(** One of the two updates (where.cpp:83-88). *)
Definition where_grad (g : grad) (v : Qc) (s : Z) : option grad :=
  match g with
  | None => Some None
  | Some (accum, a) =>
      obind (if accum : bool then get a s else Some 0%Qc) (fun old => obind (put a s (old + v)%Qc) (fun a => Some (Some (accum, a))))
  end.
(** backward_impl (where.cpp:58-90). *)
Definition where_backward (csize xsize : Z) (cond dy : list Qc) (gt gf : grad) : option (option (list Qc) * option (list Qc)) :=
  match gt, gf with
  | None, None => Some (None, None)
  | _, _ =>
      obind (divide xsize csize) (fun inner =>
      obind (loop (fun s '(gt, gf) => obind (divide s inner) (fun c => obind (get cond c) (fun b => obind (get dy s) (fun v =>
        obind (where_grad gt (if truth b then v else 0%Qc) s) (fun gt =>
        obind (where_grad gf (if truth b then 0%Qc else v) s) (fun gf => Some (gt, gf))))))) (upto xsize) (gt, gf)) (fun '(gt, gf) =>
      Some (option_map snd gt, option_map snd gf)))
  end.

(** * BoolFill (bool_fill.cpp) *)

(** setup_impl (bool_fill.cpp:25-45): broadcast_func_ as the shape it broadcasts to; it keeps
    the value of the previous setup unless it is needed. *)
Definition fill_setup (previous : option (list Z)) (data mask : list Z) : option (option (list Z)) :=
  if Nat.ltb (length data) (length mask) then None else
  Some (if list_eq_dec Z.eq_dec data mask then previous else Some data).
(** forward_impl with kernel_bool_fill_data_forward (bool_fill.cpp:47-71). *)
Definition fill_forward (junk : Qc) (f : option (list Z)) (data mask : list Z) (value : Qc) (x m y : list Qc) : option (list Qc) :=
  obind (bc_data junk mask f m) (fun m =>
  loop (fun i y => obind (get m i) (fun b => obind (if truth b then Some value else get x i) (put y i))) (upto (prod data)) y).
(** kernel_bool_fill_data_backward (bool_fill.cpp:73-81) and backward_impl (83-112). *)
Definition fill_backward (junk : Qc) (f : option (list Z)) (data mask : list Z) (m dy : list Qc) (gx : grad) : option (option (list Qc)) :=
  with_grad (fun accum dx =>
    obind (bc_data junk mask f m) (fun m =>
    loop (fun i dx => obind (get m i) (fun b => obind (get dy i) (fun g =>
      obind (if accum then obind (get dx i) (fun old => Some (old + g * (1 - flag (truth b)))%Qc) else Some (g * (1 - flag (truth b)))%Qc) (put dx i)))) (upto (prod data)) dx)) gx.

(** * BoolGather and BoolScatter (bool_gather.cpp, bool_scatter.cpp) *)

(** kernel_bool_gather (include/nbla/function/utils/bool_indexing.hpp:24-40).  The state is
    idx_nnz and sdata. *)
Definition gather_step (accum : bool) (D nnz d : Z) (gdata mask : list Qc) (b : Z) (st : Z * list Qc) : option (Z * list Qc) :=
  let '(k, s) := st in
  if k <? nnz then
    obind (get mask b) (fun m => obind (get gdata (b * D + d)) (fun g =>
    let v := (flag (truth m) * g)%Qc in
    obind (if accum then obind (get s (k * D + d)) (fun old => put s (k * D + d) (old + v)%Qc) else put s (k * D + d) v) (fun s =>
    Some (if truth m then k + 1 else k, s))))
  else Some (k, s).
Definition bool_gather (accum : bool) (D B nnz : Z) (gdata mask sdata : list Qc) : option (list Qc) :=
  loop (fun d s => obind (loop (gather_step accum D nnz d gdata mask) (upto B) (0, s)) (fun '(_, s) => Some s)) (upto D) sdata.
(** kernel_bool_scatter (bool_indexing.hpp:42-67). *)
Definition scatter_step (accum inplace : bool) (D nnz d : Z) (sdata mask : list Qc) (b : Z) (st : Z * list Qc) : option (Z * list Qc) :=
  let '(k, g) := st in
  obind (get mask b) (fun m => obind (get sdata (k * D + d)) (fun v =>
  obind (if inplace then if truth m then Some (flag (truth m) * v)%Qc else get g (b * D + d) else Some (flag (truth m) * v)%Qc) (fun v =>
  obind (if accum then obind (get g (b * D + d)) (fun old => put g (b * D + d) (old + v)%Qc) else put g (b * D + d) v) (fun g =>
  Some (Z.min (if truth m then k + 1 else k) (nnz - 1), g))))).
Definition bool_scatter (accum inplace : bool) (D B nnz : Z) (sdata mask gdata : list Qc) : option (list Qc) :=
  loop (fun d g => obind (loop (scatter_step accum inplace D nnz d sdata mask) (upto B) (0, g)) (fun '(_, g) => Some g)) (upto D) gdata.
(** BoolGather: setup_impl (bool_gather.cpp:29-74); the output depends on the mask.  The
    conversion of a sum to [int] truncates. *)
Definition trunc (q : Qc) : Z := Z.quot (Qnum (this q)) (Z.pos (Qden (this q))).
Definition bg_setup (g m : list Z) (mask : list Qc) : option (list Z) :=
  if Nat.ltb (length g) (length m) then None else
  if negb (same_front m g) then None else
  let n := trunc (sum_list mask) in
  Some (if Nat.eqb (length g) (length m) then [n] else [n; prod (skipn (length m) g)]).
(** forward_impl (bool_gather.cpp:76-90); [out] is the shape of the output. *)
Definition bg_forward (m out : list Z) (gdata mask y : list Qc) : option (list Qc) :=
  obind (vget out 0) (fun nnz => obind (divide (prod out) nnz) (fun D => bool_gather false D (prod m) nnz gdata mask y)).
(** backward_impl (bool_gather.cpp:92-116). *)
Definition bg_backward (m out : list Z) (mask dy : list Qc) (gx : grad) : option (option (list Qc)) :=
  with_grad (fun accum dx => obind (vget out 0) (fun nnz => obind (divide (prod out) nnz) (fun D =>
    bool_scatter accum false D (prod m) nnz dy mask dx))) gx.
(** BoolScatter: setup_impl (bool_scatter.cpp:27-64); [inp] is the shape of the third input,
    whose array is that of the output. *)
Definition bs_setup (s m : list Z) (inp : option (list Z)) : option (list Z) :=
  let out := m ++ tl s in
  match inp with
  | None => Some out
  | Some g => if negb (Nat.eqb (length g) (length out)) then None else if same_front out g then Some out else None
  end.
(** forward_impl (bool_scatter.cpp:66-84); [y] is the array of the third input if [inplace]. *)
Definition bs_forward (inplace : bool) (s m : list Z) (sdata mask y : list Qc) : option (list Qc) :=
  obind (vget s 0) (fun nnz => obind (divide (prod s) nnz) (fun D => bool_scatter false inplace D (prod m) nnz sdata mask y)).
(** kernel_masked_identity (bool_scatter.cpp:86-98). *)
Definition masked_identity (accum : bool) (B D : Z) (gout mask ginp : list Qc) : option (list Qc) :=
  loop (fun b => loop (fun d ginp => obind (get mask b) (fun m => obind (get gout (b * D + d)) (fun g =>
    let v := (flag (negb (truth m)) * g)%Qc in
    if accum then obind (get ginp (b * D + d)) (fun old => put ginp (b * D + d) (old + v)%Qc) else put ginp (b * D + d) v))) (upto D)) (upto B) ginp.
(** backward_impl (bool_scatter.cpp:100-135). *)
Definition bs_backward (s m : list Z) (mask dy : list Qc) (gs gi : grad) : option (option (list Qc) * option (list Qc)) :=
  match gs, gi with
  | None, None => Some (None, None)
  | _, _ =>
      obind (vget s 0) (fun nnz => obind (divide (prod s) nnz) (fun D =>
      obind (with_grad (fun accum ds => bool_gather accum D (prod m) nnz dy mask ds) gs) (fun ds =>
      obind (with_grad (fun accum di => masked_identity accum (prod m) D dy mask di) gi) (fun di => Some (ds, di)))))
  end.

(** * OneHot (one_hot.cpp) *)

(** setup_impl (one_hot.cpp:28-49): num_, size_ and the shape of the output. *)
Definition oh_setup (shape x : list Z) : option (Z * Z * list Z) :=
  match rev x with
  | [] => None
  | dim :: front =>
      if negb (Z.of_nat (length shape) =? dim) then None else
      obind (divide (prod x) dim) (fun num =>
      let out := rev front ++ shape in
      if negb (prod out =? num * prod shape) then None else Some (num, prod shape, out))
  end.
(** The inner loop (one_hot.cpp:61-77) on the reversed shape; [i2] is counted down.  The result
    is addr, if valid_class. *)
Fixpoint oh_addr (shape_rev : list Z) (x : list Z) (from : Z) (addr size : Z) : option (option Z) :=
  match shape_rev with
  | [] => Some (Some addr)
  | n :: shape_rev =>
      obind (get x (from + Z.of_nat (length shape_rev))) (fun c =>
      let c := if c <? 0 then c + n else c in
      if (c <? 0) || (n <=? c) then Some None
      else oh_addr shape_rev x from (addr + c * size) (size * n))
  end.
(** forward_impl (one_hot.cpp:51-82).  The output starts as zeros. *)
Definition oh_forward (shape : list Z) (num size : Z) (x : list Z) (y : list Qc) : option (list Qc) :=
  loop (fun i y => obind (oh_addr (rev shape) x (i * Z.of_nat (length shape)) 0 1) (fun a =>
    match a with Some addr => put y (i * size + addr) 1%Qc | None => Some y end)) (upto num) (cleared false y).
