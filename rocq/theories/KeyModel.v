(** Model of indexing of arrays and variables with keys (python/src/nnabla/_indexing.pyx).

    An array is its shape and the list of its elements, [None] is any exception.  Keys are tuples
    of integers, slices, Ellipsis and None, or of integer and boolean arrays given as NumPy
    arrays or lists; integers are Python's int (a bool, which is an int for isinstance, is not a
    key here).  The functions called are those of SliceModel, IdxModel and ScatModel; the memory
    of a new array has the value [junk]. *)
From Coq Require Import List ZArith Bool QArith Qcanon.
From Verif Require SliceModel.
From Verif Require Import NdModel IdxModel JoinModel ScanModel ReduceModel ConvModel MatModel ScatModel.
Import ListNotations.
Local Open Scope list_scope.
Local Open Scope Z_scope.

Definition sl : Type := (option Z * option Z * option Z)%type.
Inductive key : Type := KInt (v : Z) | KSlice (a : sl) | KDots | KNew.
(** slice(None). *)
Definition whole : key := KSlice (None, None, None).
Definition is_new (k : key) : bool := match k with KNew => true | _ => false end.
Definition is_dots (k : key) : bool := match k with KDots => true | _ => false end.
(** l[pos:pos+1] = ins * [slice(None)] for the first Ellipsis (_indexing.pyx:52-57); without one
    there is nothing to replace. *)
Fixpoint replace_dots (ins : nat) (l : list key) : list key :=
  match l with
  | [] => []
  | KDots :: l => repeat whole ins ++ l
  | k :: l => k :: replace_dots ins l
  end.
(** Integers as slices (_indexing.pyx:68-76); an entry which is neither an integer nor a slice
    does not remain. *)
Definition as_slice (n : Z) (k : key) : option sl :=
  match k with
  | KInt v =>
      if (0 <=? v) && (v <? n) then Some (Some v, Some (v + 1), Some 1)
      else if (- n <=? v) && (v <? 0) then Some (Some (n + v), Some (n + v + 1), Some 1)
      else None
  | KSlice a => Some a
  | _ => None
  end.
Fixpoint as_slices (shape : list Z) (idx : list key) : option (list sl) :=
  match shape, idx with
  | [], [] => Some []
  | n :: shape, k :: idx => obind (as_slice n k) (fun a => obind (as_slices shape idx) (fun r => Some (a :: r)))
  | _, _ => None
  end.
(** basic_getsetitem_prepare (_indexing.pyx:45-82).  Unpacking the three tuples of an array
    without axes fails. *)
Definition prepare (keys : list key) (shape : list Z) : option (list key * list sl) :=
  let nd := length shape in
  let idx := filter (fun k => negb (is_new k)) keys in
  let '(keys, idx) := match idx with [] => (keys ++ repeat whole nd, repeat whole nd) | _ => (keys, idx) end in
  let '(keys, idx) :=
    if existsb is_dots idx then
      let ins := (nd + 1 - length idx)%nat in (replace_dots ins keys, replace_dots ins idx)
    else (keys, idx) in
  if existsb is_dots idx then None else
  if Nat.ltb nd (length idx) then None else
  let idx := idx ++ repeat whole (nd - length idx) in
  let keys := keys ++ repeat whole (nd - length keys) in
  obind (as_slices shape idx) (fun args =>
  match args with [] => None | _ => Some (keys, args) end).
(** basic_getsetitem_result_shape (_indexing.pyx:85-95). *)
Fixpoint result_shape (keys : list key) (sh : list Z) : option (list Z) :=
  match keys with
  | [] => Some []
  | KInt _ :: keys => result_shape keys (tl sh)
  | KNew :: keys => obind (result_shape keys sh) (fun r => Some (1 :: r))
  | _ :: keys => match sh with [] => None | n :: sh => obind (result_shape keys sh) (fun r => Some (n :: r)) end
  end.
Definition same_shape (a b : list Z) : bool := if list_eq_dec Z.eq_dec a b then true else false.
(** F.reshape: the number of elements must not change. *)
Definition reshape (a b : list Z) : option (list Z) := if prod a =? prod b then Some b else None.
(** F.slice: the shape and the elements. *)
Definition sliced (shape : list Z) (args : list sl) : option (list (Z * Z * Z * Z)) :=
  obind (SliceModel.fill_all shape args) (fun filled => SliceModel.setup shape filled).
(** basic_getitem (_indexing.pyx:98-114). *)
Definition getitem (junk : Qc) (keys : list key) (shape : list Z) (x : list Qc) : option (list Z * list Qc) :=
  obind (prepare keys shape) (fun '(keys, args) =>
  obind (sliced shape args) (fun axes =>
  let sh := SliceModel.out_shape axes in
  obind (SliceModel.forward shape axes x (fresh junk sh)) (fun y =>
  obind (result_shape keys sh) (fun r =>
  if same_shape sh r then Some (r, y) else obind (reshape sh r) (fun r => Some (r, y)))))).

(** np.arange(n)[slice] of NumPy, by PySlice_AdjustIndices of CPython. *)
Definition adjust (n k v : Z) : Z :=
  if v <? 0 then (if v + n <? 0 then (if k <? 0 then -1 else 0) else v + n)
  else if n <=? v then (if k <? 0 then n - 1 else n) else v.
Definition np_slice (n : Z) (a : sl) : option (list Z) :=
  let '(s, e, k) := a in
  let k := match k with Some k => k | None => 1 end in
  if k =? 0 then None else
  let s := match s with Some v => adjust n k v | None => if k <? 0 then n - 1 else 0 end in
  let e := match e with Some v => adjust n k v | None => if k <? 0 then -1 else n end in
  let len := if k <? 0 then (if e <? s then (s - e - 1) / (- k) + 1 else 0) else (if s <? e then (e - s - 1) / k + 1 else 0) in
  Some (map (fun i => s + i * k) (upto len)).
Fixpoint np_slices (shape : list Z) (args : list sl) : option (list (list Z)) :=
  match shape, args with
  | [], [] => Some []
  | n :: shape, a :: args => obind (np_slice n a) (fun l => obind (np_slices shape args) (fun r => Some (l :: r)))
  | _, _ => None
  end.
(** np.array(np.meshgrid( *indices, indexing='ij')): for each axis and each index [c] of an array with the
    lengths of the lists, element c[m] of list m. *)
Fixpoint all_indices (shape : list Z) : list (list Z) :=
  match shape with [] => [[]] | n :: shape => flat_map (fun i => map (cons i) (all_indices shape)) (upto n) end.
Definition lengths (ls : list (list Z)) : list Z := map (fun l => Z.of_nat (length l)) ls.
Definition grid (ls : list (list Z)) : list Z :=
  concat (map (fun m => map (fun c => nth (Z.to_nat (nth m c 0)) (nth m ls []) 0) (all_indices (lengths ls))) (seq 0 (length ls))).
(** broadcast (_indexing.pyx:39-42) if the shapes differ. *)
Definition spread (junk : Qc) (vshape target : list Z) (v : list Qc) : option (list Qc) :=
  if same_shape vshape target then Some v else
  let vs := repeat 1 (length target - length vshape) ++ vshape in
  obind (bc_pairs vs target) (fun ps => copy_all ps v (fresh junk target)).
(** basic_setitem (_indexing.pyx:117-139): the elements of the array afterwards. *)
Definition setitem (junk : Qc) (keys : list key) (shape : list Z) (vshape : list Z) (v x : list Qc) : option (list Qc) :=
  obind (prepare keys shape) (fun '(keys, args) =>
  obind (sliced shape args) (fun axes =>
  let sh := SliceModel.out_shape axes in
  obind (SliceModel.forward shape axes x (fresh junk sh)) (fun _ =>
  obind (result_shape keys sh) (fun r =>
  obind (spread junk vshape r v) (fun v =>
  obind (np_slices shape args) (fun ls =>
  let ext := lengths ls in
  obind (if same_shape r ext then Some ext else reshape r ext) (fun ext =>
  let ishape := Z.of_nat (length shape) :: ext in
  obind (snd_setup shape ext ishape) (fun _ =>
  snd_forward true false shape ishape (grid ls) v x)))))))).

(** * Integer and boolean arrays *)
Inductive akey : Type := AInt (sh v : list Z) | AMask (sh : list Z) (b : list bool) | ANew.
Definition is_anew (k : akey) : bool := match k with ANew => true | _ => false end.
(** np.vstack(np.nonzero(mask)). *)
Definition nonzero (sh : list Z) (b : list bool) : list (list Z) :=
  map fst (filter snd (combine (all_indices sh) b)).
Definition stacked (sh : list Z) (l : list (list Z)) : list Z * list Z :=
  (Z.of_nat (length sh) :: [Z.of_nat (length l)], concat (map (fun m => map (fun c => nth m c 0) l) (seq 0 (length sh)))).
(** np.array(idx): the arrays must have the same shape; booleans become 0 and 1. *)
Definition as_ints (k : akey) : option (list Z * list Z) :=
  match k with AInt sh v => Some (sh, v) | AMask sh b => Some (sh, map (fun t : bool => if t then 1 else 0) b) | ANew => None end.
Fixpoint np_array (idx : list akey) : option (list Z * list (list Z)) :=
  match idx with
  | [] => None
  | [k] => obind (as_ints k) (fun '(sh, v) => Some (sh, [v]))
  | k :: idx => obind (as_ints k) (fun '(sh, v) => obind (np_array idx) (fun '(sh', vs) => if same_shape sh sh' then Some (sh, v :: vs) else None))
  end.
(** The array of indices (_indexing.pyx:158-179, 207-228). *)
Definition indices_of (keys : list akey) : option (list Z * list Z) :=
  match filter (fun k => negb (is_anew k)) keys with
  | [AMask sh b] => Some (stacked sh (nonzero sh b))
  | idx => obind (np_array idx) (fun '(sh, vs) => Some (Z.of_nat (length vs) :: sh, concat vs))
  end.
(** newaxes.index(0). *)
Fixpoint leading (keys : list akey) : nat := match keys with ANew :: keys => S (leading keys) | _ => O end.
Definition news (keys : list akey) : nat := length (filter is_anew keys).
(** advanced_getitem (_indexing.pyx:142-188). *)
Definition agetitem (junk : Qc) (keys : list akey) (shape : list Z) (x : list Qc) : option (list Z * list Qc) :=
  obind (indices_of keys) (fun '(ishape, idx) =>
  obind (gnd_shape shape ishape) (fun r =>
  obind (gnd_pairs shape ishape idx) (fun ps =>
  obind (copy_all ps x (fresh junk r)) (fun y =>
  if Nat.ltb 0 (news keys) then
    match r with
    | n :: r' => obind (reshape r (repeat 1 (leading keys) ++ n :: repeat 1 (news keys - leading keys) ++ r')) (fun s => Some (s, y))
    | [] => None
    end
  else Some (r, y))))).
(** advanced_setitem (_indexing.pyx:191-232): the elements of the array afterwards. *)
Definition asetitem (junk : Qc) (keys : list akey) (shape vshape : list Z) (v x : list Qc) : option (list Qc) :=
  obind (if Nat.ltb 0 (news keys) then
     reshape vshape (firstn 1 (skipn (leading keys) vshape) ++ skipn (news keys + 1) vshape) else Some vshape) (fun vshape =>
  obind (indices_of keys) (fun '(ishape, idx) =>
  let up := tl ishape ++ skipn (Z.to_nat (hd 0 ishape)) shape in
  obind (spread junk vshape up v) (fun u =>
  obind (snd_setup shape up ishape) (fun _ =>
  snd_forward true false shape ishape idx u x)))).
