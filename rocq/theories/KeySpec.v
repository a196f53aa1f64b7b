(** What indexing with keys means in NumPy (NumPy user guide, "Indexing on ndarrays"). *)
From Coq Require Import List ZArith Bool.
From Verif Require Import NdSpec IdxSpec SliceSpec MatSpec ScatSpec KeyModel.
Import ListNotations.
Local Open Scope list_scope.
Local Open Scope Z_scope.

(** Entries which use an axis of the array: all but Ellipsis and None. *)
Definition uses_axis (k : key) : bool := match k with KInt _ | KSlice _ => true | _ => false end.
Definition axis_keys (keys : list key) : list key := filter uses_axis keys.
Definition full : key := KSlice (None, None, None).
(** "Ellipsis expands to the number of : objects needed for the selection tuple to index all
    dimensions.  There may only be a single ellipsis present."  If the number of objects in the
    selection tuple is less than the number of axes, then : is assumed for any subsequent axes. *)
Inductive expands (nd : nat) : list key -> list key -> Prop :=
| expands_dots a b m : ~ In KDots a -> ~ In KDots b -> (length (axis_keys (a ++ b)) + m = nd)%nat ->
    expands nd (a ++ KDots :: b) (a ++ repeat full m ++ b)
| expands_end a m : ~ In KDots a -> (length (axis_keys a) + m = nd)%nat -> expands nd a (a ++ repeat full m).
(** The shape of the result: an integer removes its axis, a slice keeps it with the number of
    elements selected, None adds an axis of one element. *)
Inductive gives : list key -> list Z -> list Z -> Prop :=
| gives_nil : gives [] [] []
| gives_int v n keys shape O : - n <= v < n -> gives keys shape O -> gives (KInt v :: keys) (n :: shape) O
| gives_slice a l n keys shape O : python_slice n a l -> gives keys shape O ->
    gives (KSlice a :: keys) (n :: shape) (Z.of_nat (length l) :: O)
| gives_new keys shape O : gives keys shape O -> gives (KNew :: keys) shape (1 :: O).
(** Element [o] of the result is element [s] of the array. *)
Inductive takes : list key -> list Z -> list Z -> list Z -> Prop :=
| takes_nil : takes [] [] [] []
| takes_int v n keys shape o s : 0 <= v < n -> takes keys shape o s -> takes (KInt v :: keys) (n :: shape) o (v :: s)
| takes_back v n keys shape o s : - n <= v < 0 -> takes keys shape o s -> takes (KInt v :: keys) (n :: shape) o (v + n :: s)
| takes_slice a l i x n keys shape o s : python_slice n a l -> 0 <= i -> nth_error l (Z.to_nat i) = Some x ->
    takes keys shape o s -> takes (KSlice a :: keys) (n :: shape) (i :: o) (x :: s)
| takes_new keys shape o s : takes keys shape o s -> takes (KNew :: keys) shape (0 :: o) s.
(** The slices have the bounds for which F.slice is right (C25). *)
Definition ordinary_key (n : Z) (k : key) : Prop := match k with KSlice a => ordinary n a | _ => True end.
(** Keys which the code completes as NumPy does: with Ellipsis, without None, or with entries
    for no axis or for all. *)
Definition completed (nd : nat) (keys : list key) : Prop :=
  In KDots keys \/ ~ In KNew keys \/ axis_keys keys = [] \/ length (axis_keys keys) = nd.

(** * Integer and boolean arrays *)
(** The key without None, and then [p] times None before and [q] times after it. *)
Definition around (p q : nat) (keys : list akey) : list akey := repeat ANew p ++ keys ++ repeat ANew q.
(** Arrays of shape [rest], one for each of the axes [A], with entries in the range of these axes. *)
Definition arrays_valid (vs : list (list Z)) (rest A : list Z) : Prop :=
  length vs = length A /\ Forall (fun v => Z.of_nat (length v) = size rest) vs /\
  forall m c, (m < length A)%nat -> inside c rest -> - nth m A 0 <= elem (nth m vs []) rest c < nth m A 0.
(** The place their entries at [c] choose; negative ones count from the end. *)
Definition chosen (vs : list (list Z)) (rest A c : list Z) : list Z :=
  map (fun m => signed (nth m A 0) (elem (nth m vs []) rest c)) (seq 0 (length A)).
(** The places at which a mask is true, in row-major order. *)
Definition marked (b : list bool) (A : list Z) : list (list Z) :=
  filter (fun c => nth (Z.to_nat (position 0 c A)) b false) (indices A).
Definition ones (p : nat) : list Z := repeat 1 p.
Definition zeroes (p : nat) : list Z := repeat 0 p.
