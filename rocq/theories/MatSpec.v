(** What Affine and BatchMatmul should compute. *)
From Coq Require Import List ZArith Bool QArith Qcanon.
From Verif Require Import NdSpec ScanSpec ReduceSpec ConvSpec.
Import ListNotations.
Local Open Scope list_scope.
Local Open Scope Z_scope.

(** Every element of the image of shape [S] has a row of weights. *)
Definition affine_value (A S O : list Z) (x w : list Qc) (b : option (list Qc)) (a o : list Z) : Qc :=
  (total (indices S) (fun i => qelem x (A ++ S) (a ++ i) * qelem w (size S :: O) (position 0 i S :: o)) +
   match b with Some b => qelem b O o | None => 0 end)%Qc.

(** [C] is the shape that [A] and [B] are broadcast to: extents agree or are 1. *)
Inductive joined : list Z -> list Z -> list Z -> Prop :=
| joined_nil : joined [] [] []
| joined_same : forall n A B C, joined A B C -> joined (n :: A) (n :: B) (n :: C)
| joined_left : forall n A B C, joined A B C -> joined (1 :: A) (n :: B) (n :: C)
| joined_right : forall n A B C, joined A B C -> joined (n :: A) (1 :: B) (n :: C).
(** The index in an array of shape [A] of the element that is repeated at [c]. *)
Fixpoint picked (A c : list Z) : list Z :=
  match A, c with n :: A, i :: c => (if n =? 1 then 0 else i) :: picked A c | _, _ => [] end.
(** Entry (i, j) of the matrix at [p], transposed if [t]. *)
Definition entry (t : bool) (a : list Qc) (A : list Z) (rows cols : Z) (p : list Z) (i j : Z) : Qc :=
  qelem a (A ++ [rows; cols]) (p ++ (if t then [j; i] else [i; j])).
Definition product (ta tb : bool) (A B : list Z) (ra ca rb cb : Z) (a b : list Qc) (c : list Z) (i k : Z) : Qc :=
  total (range 0 (Z.to_nat (if ta then ra else ca))) (fun j => entry ta a A ra ca (picked A c) i j * entry tb b B rb cb (picked B c) j k)%Qc.
(** [e] is [T] at each index of an array of shape [O], added to the previous gradient if that is
    asked for. *)
Definition each_at (g : option (bool * list Qc)) (d : option (list Qc)) (O : list Z) (T : list Z -> Qc) : Prop :=
  match g, d with
  | Some (accum, d0), Some e => length e = length d0 /\
      forall o, inside o O -> qelem e O o = ((if accum then qelem d0 O o else 0) + T o)%Qc
  | None, None => True
  | _, _ => False
  end.
