(** What warping by a flow should compute. *)
From Coq Require Import List ZArith QArith Qcanon.
From Verif Require Import QuantSpec.
Import ListNotations.
Local Open Scope Qc_scope.

(** An image, with rows and columns from 0, that goes on beyond its border as at the border. *)
Definition border (size i : Z) : Z := if Z_lt_le_dec i 0 then 0%Z else if Z_lt_le_dec i size then i else (size - 1)%Z.
(** [v] is between the four pixels around column [px], row [py] of an image that has no border:
    linear along each axis. *)
Definition between (image : Z -> Z -> Qc) (px py v : Qc) : Prop :=
  exists (i j : Z) (a b : Qc), px = whole_number i + a /\ 0 <= a /\ a < 1 /\ py = whole_number j + b /\ 0 <= b /\ b < 1 /\
  v = (1 - b) * ((1 - a) * image j i + a * image j (i + 1)%Z) + b * ((1 - a) * image (j + 1)%Z i + a * image (j + 1)%Z (i + 1)%Z).
Fixpoint dot (a b : list Qc) : Qc := match a, b with x :: a, y :: b => x * y + dot a b | _, _ => 0 end.
