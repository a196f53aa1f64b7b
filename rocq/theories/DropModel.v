(** Model of Dropout (src/nbla/function/generic/dropout.cpp) and of its derivative as a graph
    (python/src/nnabla/backward_function/dropout.py).

    Elements and numbers such as p_ and scale_ are rational and without rounding.  A generator is a
    seed and how many numbers were taken; [mt] gives the numbers for a seed, between 0 and 1, and
    bernoulli_distribution(q) takes one number and gives true if it is less than q.  Variables that
    hold masks are numbers; a mask that was never computed or was cleared has no contents, since
    reading it gives memory that is not initialised. *)
From Coq Require Import List ZArith Bool QArith Qcanon.
From Verif Require Import ReduceModel.
Import ListNotations.
Local Open Scope list_scope.
Local Open Scope Qc_scope.

Record generator := Generator { g_seed : Z; g_pos : nat }.
Definition numbers := Z -> nat -> Qc.

(** The members of a Dropout (include/nbla/function/dropout.hpp:52-59). *)
Record dropout := Dropout { p : Qc; seed : Z; scale : Qc; mask : nat; save_rng : bool; rgen : generator; kept : generator; keep : Qc }.
(** What functions share: the generator of the RandomManager, the contents of the masks, the member
    dropout_mask_ of every Variable, and the next unused mask. *)
Record world := World { global : generator; contents : nat -> option (list Qc); mask_of : nat -> option nat; fresh : nat }.
Definition put {A} (k : nat) (v : A) (f : nat -> A) : nat -> A := fun i => if Nat.eqb i k then v else f i.

(** The constructor; the members that are not set are arbitrary. *)
Definition make (p0 : Qc) (seed0 : Z) : dropout := Dropout p0 seed0 0 0 false (Generator 5489 0) (Generator 5489 0) 0.
(** setup_impl (dropout.cpp:30-51) for input Variable [x]; [device] is the number from
    random_device. *)
Definition setup (device : Z) (x : nat) (f : dropout) (w : world) : option (dropout * world) :=
  if less (p f) 0 || negb (less (p f) 1) then None else
  Some (Dropout (p f) (seed f) (1 / (1 - p f)) (fresh w) (save_rng f) (Generator (if (seed f =? -1)%Z then device else seed f) 0) (kept f) (1 - p f),
        World (global w) (put (fresh w) None (contents w)) (put x (Some (fresh w)) (mask_of w)) (S (fresh w))).
(** setup_recompute_impl (dropout.cpp:53-57). *)
Definition setup_recompute (f : dropout) : dropout := Dropout (p f) (seed f) (scale f) (mask f) true (rgen f) (kept f) (keep f).

(** dropout() (dropout.cpp:59-69): masks, outputs and the generator afterwards. *)
Fixpoint drop (mt : numbers) (keep scale : Qc) (xs : list Qc) (g : generator) : list Qc * list Qc * generator :=
  match xs with
  | [] => ([], [], g)
  | x :: xs => let m := if less (mt (g_seed g) (g_pos g)) keep then 1 else 0 in
               let '(ms, ys, g') := drop mt keep scale xs (Generator (g_seed g) (S (g_pos g))) in
               (m :: ms, x * m * scale :: ys, g')
  end.
Definition with_mask (k : nat) (m : option (list Qc)) (w : world) : world := World (global w) (put k m (contents w)) (mask_of w) (fresh w).
(** forward_impl (dropout.cpp:71-83). *)
Definition forward (mt : numbers) (xs : list Qc) (f : dropout) (w : world) : list Qc * dropout * world :=
  let g := if (seed f =? -1)%Z then global w else rgen f in
  let kept' := if save_rng f then g else kept f in
  let '(ms, ys, g') := drop mt (keep f) (scale f) xs g in
  (ys, Dropout (p f) (seed f) (scale f) (mask f) (save_rng f) (if (seed f =? -1)%Z then rgen f else g') kept' (keep f),
   let w' := with_mask (mask f) (Some ms) w in
   World (if (seed f =? -1)%Z then g' else global w) (contents w') (mask_of w') (fresh w')).
(** recompute_impl (dropout.cpp:85-90): a copy of the generator is used. *)
Definition recompute (mt : numbers) (xs : list Qc) (f : dropout) (w : world) : list Qc * world :=
  let '(ms, ys, _) := drop mt (keep f) (scale f) xs (kept f) in (ys, with_mask (mask f) (Some ms) w).
(** The loop of backward_impl (dropout.cpp:112-114). *)
Fixpoint grads (accum : bool) (scale : Qc) (dxs dys ms : list Qc) : list Qc :=
  match dxs, dys, ms with
  | dx :: dxs, dy :: dys, m :: ms => (if accum then dx else 0) + dy * m * scale :: grads accum scale dxs dys ms
  | _, _, _ => []
  end.
(** backward_impl (dropout.cpp:101-117), with clear_buffer (dropout.cpp:92-99).  [None]: the mask
    that is read has no contents. *)
Definition backward (propagate accum : bool) (dxs dys : list Qc) (f : dropout) (w : world) : option (list Qc * world) :=
  if negb propagate then Some (dxs, w) else
  match contents w (mask f) with
  | None => None
  | Some ms => Some (grads accum (scale f) dxs dys ms, with_mask (mask f) None w)
  end.

(** _get_dropout_mask (src/nbla/function/utils/dropout_workaround.cpp:19-23), which dropout_backward
    calls when the graph is made (dropout.py:45-53). *)
Definition find_mask (x : nat) (w : world) : option nat := mask_of w x.
(** dy * mask / (1 - p), when the graph is computed (dropout.py:55). *)
Definition graph_gradient (p0 : Qc) (k : nat) (dys : list Qc) (w : world) : option (list Qc) :=
  option_map (fun ms => map (fun '(dy, m) => dy * m / (1 - p0)) (combine dys ms)) (contents w k).
