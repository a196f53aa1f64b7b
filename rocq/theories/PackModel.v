(** Model of packing and padding sequences: include/nbla/function/utils/rnn.hpp,
    src/nbla/function/generic/pack_padded_sequence.cpp, pad_packed_sequence.cpp and the
    wrappers of python/src/nnabla/utils/rnn.py.

    Arrays are lists in memory order; reading or writing outside one is None.  All sizes
    and lengths are natural numbers (negative lengths are not modelled).  The feature axes
    are one axis of size D.  Memory that the code does not initialise is a parameter. *)
From Coq Require Import List Arith Bool.
Import ListNotations.
Local Open Scope list_scope.

(** The loops of compute_batch_sizes (rnn.hpp:26-44) and compute_lengths (rnn.hpp:98-118),
    which are the same: count the positive entries, then decrement all.  None: out of
    fuel. *)
Fixpoint counts (fuel : nat) (l : list nat) : option (list nat) :=
  match fuel with
  | O => None
  | S fuel =>
      let c := length (filter (fun x => 0 <? x) l) in
      if c =? 0 then Some []
      else match counts fuel (map pred l) with Some r => Some (c :: r) | None => None end
  end.
Definition enough (l : list nat) : nat := S (list_max l).

(** Writing values from the start of an array: [old] holds its contents. *)
Fixpoint write {A} (old : list A) (f : A -> A -> A) (values : list A) : option (list A) :=
  match values, old with
  | [], _ => Some old
  | _ :: _, [] => None
  | v :: values, o :: old => match write old f values with Some r => Some (f o v :: r) | None => None end
  end.
Definition overwrite {A} (_ v : A) : A := v.

(** Offset of element (t, b, d) of a padded sequence of T steps and B sequences. *)
Definition offset (batch_first : bool) (T B D : nat) (c : nat * nat * nat) : nat :=
  let '(t, b, d) := c in
  if batch_first then b * (T * D) + t * D + d else t * (B * D) + b * D + d.

(** The elements visited by pack (rnn.hpp:46-96), in order. *)
Definition pack_cells (batch_sizes : list nat) (T D : nat) : list (nat * nat * nat) :=
  flat_map (fun t => flat_map (fun b => map (fun d => (t, b, d)) (seq 0 D)) (seq 0 (nth t batch_sizes 0))) (seq 0 T).
Fixpoint read {A} (x : list A) (offsets : list nat) : option (list A) :=
  match offsets with
  | [] => Some []
  | o :: offsets =>
      match nth_error x o, read x offsets with Some v, Some r => Some (v :: r) | _, _ => None end
  end.
(** pack and pack_batch_first; [stride_T] is T or TL. *)
Definition pack {A} (batch_first : bool) (f : A -> A -> A) (x : list A) (batch_sizes : list nat) (old : list A)
  (T stride_T B D : nat) : option (list A) :=
  match read x (map (offset batch_first stride_T B D) (pack_cells batch_sizes T D)) with
  | Some values => write old f values
  | None => None
  end.

Fixpoint update {A} (l : list A) (i : nat) (f : A -> A) : option (list A) :=
  match l, i with
  | [], _ => None
  | x :: l, O => Some (f x :: l)
  | x :: l, S i => match update l i f with Some r => Some (x :: r) | None => None end
  end.
(** The elements visited by unpack (rnn.hpp:120-221), in order. *)
Definition all_cells (T B D : nat) : list (nat * nat * nat) :=
  flat_map (fun t => flat_map (fun b => map (fun d => (t, b, d)) (seq 0 D)) (seq 0 B)) (seq 0 T).
(** One element: [packed] is the array from the running pointer on; padding writes zero
    unless accumulating ([zero] is None). *)
Fixpoint unpack_loop {A} (zero : option A) (f : A -> A -> A) (off : nat * nat * nat -> nat) (valid : nat -> nat -> bool)
  (cells : list (nat * nat * nat)) (packed mem : list A) : option (list A) :=
  match cells with
  | [] => Some mem
  | c :: cells =>
      let '(t, b, _) := c in
      if valid t b then
        match packed with
        | [] => None
        | v :: packed =>
            match update mem (off c) (fun o => f o v) with
            | Some mem => unpack_loop zero f off valid cells packed mem
            | None => None
            end
        end
      else
        match zero with
        | None => unpack_loop zero f off valid cells packed mem
        | Some z =>
            match update mem (off c) (fun _ => z) with
            | Some mem => unpack_loop zero f off valid cells packed mem
            | None => None
            end
        end
  end.
(** unpack and unpack_batch_first with and without a total length: [TL] is the number of
    steps of the padded sequence. *)
Definition unpack {A} (batch_first : bool) (zero : option A) (f : A -> A -> A) (packed : list A) (batch_sizes : list nat)
  (mem : list A) (T TL B D : nat) : option (list A) :=
  unpack_loop zero f (offset batch_first TL B D) (fun t b => (t <? T) && (b <? nth t batch_sizes 0))
    (all_cells TL B D) packed mem.

(** F.pack_padded_sequence (pack_padded_sequence.cpp:26-95): the packed data and the batch
    sizes; B is the size of [lengths]. *)
Definition pack_padded {A} (batch_first : bool) (T D : nat) (x : list A) (lengths : list nat)
  (bs0 : list nat) (y0 : list A) : option (list A * list nat) :=
  match counts (enough lengths) lengths with
  | None => None
  | Some c =>
      match write bs0 overwrite c with
      | None => None
      | Some bs =>
          match pack batch_first overwrite x bs y0 T T (length lengths) D with
          | Some y => Some (y, bs)
          | None => None
          end
      end
  end.
(** F.pad_packed_sequence (pad_packed_sequence.cpp:24-95): the padded data and the lengths.
    The padding value is not used.  total_length 0 stands for none.  B is the largest batch
    size; the largest of no batch sizes is undefined. *)
Definition pad_packed {A} (batch_first : bool) (zero padding_value : A) (total_length : nat) (D : nat) (packed : list A)
  (batch_sizes : list nat) (l0 : list nat) (y0 : list A) : option (list A * list nat) :=
  let T := length batch_sizes in
  if T =? 0 then None else
  let TL := if T <? total_length then total_length else T in
  match counts (enough batch_sizes) batch_sizes with
  | None => None
  | Some c =>
      match write l0 overwrite c with
      | None => None
      | Some lengths =>
          match unpack batch_first (Some zero) overwrite packed batch_sizes y0 T TL (list_max batch_sizes) D with
          | Some y => Some (y, lengths)
          | None => None
          end
      end
  end.

(** backward of pack_padded_sequence (pack_padded_sequence.cpp:97-145) and of
    pad_packed_sequence (pad_packed_sequence.cpp:97-152). *)
Definition pack_backward {A} (batch_first : bool) (zero : A) (add : A -> A -> A) (accum : bool) (T B D : nat)
  (gpacked : list A) (batch_sizes : list nat) (gx : list A) : option (list A) :=
  if accum then unpack batch_first None add gpacked batch_sizes gx T T B D
  else unpack batch_first (Some zero) overwrite gpacked batch_sizes gx T T B D.
Definition pad_backward {A} (batch_first : bool) (add : A -> A -> A) (accum : bool) (total_length D : nat)
  (gy : list A) (batch_sizes : list nat) (gpacked : list A) : option (list A) :=
  let T := length batch_sizes in
  let TL := if T <? total_length then total_length else T in
  pack batch_first (if accum then add else overwrite) gy batch_sizes gpacked T TL (list_max batch_sizes) D.

(** The wrappers of rnn.py.  F.gather along the batch axis (its meaning, not its code). *)
Definition gather_batch {A} (batch_first : bool) (T D : nat) (x : list A) (B : nat) (idx : list nat) : option (list A) :=
  read x (if batch_first
          then flat_map (fun b => flat_map (fun t => map (fun d => offset true T B D (t, b, d)) (seq 0 D)) (seq 0 T)) idx
          else flat_map (fun t => flat_map (fun b => map (fun d => offset false T B D (t, b, d)) (seq 0 D)) idx) (seq 0 T)).
(** F.scatter_nd(F.arange(0, B), sorted_indices): u[sorted[i]] = i. *)
Fixpoint scatter (i : nat) (sorted u : list nat) : option (list nat) :=
  match sorted with
  | [] => Some u
  | s :: sorted => match update u s (fun _ => i) with Some u => scatter (S i) sorted u | None => None end
  end.
(** pack_padded_sequence with enforce_sorted=False (rnn.py:154-176); [sorted] is the result
    of F.sort (any order among equal lengths). *)
Definition pack_unsorted {A} (batch_first : bool) (T D : nat) (x : list A) (lengths sorted : list nat)
  (bs0 : list nat) (y0 : list A) : option (list A * list nat * list nat) :=
  let B := length lengths in
  match read lengths sorted, scatter 0 sorted (repeat 0 B), gather_batch batch_first T D x B sorted with
  | Some lengths, Some unsorted, Some x =>
      match pack_padded batch_first T D x lengths bs0 y0 with
      | Some (y, bs) => Some (y, bs, unsorted)
      | None => None
      end
  | _, _, _ => None
  end.
(** pad_packed_sequence with unsorted_indices (rnn.py:282-302). *)
Definition pad_unsorted {A} (batch_first : bool) (zero padding_value : A) (total_length D : nat) (packed : list A)
  (batch_sizes unsorted : list nat) (l0 : list nat) (y0 : list A) : option (list A * list nat) :=
  let T := length batch_sizes in
  let TL := if T <? total_length then total_length else T in
  match pad_packed batch_first zero padding_value total_length D packed batch_sizes l0 y0 with
  | Some (y, lengths) =>
      match gather_batch batch_first TL D y (list_max batch_sizes) unsorted, read lengths unsorted with
      | Some y, Some lengths => Some (y, lengths)
      | _, _ => None
      end
  | None => None
  end.
