(** Model of the data sources and the data iterator:
    python/src/nnabla/utils/data_source.py, data_source_implements.py,
    data_iterator.py.

    Simplifications, global to this file:
    - A Python object is a value of a state type [S]; its (duck-typed) methods are
      a record [ops].  A wrapper takes the record of the wrapped source.
    - An example is a value of an arbitrary type [E]; a read that raises or yields
      None is [None].
    - A random generator is a function [rng k n]: the k-th draw of
      rng.permutation(n); each source counts its own draws.
    - The iterator is modelled in both modes, use_thread=False and use_thread=True;
      in the latter the helper thread runs _next between two calls of next, as the
      join in next() enforces.
    - Closing, logging and temporary files are left out. *)
From Coq Require Import List Bool Arith ZArith Lia.
Import ListNotations.

Record ops (S E : Type) := Ops {
  o_size : S -> nat;                         (* size *)
  o_pos : S -> nat;                          (* _position *)
  o_setpos : S -> nat -> S;                  (* ds._position = p *)
  o_get : S -> nat -> S * option E;          (* _get_data *)
  o_getgen : S -> nat -> nat -> S * option E;(* _get_data_of_generation *)
  o_genorder : S -> nat -> S;                (* _generate_order *)
  o_reset : S -> S;                          (* reset *)
  o_apply : S -> S                           (* apply_order *)
}.
Arguments o_size {S E}. Arguments o_pos {S E}. Arguments o_setpos {S E}.
Arguments o_get {S E}. Arguments o_getgen {S E}. Arguments o_genorder {S E}.
Arguments o_reset {S E}. Arguments o_apply {S E}. Arguments Ops {S E}.

(** DataSource.next (data_source.py:127-130) *)
Definition src_next {S E} (o : ops S E) (s : S) : S * option E :=
  let (s', d) := o_get o s (o_pos o s) in (o_setpos o s' (o_pos o s' + 1), d).

Definition rng_t := nat -> nat -> list nat.

(** ** SimpleDataSource (data_source_implements.py:37-87) *)
Record simple (E : Type) := Simple {
  sm_load : nat -> E; sm_size : nat; sm_shuffle : bool; sm_rng : rng_t;
  sm_draws : nat; sm_gen : nat; sm_pos : nat;
  sm_orders : list (nat * list nat)          (* deque of snapshots, oldest first *)
}.
Arguments Simple {E}. Arguments sm_load {E}. Arguments sm_size {E}. Arguments sm_shuffle {E}.
Arguments sm_rng {E}. Arguments sm_draws {E}. Arguments sm_gen {E}. Arguments sm_pos {E}.
Arguments sm_orders {E}.

(** The search loops data_source_implements.py:49-52 and 62-64. *)
Fixpoint find_gen (g : nat) (l : list (nat * list nat)) : option (list nat) :=
  match l with
  | [] => None
  | (h, o) :: l' => if Nat.eqb h g then Some o else find_gen g l'
  end.

(** deque(maxlen=15).append (line 85, 72) *)
Definition deque_append {A} (maxlen : nat) (l : list A) (x : A) : list A :=
  let l' := l ++ [x] in if Nat.ltb maxlen (length l') then tl l' else l'.

(** _get_data_of_generation, lines 47-55.  None: the ValueError of line 54 or the
    IndexError of an index outside the order. *)
Definition simple_getgen {E} (s : simple E) (p g : nat) : simple E * option E :=
  (s, match find_gen g (sm_orders s) with
      | None => None
      | Some o => option_map (sm_load s) (nth_error o p)
      end).

(** _generate_order, lines 61-72 *)
Definition simple_genorder {E} (s : simple E) (g : nat) : simple E :=
  match find_gen g (sm_orders s) with
  | Some _ => s
  | None =>
      let '(o, d) := if sm_shuffle s then (sm_rng s (sm_draws s) (sm_size s), S (sm_draws s))
                     else (seq 0 (sm_size s), sm_draws s) in
      Simple (sm_load s) (sm_size s) (sm_shuffle s) (sm_rng s) d (sm_gen s) (sm_pos s)
             (deque_append 15 (sm_orders s) (g, o))
  end.

Definition simple_setpos {E} (s : simple E) (p : nat) : simple E :=
  Simple (sm_load s) (sm_size s) (sm_shuffle s) (sm_rng s) (sm_draws s) (sm_gen s) p (sm_orders s).

(** apply_order, lines 57-59 *)
Definition simple_apply {E} (s : simple E) : simple E :=
  simple_genorder
    (Simple (sm_load s) (sm_size s) (sm_shuffle s) (sm_rng s) (sm_draws s) (S (sm_gen s)) (sm_pos s)
            (sm_orders s)) (S (sm_gen s)).

Definition simple_ops {E} : ops (simple E) E := {|
  o_size := sm_size; o_pos := sm_pos; o_setpos := simple_setpos;
  o_get s p := simple_getgen s p (sm_gen s);           (* lines 44-45 *)
  o_getgen := simple_getgen;
  o_genorder := simple_genorder;
  o_reset s := simple_setpos s 0;                      (* lines 74-75 *)
  o_apply := simple_apply |}.

(** __init__, lines 77-87 *)
Definition simple_new {E} (load : nat -> E) (n : nat) (shuffle : bool) (rng : rng_t) : simple E :=
  simple_genorder (simple_setpos (Simple load n shuffle rng 0 0 0 []) 0) 0.

(** ** CsvDataSource order handling (data_source_implements.py:472-504); the rows
    are already processed into examples *)
Record csv (E : Type) := Csv {
  cs_rows : list E; cs_shuffle : bool; cs_rng : rng_t; cs_draws : nat; cs_pos : nat;
  cs_order : list nat }.
Arguments Csv {E}. Arguments cs_rows {E}. Arguments cs_shuffle {E}. Arguments cs_rng {E}.
Arguments cs_draws {E}. Arguments cs_pos {E}. Arguments cs_order {E}.

Definition csv_get {E} (s : csv E) (p : nat) : csv E * option E :=
  (s, match nth_error (cs_order s) p with None => None | Some i => nth_error (cs_rows s) i end).
Definition csv_setpos {E} (s : csv E) (p : nat) : csv E :=
  Csv (cs_rows s) (cs_shuffle s) (cs_rng s) (cs_draws s) p (cs_order s).
(** reset, lines 497-504 *)
Definition csv_reset {E} (s : csv E) : csv E :=
  let '(o, d) := if cs_shuffle s then (cs_rng s (cs_draws s) (length (cs_rows s)), S (cs_draws s))
                 else (cs_order s, cs_draws s) in
  Csv (cs_rows s) (cs_shuffle s) (cs_rng s) d 0 o.
Definition csv_ops {E} : ops (csv E) E := {|
  o_size s := length (cs_rows s); o_pos := cs_pos; o_setpos := csv_setpos;
  o_get := csv_get; o_getgen s p _ := csv_get s p; o_genorder s _ := s;
  o_reset := csv_reset; o_apply s := s |}.
(** __init__, lines 475-495 *)
Definition csv_new {E} (rows : list E) (shuffle : bool) (rng : rng_t) : csv E :=
  csv_reset (Csv rows shuffle rng 0 0 (seq 0 (length rows))).

(** ** ConcatDataSource (data_source_implements.py:507-541).  The list of sources is
    a list of object identities into a store of sources, because line 520 searches
    the list with list.index (equality of objects). *)
Record concat (S : Type) := Concat {
  cc_ids : list nat; cc_store : list S; cc_shuffle : bool; cc_rng : rng_t; cc_draws : nat;
  cc_pos : nat; cc_points : list nat; cc_size : nat; cc_indexes : list nat }.
Arguments Concat {S}. Arguments cc_ids {S}. Arguments cc_store {S}. Arguments cc_shuffle {S}.
Arguments cc_rng {S}. Arguments cc_draws {S}. Arguments cc_pos {S}. Arguments cc_points {S}.
Arguments cc_size {S}. Arguments cc_indexes {S}.

(** list.index *)
Fixpoint list_index (x : nat) (l : list nat) : nat :=
  match l with [] => 0 | y :: l' => if Nat.eqb x y then 0 else S (list_index x l') end.

Definition size_of {S E} (o : ops S E) (store : list S) (i : nat) : nat :=
  match nth_error store i with Some s => o_size o s | None => 0 end.

(** lines 518-521 *)
Definition sw_points {S E} (o : ops S E) (store : list S) (ids : list nat) : list nat :=
  map (fun s => list_sum (map (size_of o store) (firstn (list_index s ids + 1) ids))) ids.

Fixpoint upd {A} (l : list A) (i : nat) (x : A) : list A :=
  match l, i with
  | [], _ => []
  | _ :: l', O => x :: l'
  | y :: l', S i' => y :: upd l' i' x
  end.

(** The loop lines 529-533: first switching point above idx, with the previous one. *)
Fixpoint find_source (idx : nat) (prev : nat) (i : nat) (points : list nat) : option (nat * nat) :=
  match points with
  | [] => None
  | b :: points' => if Nat.ltb idx b then Some (i, idx - prev) else find_source idx b (S i) points'
  end.

Definition concat_get {S E} (o : ops S E) (s : concat S) (p : nat) : concat S * option E :=
  match nth_error (cc_indexes s) p with
  | None => (s, None)
  | Some idx =>
      match find_source idx 0 0 (cc_points s) with
      | None => (s, None)
      | Some (i, j) =>
          match nth_error (cc_ids s) i with
          | None => (s, None)
          | Some id =>
              match nth_error (cc_store s) id with
              | None => (s, None)
              | Some x =>
                  let (x', d) := o_get o x j in
                  (Concat (cc_ids s) (upd (cc_store s) id x') (cc_shuffle s) (cc_rng s) (cc_draws s)
                          (cc_pos s) (cc_points s) (cc_size s) (cc_indexes s), d)
              end
          end
      end
  end.
Definition concat_setpos {S} (s : concat S) (p : nat) : concat S :=
  Concat (cc_ids s) (cc_store s) (cc_shuffle s) (cc_rng s) (cc_draws s) p (cc_points s) (cc_size s) (cc_indexes s).
(** reset, lines 535-541 (the wrapped sources are not reset) *)
Definition concat_reset {S} (s : concat S) : concat S :=
  let '(ix, d) := if cc_shuffle s then (cc_rng s (cc_draws s) (cc_size s), Datatypes.S (cc_draws s))
                  else (seq 0 (cc_size s), cc_draws s) in
  Concat (cc_ids s) (cc_store s) (cc_shuffle s) (cc_rng s) d 0 (cc_points s) (cc_size s) ix.
Definition concat_ops {S E} (o : ops S E) : ops (concat S) E := {|
  o_size := cc_size; o_pos := cc_pos; o_setpos := concat_setpos;
  o_get := concat_get o; o_getgen s p _ := concat_get o s p; o_genorder s _ := s;
  o_reset := concat_reset; o_apply s := s |}.
(** __init__, lines 514-525 *)
Definition concat_new {S E} (o : ops S E) (store : list S) (ids : list nat) (shuffle : bool) (rng : rng_t) : concat S :=
  let pts := sw_points o store ids in
  concat_reset (Concat ids store shuffle rng 0 0 pts (last pts 0) []).

(** ** DataSourceWithMemoryCache (data_source.py:516-605) *)
Record mem (S E : Type) := Mem {
  mc_in : S; mc_on : bool; mc_shuffle : bool; mc_rng : rng_t; mc_draws : nat;
  mc_gen : Z; mc_pos : nat; mc_size : nat; mc_order : list nat; mc_cache : list E }.
Arguments Mem {S E}. Arguments mc_in {S E}. Arguments mc_on {S E}. Arguments mc_shuffle {S E}.
Arguments mc_rng {S E}. Arguments mc_draws {S E}. Arguments mc_gen {S E}. Arguments mc_pos {S E}.
Arguments mc_size {S E}. Arguments mc_order {S E}. Arguments mc_cache {S E}.

Definition mem_upd {S E} (m : mem S E) (i : S) (p : nat) (c : list E) : mem S E :=
  Mem i (mc_on m) (mc_shuffle m) (mc_rng m) (mc_draws m) (mc_gen m) p (mc_size m) (mc_order m) c.

(** _get_data, lines 530-543 *)
Definition mem_get {S E} (o : ops S E) (m : mem S E) (p : nat) : mem S E * option E :=
  if mc_on m then
    match nth_error (mc_order m) p with
    | None => (m, None)                                   (* IndexError, line 535 *)
    | Some i =>
        match nth_error (mc_cache m) i with
        | Some d => (mem_upd m (mc_in m) p (mc_cache m), Some d)
        | None =>
            let (s', d) := o_get o (mc_in m) p in
            match d with
            | Some e => (mem_upd m s' p (mc_cache m ++ [e]), Some e)
            | None => (mem_upd m s' (mc_pos m) (mc_cache m), None)
            end
        end
    end
  else
    let (s', d) := o_get o (mc_in m) p in
    (mem_upd m s' (match d with Some _ => p | None => mc_pos m end) (mc_cache m), d).
Definition mem_setpos {S E} (m : mem S E) (p : nat) : mem S E := mem_upd m (mc_in m) p (mc_cache m).

(** reset, lines 586-605 *)
Definition mem_reset {S E} (o : ops S E) (m : mem S E) : mem S E :=
  if mc_on m then
    let g := (mc_gen m + 1)%Z in
    let '(ord, d) := if mc_shuffle m && (0 <? g)%Z
                     then (mc_rng m (mc_draws m) (mc_size m), Datatypes.S (mc_draws m))
                     else (seq 0 (mc_size m), mc_draws m) in
    let '(g', i) := if Nat.eqb (mc_pos m) 0 then ((-1)%Z, mc_in m)
                    else (g, o_reset o (o_setpos o (mc_in m) (mc_pos m))) in
    Mem i true (mc_shuffle m) (mc_rng m) d g' 0 (mc_size m) ord (mc_cache m)
  else
    Mem (o_reset o (mc_in m)) false (mc_shuffle m) (mc_rng m) (mc_draws m) (mc_gen m) 0 (mc_size m)
        (mc_order m) (mc_cache m).
Definition mem_ops {S E} (o : ops S E) : ops (mem S E) E := {|
  o_size := mc_size; o_pos := mc_pos; o_setpos := mem_setpos;
  o_get := mem_get o; o_getgen m p _ := mem_get o m p; o_genorder m _ := m;
  o_reset := mem_reset o; o_apply m := m |}.
(** __init__, lines 545-571: one probing read of position 0, whose size decides
    [on_memory]; that decision is a parameter here. *)
Definition mem_new {S E} (o : ops S E) (i : S) (on shuffle : bool) (rng : rng_t) : mem S E :=
  Mem (fst (o_get o i 0)) on shuffle rng 0 (-1) 0 (o_size o i) (seq 0 (o_size o i)) [].

(** ** SlicedDataSource (data_source.py:608-641) *)
Record sliced (S : Type) := Sliced {
  sl_in : S; sl_start : nat; sl_end : nat; sl_gen : nat; sl_pos : nat }.
Arguments Sliced {S}. Arguments sl_in {S}. Arguments sl_start {S}. Arguments sl_end {S}.
Arguments sl_gen {S}. Arguments sl_pos {S}.

Definition sliced_get {S E} (o : ops S E) (s : sliced S) (p : nat) : sliced S * option E :=
  let (i, d) := o_getgen o (sl_in s) (sl_start s + p) (sl_gen s) in
  (Sliced i (sl_start s) (sl_end s) (sl_gen s) p, d).
Definition sliced_ops {S E} (o : ops S E) : ops (sliced S) E := {|
  o_size s := sl_end s - sl_start s; o_pos := sl_pos;
  o_setpos s p := Sliced (sl_in s) (sl_start s) (sl_end s) (sl_gen s) p;
  o_get := sliced_get o; o_getgen s p _ := sliced_get o s p; o_genorder s _ := s;
  o_reset s := Sliced (o_setpos o (o_reset o (sl_in s)) (sl_start s))
                      (sl_start s) (sl_end s) (sl_gen s) 0;               (* lines 632-635 *)
  o_apply s := Sliced (o_genorder o (sl_in s) (Datatypes.S (sl_gen s)))
                      (sl_start s) (sl_end s) (Datatypes.S (sl_gen s)) (sl_pos s) |}. (* 628-630 *)
Definition sliced_new {S} (i : S) (st en : nat) : sliced S := Sliced i st en 0 0.

(** ** DataSourceWithFileCache (data_source.py:179-513) *)
Record fcache (S E : Type) := FCache {
  fc_in : S; fc_csize : nat; fc_size : nat; fc_shuffle : bool; fc_rng : rng_t; fc_draws : nat;
  fc_pos : nat;
  fc_files : list (list E);               (* contents of the cache files *)
  fc_forder : list nat;                   (* _cache_file_order *)
  fc_dorders : list (list nat);           (* _cache_file_data_orders *)
  fc_starts : list nat;                   (* _cache_file_start_positions *)
  fc_fpos : list nat;                     (* _cache_file_positions *)
  fc_order : list nat }.                  (* _order *)
Arguments FCache {S E}. Arguments fc_in {S E}. Arguments fc_csize {S E}. Arguments fc_size {S E}.
Arguments fc_shuffle {S E}. Arguments fc_rng {S E}. Arguments fc_draws {S E}. Arguments fc_pos {S E}.
Arguments fc_files {S E}. Arguments fc_forder {S E}. Arguments fc_dorders {S E}.
Arguments fc_starts {S E}. Arguments fc_fpos {S E}. Arguments fc_order {S E}.

(** The loop lines 345-355 with _store_data_to_cache_buffer (295-300) and
    _save_cache_to_file (202-293): [buf] are the buffered positions already read
    (the code reads them, possibly out of order, in a thread pool when the file is
    written and then sorts by position).  [left] counts the remaining positions. *)
Fixpoint create_cache {S E} (o : ops S E) (i : S) (csize pos left : nat) (buf : list E)
         (files : list (list E)) : S * option (list (list E)) :=
  match left with
  | O => (i, Some (if Nat.ltb 0 (length buf) then files ++ [buf] else files))   (* 354-355 *)
  | Datatypes.S left' =>
      match o_get o i pos with
      | (i', None) => (i', None)
      | (i', Some e) =>
          let buf' := buf ++ [e] in
          if Nat.leb csize (length buf') || Nat.eqb left' 0                    (* line 299 *)
          then create_cache o i' csize (Datatypes.S pos) left' [] (files ++ [buf'])
          else create_cache o i' csize (Datatypes.S pos) left' buf' files
      end
  end.

(** math.ceil(size / cache_size) for positive cache_size (lines 362-363) *)
Definition ceil_div (a b : nat) : nat := (a + b - 1) / b.

(** lines 364-370: cut the orders to the data size *)
Definition cut_orders (size csize : nat) (dorders : list (list nat)) : list (list nat) :=
  let nf := ceil_div size csize in
  let d := firstn nf dorders in
  if Nat.eqb (size mod csize) 0 then d
  else upd d (nf - 1) (firstn (size mod csize) (nth (nf - 1) d [])).

(** _create_cache_file_position_table, lines 403-419.  [n] is len(_order): the
    tables start as range(n) and are overwritten from the front. *)
Fixpoint position_table (csize : nat) (dorders : list (list nat)) (fo : list nat)
         (pos : nat) (starts : list nat) : list nat * list nat * list nat :=
  match fo with
  | [] => (starts, [], [])
  | f :: fo' =>
      let d := nth f dorders [] in
      let '(st, fp, od) := position_table csize dorders fo' (pos + length d) (upd starts f pos) in
      (st, map (fun _ => f) d ++ fp, map (fun j => j + f * csize) d ++ od)
  end.
Definition overwrite (base : list nat) (l : list nat) : list nat := l ++ skipn (length l) base.

Definition fc_rebuild {S E} (c : fcache S E) (n : nat) : fcache S E :=
  let '(st, fp, od) := position_table (fc_csize c) (fc_dorders c) (fc_forder c) 0
                                      (seq 0 (length (fc_forder c))) in
  FCache (fc_in c) (fc_csize c) (fc_size c) (fc_shuffle c) (fc_rng c) (fc_draws c) (fc_pos c)
         (fc_files c) (fc_forder c) (fc_dorders c)
         st (overwrite (seq 0 n) fp) (overwrite (seq 0 n) od).

(** __init__, lines 421-480 *)
Definition fc_new {S E} (o : ops S E) (i : S) (csize : nat) (shuffle : bool) (rng : rng_t)
  : option (fcache S E) :=
  let size := o_size o i in
  match create_cache o i csize 0 size [] [] with
  | (_, None) => None
  | (i', Some files) =>
      let dorders := cut_orders size csize (map (fun f => seq 0 (length f)) files) in
      let forder := firstn (ceil_div size csize) (seq 0 (length files)) in
      Some (fc_rebuild (FCache i' csize size shuffle rng 0 size files forder dorders [] [] []) size)
  end.

(** _get_data_from_cache_file, lines 302-328; the memo of the current file is left
    out because the files do not change. *)
Definition fc_get {S E} (c : fcache S E) (p : nat) : fcache S E * option E :=
  (FCache (fc_in c) (fc_csize c) (fc_size c) (fc_shuffle c) (fc_rng c) (fc_draws c) p
          (fc_files c) (fc_forder c) (fc_dorders c) (fc_starts c) (fc_fpos c) (fc_order c),
   match nth_error (fc_fpos c) p with
   | None => None
   | Some f =>
       match nth_error (fc_starts c) f, nth_error (fc_dorders c) f, nth_error (fc_files c) f with
       | Some st, Some dord, Some file =>
           match nth_error dord (p - st) with None => None | Some j => nth_error file j end
       | _, _, _ => None
       end
   end).

(** numpy permutation of a list: the k-th draw applied to it. *)
Definition permute {A} (d : A) (ix : list nat) (l : list A) : list A := map (fun i => nth i l d) ix.

Fixpoint permute_all (rng : rng_t) (k : nat) (ls : list (list nat)) : nat * list (list nat) :=
  match ls with
  | [] => (k, [])
  | l :: ls' => let (k', r) := permute_all rng (S k) ls' in (k', permute 0 (rng k (length l)) l :: r)
  end.

(** reset, lines 498-513 *)
Definition fc_reset {S E} (o : ops S E) (c : fcache S E) : fcache S E :=
  let c1 :=
    if fc_shuffle c then
      let fo := permute 0 (fc_rng c (fc_draws c) (length (fc_forder c))) (fc_forder c) in
      let (k, dords) := permute_all (fc_rng c) (Datatypes.S (fc_draws c)) (fc_dorders c) in
      FCache (fc_in c) (fc_csize c) (fc_size c) (fc_shuffle c) (fc_rng c) k (fc_pos c)
             (fc_files c) fo dords (fc_starts c) (fc_fpos c)
             (flat_map (fun f => nth f dords []) fo)
    else c in
  let c2 := fc_rebuild c1 (length (fc_order c1)) in
  FCache (o_reset o (fc_in c2)) (fc_csize c2) (fc_size c2) (fc_shuffle c2) (fc_rng c2) (fc_draws c2) 0
         (fc_files c2) (fc_forder c2) (fc_dorders c2) (fc_starts c2) (fc_fpos c2) (fc_order c2).
Definition fc_setpos {S E} (c : fcache S E) (p : nat) : fcache S E :=
  FCache (fc_in c) (fc_csize c) (fc_size c) (fc_shuffle c) (fc_rng c) (fc_draws c) p
         (fc_files c) (fc_forder c) (fc_dorders c) (fc_starts c) (fc_fpos c) (fc_order c).
Definition fc_ops {S E} (o : ops S E) : ops (fcache S E) E := {|
  o_size := fc_size; o_pos := fc_pos; o_setpos := fc_setpos;
  o_get := fc_get; o_getgen c p _ := fc_get c p; o_genorder c _ := c;
  o_reset := fc_reset o; o_apply c := c |}.

(** ** DataIterator (data_iterator.py:40-251) *)

Inductive event := EpochEnd (e : nat) | EpochBegin (e : nat).  (* callbacks run, lines 367-373 *)
Inductive outcome (E : Type) := Batch (l : list E) | Stop | NoneData | Hang.
Arguments Batch {E}. Arguments Stop {E}. Arguments NoneData {E}. Arguments Hang {E}.

Record iter (S E : Type) := Iter {
  it_src : S; it_batch : nat; it_stop : bool; it_size : nat; it_epoch : nat;
  it_log : list event;
  it_queue : list (option (list E) * nat) }.
Arguments Iter {S E}. Arguments it_src {S E}. Arguments it_batch {S E}. Arguments it_stop {S E}.
Arguments it_size {S E}. Arguments it_epoch {S E}. Arguments it_log {S E}. Arguments it_queue {S E}.

(** The for loop data_iterator.py:198-209 *)
Fixpoint batch_loop {S E} (o : ops S E) (stop : bool) (size b : nat) (s : S) (n_reset : nat)
         (acc : list E) : S * option (list E) * nat :=
  match b with
  | O => (s, Some acc, n_reset)
  | Datatypes.S b' =>
      match src_next o s with
      | (s1, None) => (s1, None, 0)
      | (s1, Some d) =>
          if Nat.leb size (o_pos o s1) && negb stop
          then batch_loop o stop size b' (o_reset o s1) (Datatypes.S n_reset) (acc ++ [d])
          else batch_loop o stop size b' s1 n_reset (acc ++ [d])
      end
  end.

(** _next, lines 189-213 *)
Definition it_fetch {S E} (o : ops S E) (t : iter S E) : iter S E :=
  let put s x := Iter s (it_batch t) (it_stop t) (it_size t) (it_epoch t) (it_log t) (it_queue t ++ [x]) in
  if Nat.ltb (it_size t) (o_pos o (it_src t) + it_batch t) && it_stop t
  then put (it_src t) (None, 0)
  else
    match batch_loop o (it_stop t) (it_size t) (it_batch t) (it_src t) 0 [] with
    | (s, None, _) => put s (None, 0)
    | (s, Some d, n) => put (if Nat.eqb n 0 then s else o_apply o s) (Some d, n)
    end.

(** lines 246-250 *)
Fixpoint callbacks (n e : nat) : list event :=
  match n with O => [] | S n' => EpochEnd e :: EpochBegin (S e) :: callbacks n' (S e) end.

Definition deliver {S E} (t : iter S E) (d : option (list E)) (n : nat) : iter S E * outcome E :=
  (Iter (it_src t) (it_batch t) (it_stop t) (it_size t) (it_epoch t + n)
        (it_log t ++ callbacks n (it_epoch t)) (it_queue t),
   match d with Some l => Batch l | None => NoneData end).

Definition dequeue {S E} (t : iter S E) (q : list (option (list E) * nat)) : iter S E :=
  Iter (it_src t) (it_batch t) (it_stop t) (it_size t) (it_epoch t) (it_log t) q.

(** line 234 *)
Definition exhausted {S E} (o : ops S E) (t : iter S E) : bool :=
  it_stop t && Nat.leb (it_size t) (o_pos o (it_src t) + it_batch t).

(** next with use_thread=False *)
Definition it_next {S E} (o : ops S E) (t : iter S E) : iter S E * outcome E :=
  let t := it_fetch o t in
  match it_queue t with
  | [] => (t, Hang)                                        (* queue.get blocks; unreachable *)
  | (d, n) :: q =>
      let t := dequeue t q in
      match d with
      | None => if exhausted o t then (t, Stop) else deliver t None n
      | Some _ => deliver t d n
      end
  end.

(** next with use_thread=True: the batch fetched by the thread started earlier is
    in the queue; the thread for the following batch is started before returning. *)
Definition it_next_thread {S E} (o : ops S E) (t : iter S E) : iter S E * outcome E :=
  match it_queue t with
  | [] => (t, Hang)
  | (d, n) :: q =>
      let t := dequeue t q in
      match d with
      | Some _ => deliver (it_fetch o t) d n
      | None =>
          if exhausted o t then (t, Stop)
          else
            let t := it_fetch o t in                       (* retry, lines 236-242 *)
            match it_queue t with
            | [] => (t, Hang)
            | (d, n) :: q => deliver (it_fetch o (dequeue t q)) d n
            end
      end
  end.

(** __init__, lines 66-106 *)
Definition it_new {S E} (o : ops S E) (s : S) (batch : nat) (stop : bool) : iter S E :=
  Iter (o_reset o s) batch stop (o_size o s) 0 [] [].
Definition it_new_thread {S E} (o : ops S E) (s : S) (batch : nat) (stop : bool) : iter S E :=
  it_fetch o (it_new o s batch stop).

(** n calls of next *)
Fixpoint run {S E} (step : iter S E -> iter S E * outcome E) (n : nat) (t : iter S E)
  : iter S E * list (outcome E) :=
  match n with
  | O => (t, [])
  | Datatypes.S n' => let (t1, x) := step t in let (t2, xs) := run step n' t1 in (t2, x :: xs)
  end.

(** ** get_slice_start_end (data_iterator.py:291-309) *)
Definition slice_start_end (drop_last : bool) (size n_slices rank : Z) : Z * Z :=
  if drop_last then
    let size_rank := (size / n_slices)%Z in
    let st := (size_rank * rank)%Z in
    (st, (st + size_rank)%Z)
  else
    let size_rank := ((size + n_slices - 1) / n_slices)%Z in
    let st := ((size_rank * rank) mod size)%Z in
    let en := (st + size_rank)%Z in
    if (size <? en)%Z then let off := (en - size)%Z in ((st - off)%Z, (en - off)%Z)
    else (st, en).
