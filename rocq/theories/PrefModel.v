(** Model of the prefetching reader of cache files:
    python/src/nnabla/utils/data_source_implements.py:90-279 (CachePrefetcher,
    CacheReaderWithPrefetch, CacheDataSource._get_data) and :381-402 (reset).

    Every prefetcher has a worker thread.  The model interleaves the steps of the
    main thread with steps of the workers chosen by an arbitrary schedule: at every
    tick of the clock the schedule names a list of workers that take a step.

    Simplifications, global to this file:
    - A cache file of type .npy is the list of its arrays, one per variable and in
      the order of the variables; an array is the list of its examples, which are
      opaque integers.  The dictionary {variable: array} is that list: variable
      names are taken to be distinct.
    - Files do not change while they are read.  Attempts to open a file may fail a
      number of times, given per file; the process kills itself after ten
      (:108-114).
    - No communicator (:236-242, :247-256), no normalisation (:270-278).
    - The lock of check_if_hit (:151-158) protects nothing another thread writes. *)
From Coq Require Import String List Bool Arith ZArith.
Import ListNotations.
Local Open Scope string_scope.
Local Open Scope list_scope.

Definition arrays := list (list Z).

Section Files.
(** What is stored under a name, and how often opening it fails first. *)
Variable content : string -> option arrays.
Variable failures : string -> nat.

(** read_cache (:105-133).  [None]: the process was killed.  [left] is the number
    of attempts left, [k] how many of the next attempts fail. *)
Fixpoint try_read (left k : nat) (f : string) : option arrays :=
  match left with
  | O => None
  | S left' =>
      match k with
      | S k' => try_read left' k' f
      | O => match content f with
             | Some d => Some d
             | None => try_read left' O f
             end
      end
  end.
Definition read_cache (f : string) : option arrays := try_read 10 (failures f) f.

(** The attribute _current_data: None, the empty dictionary, or data. *)
Inductive slot := SNone | SEmpty | SData (d : arrays).

(** CachePrefetcher (:90-172): the attribute file_name, the queue ([None] is the
    request to stop), the request the worker is busy with, _current_data, whether
    the worker runs, and _closed. *)
Record pf := { fname : option string; pq : list (option string); work : option string;
               pdata : slot; alive : bool; pclosed : bool }.
Definition new_pf : pf :=
  {| fname := None; pq := []; work := None; pdata := SNone; alive := true; pclosed := false |}.

(** One step of _worker (:135-145): take a request, or finish it.  [None]: the
    process was killed. *)
Definition worker_step (p : pf) : option pf :=
  if negb (alive p) then Some p else
  match work p with
  | Some f =>
      match read_cache f with
      | Some d => Some {| fname := fname p; pq := pq p; work := None; pdata := SData d;
                          alive := true; pclosed := pclosed p |}
      | None => None
      end
  | None =>
      match pq p with
      | [] => Some p                                          (* blocked in get *)
      | Some f :: q => Some {| fname := fname p; pq := q; work := Some f; pdata := SEmpty;
                               alive := true; pclosed := pclosed p |}
      | None :: q => Some {| fname := fname p; pq := q; work := None; pdata := SEmpty;
                             alive := false; pclosed := pclosed p |}
      end
  end.

(** The outcome of an operation of the main thread. *)
Inductive outcome (A : Type) :=
| Done (a : A)
| Killed            (* the process killed itself *)
| Blocked           (* join waits for a worker that has stopped *)
| NameError         (* UnboundLocalError of [cf] (:193) *)
| IndexError
| Stuck.            (* fuel exhausted; never happens *)
Arguments Done {A} a. Arguments Killed {A}. Arguments Blocked {A}. Arguments NameError {A}.
Arguments IndexError {A}. Arguments Stuck {A}.

(** The prefetchers and the clock that indexes the schedule. *)
Record sys := { pfs : list pf; clock : nat }.

Fixpoint set_nth (l : list pf) (i : nat) (p : pf) : list pf :=
  match l, i with
  | [], _ => []
  | _ :: l', O => p :: l'
  | x :: l', S i' => x :: set_nth l' i' p
  end.

Definition step_worker (l : list pf) (i : nat) : option (list pf) :=
  match nth_error l i with
  | None => Some l
  | Some p => match worker_step p with Some p' => Some (set_nth l i p') | None => None end
  end.

Fixpoint step_workers (l : list pf) (is : list nat) : option (list pf) :=
  match is with
  | [] => Some l
  | i :: is' => match step_worker l i with Some l' => step_workers l' is' | None => None end
  end.

Variable schedule : nat -> list nat.

(** The workers chosen at this instant take their steps. *)
Definition tick (s : sys) : outcome sys :=
  match step_workers (pfs s) (schedule (clock s)) with
  | Some l => Done {| pfs := l; clock := S (clock s) |}
  | None => Killed
  end.

Definition bind {A B} (x : outcome A) (f : A -> outcome B) : outcome B :=
  match x with
  | Done a => f a
  | Killed => Killed | Blocked => Blocked | NameError => NameError
  | IndexError => IndexError | Stuck => Stuck
  end.

Definition upd (s : sys) (i : nat) (g : pf -> pf) : sys :=
  match nth_error (pfs s) i with
  | Some p => {| pfs := set_nth (pfs s) i (g p); clock := clock s |}
  | None => s
  end.

(** self._q.join(): wait until the worker has finished everything in the queue.
    Meanwhile the other workers move as scheduled. *)
Fixpoint join (fuel : nat) (s : sys) (i : nat) : outcome sys :=
  match nth_error (pfs s) i with
  | None => Done s
  | Some p =>
      match pq p, work p with
      | [], None => Done s
      | _, _ =>
          if negb (alive p) then Blocked else
          match fuel with
          | O => Stuck
          | S fuel' =>
              match step_worker (pfs s) i with
              | None => Killed
              | Some l => bind (tick {| pfs := l; clock := clock s |}) (fun s' => join fuel' s' i)
              end
          end
      end
  end.

Definition pending (p : pf) : nat :=
  2 * List.length (pq p) + match work p with Some _ => 1 | None => 0 end.
Definition join_fuel (s : sys) (i : nat) : nat :=
  match nth_error (pfs s) i with Some p => pending p | None => 0 end.

(** read (:160-165) *)
Definition pf_read (s : sys) (i : nat) : outcome (sys * slot) :=
  bind (tick s) (fun s1 =>
  bind (join (join_fuel s1 i) s1 i) (fun s2 =>
  match nth_error (pfs s2) i with
  | None => Done (s2, SNone)
  | Some p =>
      Done (upd s2 i (fun p => {| fname := None; pq := pq p; work := work p; pdata := SNone;
                                  alive := alive p; pclosed := pclosed p |}), pdata p)
  end)).

(** request (:147-149) *)
Definition pf_request (s : sys) (i : nat) (f : string) : outcome sys :=
  let s1 := upd s i (fun p => {| fname := Some f; pq := pq p; work := work p; pdata := pdata p;
                                 alive := alive p; pclosed := pclosed p |}) in
  bind (tick s1) (fun s2 =>
  Done (upd s2 i (fun p => {| fname := fname p; pq := pq p ++ [Some f]; work := work p;
                              pdata := pdata p; alive := alive p; pclosed := pclosed p |}))).

(** check_if_hit (:151-158) *)
Definition names_eq (a : option string) (f : string) : bool :=
  match a with Some g => String.eqb f g | None => false end.

(** The loop :187-190 over the prefetchers number [i], [i+1], ...; [n] counts
    those left. *)
Fixpoint find_hit (n : nat) (i : nat) (s : sys) (f : string) : outcome (sys * slot) :=
  match n with
  | O => Done (s, SNone)
  | S n' =>
      bind (tick s) (fun s1 =>
      match nth_error (pfs s1) i with
      | None => Done (s1, SNone)
      | Some p =>
          if names_eq (fname p) f
          then pf_read (upd s1 i (fun p => {| fname := None; pq := pq p; work := work p;
                                              pdata := pdata p; alive := alive p;
                                              pclosed := pclosed p |})) i
          else find_hit n' (S i) s1 f
      end)
  end.

(** The loop :195-198: prefetched files that are not wanted any more. *)
Definition mem (f : string) (l : list string) : bool := existsb (String.eqb f) l.
Fixpoint waste (names : list (option string)) (i : nat) (s : sys) (wanted : list string)
  : outcome sys :=
  match names with
  | [] => Done s
  | fn :: names' =>
      let unwanted := match fn with
                      | Some f => negb (String.eqb f "") && negb (mem f wanted)
                      | None => false
                      end in
      if unwanted
      then bind (pf_read s i) (fun r => waste names' (S i) (fst r) wanted)
      else waste names' (S i) s wanted
  end.

Fixpoint index_none (names : list (option string)) : option nat :=
  match names with
  | [] => None
  | None :: _ => Some O
  | Some _ :: l => match index_none l with Some i => Some (S i) | None => None end
  end.
Fixpoint set_name (names : list (option string)) (i : nat) (f : string) : list (option string) :=
  match names, i with
  | [], _ => []
  | _ :: l, O => Some f :: l
  | x :: l, S i' => x :: set_name l i' f
  end.

(** The loop :199-207; [names] is the snapshot taken before the wasted ones were
    read, so their prefetchers are not used again in this call. *)
Fixpoint prefetch (wanted : list string) (names : list (option string)) (s : sys) : outcome sys :=
  match wanted with
  | [] => Done s
  | f :: wanted' =>
      if existsb (fun n => names_eq n f) names then prefetch wanted' names s
      else match index_none names with
           | None => prefetch wanted' names s
           | Some i => bind (pf_request s i f)
                            (fun s' => prefetch wanted' (set_name names i f) s')
           end
  end.

(** open_and_prefetch_cache (:183-208) *)
Definition open_cache (s : sys) (f : string) (wanted : list string) : outcome (sys * arrays) :=
  bind (find_hit (List.length (pfs s)) 0 s f) (fun r =>
  let s1 := fst r in
  bind (match snd r with
        | SData (a :: d) => Done (a :: d)
        | _ => match pfs s1 with                   (* if not result: *)
               | [] => NameError
               | _ => match read_cache f with Some d => Done d | None => Killed end
               end
        end) (fun result =>
  let names := map fname (pfs s1) in
  bind (waste names 0 s1 wanted) (fun s2 =>
  bind (prefetch wanted names s2) (fun s3 => Done (s3, result))))).

(** close (:167-172) and CacheReaderWithPrefetch.close (:210-214) *)
Definition pf_close (s : sys) (i : nat) : outcome sys :=
  match nth_error (pfs s) i with
  | None => Done s
  | Some p =>
      if pclosed p then Done s else
      bind (tick s) (fun s0 =>
      bind (join (join_fuel s0 i) s0 i) (fun s1 =>
      let s2 := upd s1 i (fun p => {| fname := fname p; pq := pq p ++ [None]; work := work p;
                                      pdata := pdata p; alive := alive p; pclosed := pclosed p |}) in
      bind (tick s2) (fun s3 =>
      bind (join (join_fuel s3 i) s3 i) (fun s4 =>
      Done (upd s4 i (fun p => {| fname := fname p; pq := pq p; work := work p; pdata := pdata p;
                                  alive := alive p; pclosed := true |}))))))
  end.
Fixpoint close_all (n i : nat) (s : sys) : outcome sys :=
  match n with
  | O => Done s
  | S n' => bind (pf_close s i) (fun s' => close_all n' (S i) s')
  end.

(** ** CacheDataSource *)

Record source := { order : list (string * nat); cur_name : option string;
                   cur_data : arrays; reader : sys }.

(** order[position + m : position + m * threads : m] (:259-263), the names only *)
Definition to_prefetch (ord : list (string * nat)) (m threads pos : nat) : list string :=
  flat_map (fun k => match nth_error ord (pos + k * m) with Some o => [fst o] | None => [] end)
           (seq 1 (threads - 1)).

(** [[self._current_data[v][index] for v in self.variables]] (:268) *)
Fixpoint pick (d : arrays) (index : nat) : option (list Z) :=
  match d with
  | [] => Some []
  | a :: d' => match nth_error a index, pick d' index with
               | Some x, Some l => Some (x :: l)
               | _, _ => None
               end
  end.

Definition picked (d : arrays) (index : nat) : outcome (list Z) :=
  match pick d index with Some l => Done l | None => IndexError end.

(** _get_data (:244-279); [m] is _max_length. *)
Definition get_data (m : nat) (s : source) (pos : nat) : outcome (source * list Z) :=
  match nth_error (order s) pos with
  | None => IndexError
  | Some (f, index) =>
      bind (if names_eq (cur_name s) f then Done s
            else bind (open_cache (reader s) f
                                  (to_prefetch (order s) m (List.length (pfs (reader s))) pos))
                      (fun r => Done {| order := order s; cur_name := Some f;
                                        cur_data := snd r; reader := fst r |}))
           (fun s1 => bind (picked (cur_data s1) index) (fun x => Done (s1, x)))
  end.

(** reset (:381-402) with the order it draws *)
Definition reset (s : source) (ord : list (string * nat)) : source :=
  {| order := ord; cur_name := None; cur_data := []; reader := reader s |}.

Definition new_source (threads : nat) (ord : list (string * nat)) : source :=
  {| order := ord; cur_name := None; cur_data := [];
     reader := {| pfs := repeat new_pf threads; clock := 0 |} |}.

Inductive op := Get (pos : nat) | Reset (ord : list (string * nat)).

(** A sequence of operations; the answers of the Gets.  A Get that raises ends it. *)
Fixpoint run (m : nat) (s : source) (ops : list op) : list (outcome (list Z)) * source :=
  match ops with
  | [] => ([], s)
  | Reset ord :: ops' => run m (reset s ord) ops'
  | Get pos :: ops' =>
      match get_data m s pos with
      | Done (s', x) => let (l, sf) := run m s' ops' in (Done x :: l, sf)
      | Killed => ([Killed], s) | Blocked => ([Blocked], s) | NameError => ([NameError], s)
      | IndexError => ([IndexError], s) | Stuck => ([Stuck], s)
      end
  end.

End Files.
Arguments Done {A} a. Arguments Killed {A}. Arguments Blocked {A}. Arguments NameError {A}.
Arguments IndexError {A}. Arguments Stuck {A}.
