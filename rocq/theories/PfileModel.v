(** Model of saving parameters to a file and loading them back:
    python/src/nnabla/parameter.py:392-446 and
    python/src/nnabla/utils/get_file_handle.py.

    The registry itself (scopes, Variable objects, get_parameters,
    get_parameter_or_create) is ParamModel.v.

    Simplifications, global to this file:
    - The contents of an array are one opaque integer, as in ParamModel.v.  The
      field [data] of the protocol buffer is [repeated float], so writing it
      applies a rounding [f32] to the contents; an HDF5 dataset keeps the type of
      the array (get_file_handle.py:470 writes what [get_data] returns).
    - The bytes of a file are not modelled: a file is the abstract value the
      library in question (h5py, protobuf, zipfile) hands back when reading what
      it wrote.  Reading a file in another format than it was written in is the
      exception [UserError].
    - Writing the members of a .nnp archive that hold no parameters (the version,
      the network) is modelled as writing a text without parameters: save() sets
      include_params to False for .nnp (utils/save.py:493). *)
From Coq Require Import String Ascii List Bool Arith ZArith.
From Verif Require Import ParamModel.
Import ListNotations.
Local Open Scope string_scope.
Local Open Scope list_scope.

(** One message of NNablaProtoBuf.parameter. *)
Record pentry := { pname : string; pshape : list Z; pneed : bool; pdata : Z }.

(** An HDF5 dataset with the attributes 'need_grad' and 'index'
    (get_file_handle.py:470-473). *)
Record dset5 := { dindex : nat; dshape : list Z; dneed : bool; ddata : Z }.

(** An HDF5 file: the datasets with the path of group names that leads to each.
    A path of the file consists of the non-empty components of a name that are
    not ".", which HDF5 reads as the group itself. *)
Definition h5file := list (list string * dset5).

Definition h5_component (c : string) : bool :=
  negb (String.eqb c "") && negb (String.eqb c ".").
Definition h5_path (name : string) : list string := filter h5_component (split_slash name).

Fixpoint prefixb (p q : list string) : bool :=
  match p, q with
  | [], _ => true
  | a :: p', b :: q' => String.eqb a b && prefixb p' q'
  | _ :: _, [] => false
  end.

(** [hd[k] = array]: link a new dataset, creating the groups on the way.  It
    raises when there is nothing to name, when the name exists, or when a
    dataset is in the way. *)
Definition h5_link (f : h5file) (p : list string) (x : dset5) : res h5file :=
  match p with
  | [] => Exn ValueError
  | _ => if existsb (fun q => prefixb p (fst q) || prefixb (fst q) p) f
         then Exn ValueError else Ok (f ++ [(p, x)])
  end.

(** [hd[k]] *)
Fixpoint h5_get (f : h5file) (p : list string) : option dset5 :=
  match f with
  | [] => None
  | (q, x) :: f' => if list_eq_dec string_dec q p then Some x else h5_get f' p
  end.

(** Names of a path inside a file, as [visit] reports them. *)
Fixpoint h5_name (p : list string) : string :=
  match p with
  | [] => ""
  | [k] => k
  | n :: q => (n ++ "/" ++ h5_name q)%string
  end.

(** Python's order on pairs (index, name), and sorted (get_file_handle.py:298). *)
Definition key_le (a b : nat * string) : bool :=
  if Nat.eqb (fst a) (fst b) then String.leb (snd a) (snd b) else Nat.ltb (fst a) (fst b).
Fixpoint insert_key (a : nat * string) (l : list (nat * string)) : list (nat * string) :=
  match l with
  | [] => [a]
  | b :: l' => if key_le a b then a :: l else b :: insert_key a l'
  end.
Fixpoint sorted_keys (l : list (nat * string)) : list (nat * string) :=
  match l with [] => [] | a :: l' => insert_key a (sorted_keys l') end.

(** What a reader finds under a file name. *)
Inductive file :=
| FH5 (f : h5file)
| FPb (l : list pentry)                      (* .protobuf *)
| FTxt (l : list pentry)                     (* .nntxt *)
| FZip (members : list (string * file))      (* .nnp: extension and content *)
| FOther.                                    (* nnp_version.txt *)

(** ext in supported_ext: a substring test on strings
    (get_file_handle.py:176,397,537). *)
Fixpoint contains (s t : string) : bool :=
  prefix s t || match t with EmptyString => false | String _ t' => contains s t' end.

(** The Variable object [v] as it is saved: shape, need_grad and contents. *)
Definition read_var (s : st) (v : nat) : option (list Z * bool * Z) :=
  match nth_error (heap s) v with
  | None => None
  | Some x => match nth_error (store s) (vstore x) with
              | None => None
              | Some c => Some (vshape x, vneed x, c)
              end
  end.

Section Rounding.
Variable f32 : Z -> Z.

(** _protobuf_parameter_file_saver (get_file_handle.py:476-486) *)
Fixpoint pb_entries (s : st) (ps : list (string * nat)) : res (list pentry) :=
  match ps with
  | [] => Ok []
  | (k, v) :: ps' =>
      match read_var s v with
      | None => Exn Detached
      | Some (sh, need, c) =>
          match pb_entries s ps' with
          | Ok l => Ok ({| pname := k; pshape := sh; pneed := need; pdata := f32 c |} :: l)
          | Exn e => Exn e
          end
      end
  end.

(** _h5_parameter_file_saver (get_file_handle.py:467-473); [i] is the counter of
    enumerate. *)
Fixpoint h5_entries (s : st) (i : nat) (ps : list (string * nat)) (f : h5file) : res h5file :=
  match ps with
  | [] => Ok f
  | (k, v) :: ps' =>
      match read_var s v with
      | None => Exn Detached
      | Some (sh, need, c) =>
          match h5_link f (h5_path k)
                        {| dindex := i; dshape := sh; dneed := need; ddata := c |} with
          | Ok f' => h5_entries s (S i) ps' f'
          | Exn e => Exn e
          end
      end
  end.

(** save_parameters (parameter.py:424-446) with save_files
    (get_file_handle.py:511-546) on one file; [params] is the argument of that
    name.  The savers are tried in the order of the table :504-507 and the first
    whose key contains the extension is used; get_file_handle_save (:87-117)
    then raises for an extension that is not one of its own. *)
Definition save_parameters (s : st) (params : option (list (string * nat))) (ext : string)
  : res file :=
  let ps := match params with None => get_parameters s false | Some l => l end in
  if contains ext ".h5" then
    if String.eqb ext ".h5"
    then match h5_entries s 0 ps [] with Ok f => Ok (FH5 f) | Exn e => Exn e end
    else Exn ValueError
  else if contains ext ".protobuf" then
    if String.eqb ext ".protobuf"
    then match pb_entries s ps with Ok l => Ok (FPb l) | Exn e => Exn e end
    else Exn ValueError
  else Exn AssertionError.

(** save() to a .nnp file (get_file_handle.py:428-464): the members in the order
    they are written; [pf] is the format of the parameters. *)
Definition save_nnp (s : st) (params : option (list (string * nat))) (pf : string) : res file :=
  let pf := if String.eqb pf ".h5" then ".h5" else ".protobuf" in
  match save_parameters s params pf with
  | Exn e => Exn e
  | Ok f => Ok (FZip [(".txt", FOther); (".nntxt", FTxt []); (pf, f)])
  end.

End Rounding.

(** Assigning the whole array behind a variable. *)
Fixpoint list_set (l : list Z) (i : nat) (c : Z) : list Z :=
  match l, i with
  | [], _ => []
  | _ :: l', O => c :: l'
  | x :: l', S i' => x :: list_set l' i' c
  end.
Definition write_store (s : st) (i : nat) (c : Z) : st :=
  {| heap := heap s; store := list_set (store s) i c; root := root s; cur := cur s;
     nograd := nograd s |}.

(** The body of the loop of set_parameter_from_proto (parameter.py:394-398), and
    the same three lines of the HDF5 loader (get_file_handle.py:301-303). *)
Definition load_entry (t : st) (e : pentry) : st * res unit :=
  match get_parameter_or_create t (pname e) (Some (pshape e)) INone (pneed e) None with
  | (t1, Exn x) => (t1, Exn x)
  | (t1, Ok ret) => (write_store t1 (rstore ret) (pdata e), Ok tt)
  end.

(** set_parameter_from_proto (parameter.py:392-398) *)
Fixpoint load_entries (t : st) (l : list pentry) : st * res unit :=
  match l with
  | [] => (t, Ok tt)
  | e :: l' => match load_entry t e with
               | (t1, Ok _) => load_entries t1 l'
               | (t1, Exn x) => (t1, Exn x)
               end
  end.

(** The keys collected by [hd.visit] (get_file_handle.py:287-297), given the order
    in which the library visits the datasets. *)
Fixpoint h5_keys (f : h5file) (order : list (list string)) : list (nat * string) :=
  match order with
  | [] => []
  | p :: order' => match h5_get f p with
                   | Some x => (dindex x, h5_name p) :: h5_keys f order'
                   | None => h5_keys f order'
                   end
  end.

(** The loop get_file_handle.py:298-313; the second component of the state is
    ctx.proto.parameter. *)
Fixpoint h5_load (t : st) (proto : list pentry) (needs_proto : bool) (f : h5file)
         (keys : list (nat * string)) : st * list pentry * res unit :=
  match keys with
  | [] => (t, proto, Ok tt)
  | (_, k) :: keys' =>
      match h5_get f (h5_path k) with
      | None => (t, proto, Exn ValueError)
      | Some x =>
          let e := {| pname := k; pshape := dshape x; pneed := dneed x; pdata := ddata x |} in
          match load_entry t e with
          | (t1, Exn ex) => (t1, proto, Exn ex)
          | (t1, Ok _) =>
              h5_load t1 (if needs_proto then proto ++ [e] else proto) needs_proto f keys'
          end
      end
  end.

(** The table of loaders get_file_handle.py:336-343 applied to a plain file with
    a given extension: every loader whose key contains the extension is called,
    in the order of the table, and then opens the file by the extension itself
    (:38-84).  [order] is the visiting order of an HDF5 file. *)
Inductive loader := LH5 | LPb | LTxt | LNnp.
Definition loaders : list (string * loader) :=
  [(".h5", LH5); (".protobuf", LPb); (".nntxt,.prototxt", LTxt); (".nnp", LNnp)].

Definition load_plain (l : loader) (t : st) (proto : list pentry) (needs_proto : bool)
           (order : list (list string)) (ext : string) (f : file)
  : st * list pentry * res unit :=
  match l, f with
  | LH5, FH5 h =>
      if String.eqb ext ".h5" then h5_load t proto needs_proto h (sorted_keys (h5_keys h order))
      else (t, proto, Exn ValueError)
  | LPb, FPb ps =>
      if String.eqb ext ".protobuf"
      then let proto' := proto ++ ps in
           let (t', r) := load_entries t proto' in (t', proto', r)
      else (t, proto, Exn ValueError)
  | LTxt, FTxt ps =>
      if String.eqb ext ".nntxt" || String.eqb ext ".prototxt"
      then let proto' := proto ++ ps in
           let (t', r) := load_entries t proto' in (t', proto', r)
      else (t, proto, Exn ValueError)
  | _, _ => (t, proto, Exn UserError)
  end.

(** A member of a .nnp archive goes through the same table
    (get_file_handle.py:162-177); a .nnp inside a .nnp fails the assertion :168. *)
Fixpoint load_member (ls : list (string * loader)) (t : st) (proto : list pentry)
         (needs_proto : bool) (order : list (list string)) (ext : string) (f : file)
  : st * list pentry * res unit :=
  match ls with
  | [] => (t, proto, Ok tt)
  | (sup, l) :: ls' =>
      if contains ext sup then
        match (match l with
               | LNnp => (t, proto, Exn AssertionError)
               | _ => load_plain l t proto needs_proto order ext f
               end) with
        | (t1, p1, Ok _) => load_member ls' t1 p1 needs_proto order ext f
        | x => x
        end
      else load_member ls' t proto needs_proto order ext f
  end.

Fixpoint load_members (ms : list (string * file)) (t : st) (proto : list pentry)
         (needs_proto : bool) (order : list (list string)) : st * list pentry * res unit :=
  match ms with
  | [] => (t, proto, Ok tt)
  | (ext, f) :: ms' =>
      match load_member loaders t proto needs_proto order ext f with
      | (t1, p1, Ok _) => load_members ms' t1 p1 needs_proto order
      | x => x
      end
  end.

(** load_parameters (parameter.py:401-422) with load_files
    (get_file_handle.py:374-413) on one file.  A file no loader matches is
    skipped with a warning. *)
Fixpoint load_file (ls : list (string * loader)) (t : st) (proto : list pentry)
         (needs_proto : bool) (order : list (list string)) (ext : string) (f : file)
  : st * list pentry * res unit :=
  match ls with
  | [] => (t, proto, Ok tt)
  | (sup, l) :: ls' =>
      if contains ext sup then
        match (match l, f with
               | LNnp, FZip ms =>
                   if String.eqb ext ".nnp" then load_members ms t proto needs_proto order
                   else (t, proto, Exn ValueError)
               | _, _ => load_plain l t proto needs_proto order ext f
               end) with
        | (t1, p1, Ok _) => load_file ls' t1 p1 needs_proto order ext f
        | x => x
        end
      else load_file ls' t proto needs_proto order ext f
  end.

Definition load_parameters (t : st) (proto : option (list pentry)) (needs_proto : bool)
           (order : list (list string)) (ext : string) (f : file)
  : st * list pentry * res unit :=
  load_file loaders t (match proto with None => [] | Some l => l end) needs_proto order ext f.
