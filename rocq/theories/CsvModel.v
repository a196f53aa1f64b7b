(** Model of reading CSV data sets: CsvDataSource of
    python/src/nnabla/utils/data_source_implements.py (lines 405-495).

    The csv module has split the file into the header and the rows of cells.  Reading a cell
    (a number, or the contents of the file it names) is abstract: [get vector cell] may
    fail. *)
From Coq Require Import String Ascii List Arith Bool.
From Verif Require Import Assoc.
Import ListNotations.
Local Open Scope string_scope.
Local Open Scope list_scope.

(** str.split(sep, 1) when it gives two parts; None when the separator does not occur. *)
Fixpoint split_once (sep s : string) : option (string * string) :=
  if prefix sep s then Some (EmptyString, substring (String.length sep) (String.length s) s)
  else match s with
       | EmptyString => None
       | String c s => match split_once sep s with Some (a, b) => Some (String c a, b) | None => None end
       end.

Record column := { col_name : string; col_index : option string; col_label : option string }.

(** One cell of the header, "NAME[__INDEX][:LABELNAME]" (lines 421-434). *)
Definition parse_column (cell : string) : column :=
  let (v, label) := match split_once ":" cell with Some (v, l) => (v, Some l) | None => (cell, None) end in
  let (n, index) := match split_once "__" v with Some (n, i) => (n, Some i) | None => (v, None) end in
  {| col_name := n; col_index := index; col_label := label |}.

Inductive error :=
| IndexError          (* an empty header cell, or a row shorter than a comment column *)
| AttributeError      (* an indexed column after a plain column of the same name *)
| ReadError.          (* a cell that is neither a number nor a readable file *)
Inductive result (A : Type) := Ok (a : A) | Err (e : error).
Arguments Ok {A}. Arguments Err {A}.

(** Deleting a list element (del row[i]). *)
Fixpoint del {A} (i : nat) (l : list A) : option (list A) :=
  match l, i with
  | [], _ => None
  | _ :: l, O => Some l
  | x :: l, S i => match del i l with Some r => Some (x :: r) | None => None end
  end.
Fixpoint del_all {A} (i : nat) (rows : list (list A)) : option (list (list A)) :=
  match rows with
  | [] => Some []
  | r :: rows =>
      match del i r, del_all i rows with Some r, Some rows => Some (r :: rows) | _, _ => None end
  end.

(** _remove_comment_cols (lines 409-414): columns n-1 down to 0. *)
Fixpoint remove_comments (n : nat) (header : list string) (rows : list (list string))
  : result (list string * list (list string)) :=
  match n with
  | O => Ok (header, rows)
  | S n =>
      match nth_error header n with
      | None | Some EmptyString => Err IndexError
      | Some (String c _) =>
          if Ascii.eqb c "#"%char then
            match del n header, del_all n rows with
            | Some header, Some rows => remove_comments n header rows
            | _, _ => Err IndexError
            end
          else remove_comments n header rows
      end
  end.

(** The entries of _variables_dict (lines 435-442); only the labels are kept. *)
Inductive entry := Plain (label : option string) | Indexed (labels : list (option string)).
Fixpoint process_columns (cols : list column) (d : @amap entry) : result (@amap entry) :=
  match cols with
  | [] => Ok d
  | c :: cols =>
      match col_index c with
      | None => process_columns cols (aput (col_name c) (Plain (col_label c)) d)
      | Some _ =>
          let d := if ahas (col_name c) d then d else aput (col_name c) (Indexed []) d in
          match aget (col_name c) d with
          | Some (Indexed ls) => process_columns cols (aput (col_name c) (Indexed (ls ++ [col_label c])) d)
          | _ => Err AttributeError
          end
      end
  end.

Section Rows.
Context {V : Type} (get : bool -> string -> option V).

(** The data of one variable in one row. *)
Inductive datum := Whole (v : V) | Items (vs : list V).

(** _process_row (lines 444-456) over the columns and cells still to read.  An
    indexed column after a plain one of the same name (AttributeError below) does not occur,
    as the constructor rejects such headers. *)
Fixpoint process_cells (cols : list column) (cells : list string) (values : @amap datum) : result (@amap datum) :=
  match cols, cells with
  | c :: cols, cell :: cells =>
      match col_index c with
      | None =>
          match get true cell with
          | None => Err ReadError
          | Some v => process_cells cols cells (aput (col_name c) (Whole v) values)
          end
      | Some _ =>
          let values := if ahas (col_name c) values then values else aput (col_name c) (Items []) values in
          match get false cell with
          | None => Err ReadError
          | Some v =>
              match aget (col_name c) values with
              | Some (Items vs) => process_cells cols cells (aput (col_name c) (Items (vs ++ [v])) values)
              | _ => Err AttributeError
              end
          end
      end
  | _, _ => Ok values
  end.
(** A row of the wrong length gives no values. *)
Definition process_row (cols : list column) (row : list string) : result (@amap datum) :=
  if (length row =? length cols)%nat then process_cells cols row [] else Ok [].
End Rows.
Arguments Whole {V}. Arguments Items {V}.

(** CsvDataSource.__init__ (lines 475-495): the columns, the names of the variables and the
    rows. *)
Record source := { src_columns : list column; src_variables : list string; src_rows : list (list string) }.
Definition open_csv (header : list string) (rows : list (list string)) : result source :=
  match remove_comments (length header) header rows with
  | Err e => Err e
  | Ok (header, rows) =>
      let cols := map parse_column header in
      match process_columns cols [] with
      | Err e => Err e
      | Ok d => Ok {| src_columns := cols; src_variables := akeys d; src_rows := rows |}
      end
  end.
(** _get_data (line 472) at the row number [order[position]]. *)
Definition get_data {V} (get : bool -> string -> option V) (s : source) (row : nat) : result (list (@datum V)) :=
  match nth_error (src_rows s) row with
  | None => Err IndexError
  | Some r => match process_row get (src_columns s) r with Ok d => Ok (map snd d) | Err e => Err e end
  end.
