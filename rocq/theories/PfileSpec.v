(** Independent vocabulary for parameter files. *)
From Coq Require Import String Ascii List Bool Arith ZArith Permutation.
From Verif Require Import ParamModel ParamSpec PfileModel.
Import ListNotations.
Local Open Scope string_scope.
Local Open Scope list_scope.

(** Two registries list the same parameters: the same names in the same order,
    each with the same shape, need_grad flag and contents. *)
Definition same_parameter (s t : st) (a b : string * nat) : Prop :=
  fst a = fst b /\
  exists x y c,
    nth_error (heap s) (snd a) = Some x /\ nth_error (heap t) (snd b) = Some y /\
    vshape x = vshape y /\ vneed x = vneed y /\
    nth_error (store s) (vstore x) = Some c /\ nth_error (store t) (vstore y) = Some c.

Definition same_parameters (s t : st) : Prop :=
  Forall2 (same_parameter s t) (get_parameters s false) (get_parameters t false).

(** Names HDF5 can keep: no component is "." or empty. *)
Definition plain_name (k : string) : Prop :=
  forall c, In c (split_slash k) -> c <> "" /\ c <> ".".
Definition plain_names (s : st) : Prop :=
  forall k v, In (k, v) (get_parameters s false) -> plain_name k.

(** The contents that a 32-bit float field can hold. *)
Definition fits (f32 : Z -> Z) (s : st) : Prop :=
  forall k v x c, In (k, v) (get_parameters s false) ->
    nth_error (heap s) v = Some x -> nth_error (store s) (vstore x) = Some c -> f32 c = c.

(** A visiting order of an HDF5 file: its datasets, each once. *)
Definition visits (f : file) (order : list (list string)) : Prop :=
  match f with
  | FH5 h => Permutation order (map fst h)
  | FZip ms => Forall (fun m => match snd m with
                                | FH5 h => Permutation order (map fst h)
                                | _ => True
                                end) ms
  | _ => True
  end.

(** What training may have done to a registry since it was saved: contents and
    need_grad flags have changed, the Variable objects and their names have not. *)
Definition same_objects (s t : st) : Prop :=
  root t = root s /\ cur t = cur s /\ List.length (store t) = List.length (store s) /\
  Forall2 (fun x y => vshape x = vshape y /\ vstore x = vstore y) (heap s) (heap t).

(** A protocol buffer that lists the parameters of [s]. *)
Definition lists_parameters (s : st) (pr : list pentry) : Prop :=
  Forall2 (fun kv e => pname e = fst kv /\ exists x,
             nth_error (heap s) (snd kv) = Some x /\ pshape e = vshape x /\ pneed e = vneed x /\
             nth_error (store s) (vstore x) = Some (pdata e)) (get_parameters s false) pr.
