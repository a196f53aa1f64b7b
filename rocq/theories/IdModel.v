(** Model of identity removal on proto networks: remove_function and IdentityRemover
    (python/src/nnabla/core/graph_optimizer.py:22-78, 103-115) run by
    ProtoNetwork.execute_on_proto (python/src/nnabla/core/graph_def.py:782-864).

    Dictionaries are association lists; the name of a variable or function is its key.
    Shapes, need_grad, arguments and the log are left out, and no variable is stopped. *)
From Coq Require Import String List Bool Arith.
From Verif Require Import Assoc.
Import ListNotations.
Local Open Scope list_scope.

Record pvar := { v_parent : option string; v_req : list string }.
Record pfun := { f_id : bool;        (* the type is Identity *)
                 f_in : list string; f_out : list string }.
Record pnet := { n_vars : @amap pvar; n_params : @amap pvar; n_funs : @amap pfun;
                 n_in : list string; n_out : list string }.

Inductive error := KeyError | ValueError | NameError | AssertionError.
Inductive res (A : Type) := Ok (a : A) | Err (e : error).
Arguments Ok {A}. Arguments Err {A}.
Definition bind {A B} (r : res A) (k : A -> res B) : res B := match r with Ok a => k a | Err e => Err e end.

(** variables[k] if k in variables else parameters[k] *)
Definition lookup (N : pnet) (k : string) : option pvar :=
  match aget k (n_vars N) with Some v => Some v | None => aget k (n_params N) end.

(** l[l.index(a)] = b *)
Fixpoint replace_first (a b : string) (l : list string) : option (list string) :=
  match l with
  | [] => None
  | c :: l => if String.eqb a c then Some (b :: l) else option_map (cons c) (replace_first a b l)
  end.

(** for r in rs: functions[r].inputs[index(a)] = b *)
Fixpoint replace_inputs (rs : list string) (a b : string) (funs : @amap pfun) : res (@amap pfun) :=
  match rs with
  | [] => Ok funs
  | r :: rs =>
      match aget r funs with
      | None => Err KeyError
      | Some f =>
          match replace_first a b (f_in f) with
          | None => Err ValueError
          | Some ins => replace_inputs rs a b (aput r {| f_id := f_id f; f_in := ins; f_out := f_out f |} funs)
          end
      end
  end.

(** filter(lambda k: functions[k] != pf, required) *)
Fixpoint others (pf : string) (rs : list string) (funs : @amap pfun) : res (list string) :=
  match rs with
  | [] => Ok []
  | r :: rs =>
      match aget r funs with
      | None => Err KeyError
      | Some _ => bind (others pf rs funs) (fun l => Ok (if String.eqb r pf then l else r :: l))
      end
  end.

(** Lines 22-78. *)
Definition remove_function (pf : string) (N : pnet) (renamed : @amap string) : res (pnet * @amap string) :=
  match aget pf (n_funs N) with
  | None => Err KeyError
  | Some f =>
  match f_in f, f_out f with
  | _, [] => Ok ({| n_vars := n_vars N; n_params := n_params N; n_funs := aerase pf (n_funs N); n_in := n_in N; n_out := n_out N |}, renamed)
  | [], _ => Err NameError
  | x :: _, y :: _ =>
  match lookup N x with
  | None => Err KeyError
  | Some px =>
  match aget y (n_vars N) with
  | None => Err KeyError
  | Some py =>
      match v_req py with
      | _ :: _ =>
          (* the output has readers: they read the input instead *)
          bind (replace_inputs (v_req py) y x (n_funs N)) (fun funs =>
          bind (others pf (v_req px) funs) (fun req =>
          let out := match replace_first y x (n_out N) with Some l => l | None => n_out N end in
          let pv := {| v_parent := v_parent px; v_req := v_req py ++ req |} in
          Ok ({| n_vars := aerase y (aput x pv (n_vars N)); n_params := n_params N;
                 n_funs := aerase pf funs; n_in := n_in N; n_out := out |}, aput y x renamed)))
      | [] =>
          (* the output has no readers: the producer and the other readers of the input get the
             output.  The filter is used up by the loop, so nothing is added to pv.required. *)
          bind (match v_parent px with
                | None => Ok (n_funs N)
                | Some p =>
                    match aget p (n_funs N) with
                    | None => Err KeyError
                    | Some g =>
                        match replace_first x y (f_out g) with
                        | None => Err ValueError
                        | Some outs => Ok (aput p {| f_id := f_id g; f_in := f_in g; f_out := outs |} (n_funs N))
                        end
                    end
                end) (fun funs =>
          bind (others pf (v_req px) funs) (fun req =>
          bind (replace_inputs req x y funs) (fun funs =>
          match aget x (n_vars N) with
          | None => Err KeyError
          | Some _ =>
              Ok ({| n_vars := aerase x (aput y {| v_parent := v_parent px; v_req := [] |} (n_vars N)); n_params := n_params N;
                     n_funs := aerase pf funs; n_in := n_in N; n_out := n_out N |}, aput x y renamed)
          end)))
      end
  end end end end.

(** IdentityRemover.__call__; [sel] is is_required. *)
Definition removable (sel : string -> bool) (name : string) (f : pfun) : bool := f_id f && sel name.
Definition visit (sel : string -> bool) (name : string) (f : pfun) (N : pnet) (renamed : @amap string) : res (pnet * @amap string) :=
  if removable sel name f then remove_function name N renamed else Ok (N, renamed).

(** execute_on_proto with this callback. *)
Record walk_state := { w_net : pnet; w_renamed : @amap string; w_stack : list string; w_eval : list string }.
Inductive turn := Next (s : walk_state) | Finished | Failed (e : error).
Definition in_list (x : string) (l : list string) : bool := existsb (String.eqb x) l.
Fixpoint lookups (N : pnet) (ks : list string) : option (list (string * pvar)) :=
  match ks with
  | [] => Some []
  | k :: ks => match lookup N k, lookups N ks with Some v, Some l => Some ((k, v) :: l) | _, _ => None end
  end.
Definition parents (l : list (string * pvar)) : list string :=
  flat_map (fun kv => match v_parent (snd kv) with Some g => [g] | None => [] end) l.
Definition one_turn (sel : string -> bool) (s : walk_state) : turn :=
  match w_stack s with
  | [] => Finished
  | name :: rest =>
      let N := w_net s in
      match aget name (n_funs N) with
      | None => Next {| w_net := N; w_renamed := w_renamed s; w_stack := rest; w_eval := w_eval s |}
      | Some f =>
          match lookups N (f_in f), lookups N (f_out f) with
          | Some ins, Some _ =>
              match filter (fun kv => match v_parent (snd kv) with Some _ => negb (in_list (fst kv) (w_eval s)) | None => false end) ins with
              | [] =>
                  if forallb (fun k => in_list k (w_eval s)) (f_out f)
                  then Next {| w_net := N; w_renamed := w_renamed s; w_stack := rest; w_eval := w_eval s |}
                  else if forallb (fun k => negb (in_list k (w_eval s))) (f_out f)
                  then match visit sel name f N (w_renamed s) with
                       | Ok (N', ren) => Next {| w_net := N'; w_renamed := ren; w_stack := rest; w_eval := f_out f ++ w_eval s |}
                       | Err e => Failed e
                       end
                  else Failed AssertionError
              | unresolved =>
                  Next {| w_net := N; w_renamed := w_renamed s; w_stack := rev (parents unresolved) ++ name :: rest; w_eval := w_eval s |}
              end
          | _, _ => Failed KeyError
          end
      end
  end.
Fixpoint walk (fuel : nat) (sel : string -> bool) (s : walk_state) : option (res (pnet * @amap string)) :=
  match fuel with
  | O => None
  | S fuel =>
      match one_turn sel s with
      | Finished => Some (Ok (w_net s, w_renamed s))
      | Failed e => Some (Err e)
      | Next s => walk fuel sel s
      end
  end.
Definition remove_identities (fuel : nat) (sel : string -> bool) (N : pnet) : option (res (pnet * @amap string)) :=
  if forallb (fun k => ahas k (n_vars N)) (n_out N) then
  match lookups N (n_out N) with
  | Some outs => walk fuel sel {| w_net := N; w_renamed := []; w_stack := rev (parents outs); w_eval := n_in N |}
  | None => Some (Err KeyError)
  end
  else Some (Err KeyError).
