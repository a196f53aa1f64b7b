(** Model of the graph converters (python/src/nnabla/experimental/graph_converters): the base
    classes FunctionModifier and GraphConverter (graph_converter.py) and the modifiers
    IdentityModifier (identity.py), RemoveFunctionModifier (remove_function.py), NoGradModifier
    (no_grad.py), BatchNormBatchStatModifier (batch_norm_batchstat.py), AddBiasModifier and
    BatchNormalizationFoldingModifierInner (batch_normalization_folding.py) and
    BatchNormalizationSelfFoldingModifier (batch_normalization_self_folding.py).

    Variables, functions and buffers are numbers, in the order in which they were made; nothing is
    released.  What a function computes is not part of the model: the type of values [V], what new
    memory holds ([blank]) and how many outputs the setup of a function gives for a number of
    inputs ([min_outputs], None if it refuses the number) are parameters.  The arguments of a
    function are a list of numbers that is not looked at.  None is any error, also an exception of
    Python.  Gradients, names of variables, ranks and shapes are left out. *)
From Coq Require Import String List Arith Bool.
From Verif Require Import IdxModel.
Import ListNotations.
Local Open Scope list_scope.
Local Open Scope string_scope.
Local Open Scope nat_scope.

(** info.type_name and info.args of a function. *)
Record op := Op { op_type : string; op_args : list nat }.
(** A variable of the graph: its buffer (nbla::Variable, which == and hash look at,
    _variable.pyx:284-296) and its parent. *)
Record var := Var { v_data : nat; v_parent : option nat }.
Record fn := Fn { f_op : op; f_in : list nat; f_out : list nat }.
(** A registered parameter: its scope, its name (the number stands for the one that is printed at
    the end of the name), its need_grad and its buffer. *)
Record param := Param { p_scope : string; p_name : string; p_num : nat; p_grad : bool; p_data : nat }.

Section Converter.
Context {V : Type} (blank : V) (min_outputs : op -> nat -> option nat).

Record graph := Graph { g_vars : list var; g_fns : list fn; g_store : list V; g_params : list param }.

Definition var_of (g : graph) (v : nat) : option var := nth_error (g_vars g) v.
Definition fn_of (g : graph) (f : nat) : option fn := nth_error (g_fns g) f.
Definition parent (g : graph) (v : nat) : option nat := match var_of g v with Some x => v_parent x | None => None end.
Definition data (g : graph) (v : nat) : option nat := match var_of g v with Some x => Some (v_data x) | None => None end.
Definition type_of (g : graph) (f : nat) : option string := match fn_of g f with Some x => Some (op_type (f_op x)) | None => None end.
Definition content (g : graph) (v : nat) : option V := obind (data g v) (nth_error (g_store g)).
(** Variable.__eq__ (_variable.pyx:284-290). *)
Definition same (g : graph) (v w : nat) : bool :=
  match data g v, data g w with Some a, Some b => a =? b | _, _ => false end.

(** A new variable without parent. *)
Definition new_leaf (g : graph) (d : nat) : graph * nat :=
  (Graph (g_vars g ++ [Var d None]) (g_fns g) (g_store g) (g_params g), List.length (g_vars g)).
(** get_unlinked_variable (_variable.pyx:905-953). *)
Definition unlinked (g : graph) (v : nat) : option (graph * nat) := obind (data g v) (fun d => Some (new_leaf g d)).
(** Calling a function (function.pyx.tmpl:309-323) without computing it: new variables with new
    buffers. *)
Definition call (g : graph) (o : op) (inputs : list nat) : option (graph * list nat) :=
  obind (min_outputs o (List.length inputs)) (fun n =>
  let nv := List.length (g_vars g) in
  let outs := seq nv n in
  let f := List.length (g_fns g) in
  let vars := map (fun d => Var d (Some f)) (seq (List.length (g_store g)) n) in
  Some (Graph (g_vars g ++ vars) (g_fns g ++ [Fn o inputs outs]) (g_store g ++ repeat blank n) (g_params g), outs)).
(** Variable.function_references (_variable.pyx:593-605, variable.cpp:1017-1041): the functions
    that take this very variable, each once.  Their order is that of an unordered_map; here it is
    the order in which they were made. *)
Definition member (v : nat) (l : list nat) : bool := existsb (Nat.eqb v) l.
Definition takes (g : graph) (v : nat) (f : nat) : bool := match fn_of g f with Some x => member v (f_in x) | None => false end.
Definition references (g : graph) (v : nat) : list nat := filter (takes g v) (seq 0 (List.length (g_fns g))).

(** Variable.visit (_variable.pyx:1053-1065): the functions in the order in which f is called on
    them, and seen.  The functions of the old graph do not change while they are visited, so that
    they are all found first.  None also if [fuel] is not enough. *)
Fixpoint visit (fuel : nat) (g : graph) (f : nat) (s : list nat * list nat) : option (list nat * list nat) :=
  match fuel with
  | O => None
  | S fuel =>
      obind (fn_of g f) (fun x =>
      obind (fold_left (fun s v => obind s (fun s =>
               match parent g v with
               | None => Some s
               | Some p => if member p (fst s) then Some s else visit fuel g p s
               end)) (f_in x) (Some (f :: fst s, snd s))) (fun s =>
      Some (fst s, (snd s ++ [f])%list)))
  end.

(** _map_func_inputs of a modifier (graph_converter.py:32), and _cnt of the self-folding one. *)
Record table := Table { t_inputs : nat -> option (list (option nat)); t_cnt : nat }.
Definition set_inputs (t : table) (f : nat) (l : list (option nat)) : table :=
  Table (fun h => if h =? f then Some l else t_inputs t h) (t_cnt t).
(** modify of a modifier: the function and its new inputs; the variable that it returns, if any. *)
Definition modifier := graph -> table -> nat -> list nat -> option (graph * table * option nat).

(** _copy_inputs (graph_converter.py:61-70). *)
Fixpoint copy_inputs (g : graph) (l : list nat) : option (graph * list nat) :=
  match l with
  | [] => Some (g, [])
  | v :: l => obind (unlinked g v) (fun '(g, w) => obind (copy_inputs g l) (fun '(g, l) => Some (g, w :: l)))
  end.
(** graph_converter.py:80-84.  A function of one input without new input is called with None in
    Python. *)
Fixpoint fill (several : bool) (new : list (option nat)) (old : list nat) : option (list nat) :=
  match new, old with
  | [], _ => Some []
  | Some v :: new, _ => obind (fill several new (tl old)) (fun l => Some (v :: l))
  | None :: new, v :: old => if several then obind (fill several new old) (fun l => Some (v :: l)) else None
  | None :: _, [] => None
  end.
(** graph_converter.py:104-108 for one function that takes o0. *)
Definition link_fn (g : graph) (o0 o1 : nat) (t : table) (h : nat) : table :=
  match fn_of g h with
  | None => t
  | Some x =>
      let l := match t_inputs t h with Some (e :: l) => e :: l | _ => repeat None (List.length (f_in x)) end in
      set_inputs t h (map (fun '(i, v) => if same g o0 i then Some o1 else v) (combine (f_in x) l))
  end.
(** graph_converter.py:98-108. *)
Fixpoint link (g : graph) (l : list (nat * nat)) (t : table) : table :=
  match l with
  | [] => t
  | (o0, o1) :: l =>
      match references g o0 with
      | [] => t
      | funcs => link g l (fold_left (link_fn g o0 o1) funcs t)
      end
  end.
(** The new inputs of a function (graph_converter.py:73-84). *)
Definition prepare (g : graph) (t : table) (f : nat) (x : fn) : option (graph * table * list nat) :=
  match f_in x with
  | [] => None
  | first :: _ =>
      obind (match parent g first, t_inputs t f with
             | None, None => obind (copy_inputs g (f_in x)) (fun '(g, l) => Some (g, set_inputs t f (map Some l)))
             | _, _ => Some (g, t)
             end) (fun '(g, t) =>
      let new := match t_inputs t f with Some l => l | None => [] end in
      obind (fill (1 <? List.length (f_in x)) new (f_in x)) (fun inputs => Some (g, t, inputs)))
  end.
(** FunctionModifier.__call__ (graph_converter.py:72-108), with the last outputs. *)
Definition step (m : modifier) (f : nat) (s : graph * table * list nat) : option (graph * table * list nat) :=
  let '(g, t, _) := s in
  obind (fn_of g f) (fun x =>
  obind (prepare g t f x) (fun '(g, t, inputs) =>
  obind (m g t f inputs) (fun '(g, t, o) =>
  obind (match o with Some v => Some (g, [v]) | None => call g (f_op x) inputs end) (fun '(g, outs) =>
  Some (g, link g (combine (f_out x) outs) t, outs))))).
(** One round of the loop of GraphConverter.convert (graph_converter.py:223-226): a sink of the
    outputs is made, all functions below it are visited, and the inputs of the last function that
    was made are the new outputs. *)
Definition sink : op := Op "Sink" [].
Fixpoint steps (m : modifier) (l : list nat) (s : graph * table * list nat) : option (graph * table * list nat) :=
  match l with [] => Some s | f :: l => obind (step m f s) (steps m l) end.
Definition convert1 (m : modifier) (g : graph) (outputs : list nat) : option (graph * list nat) :=
  let f := List.length (g_fns g) in
  obind (call g sink outputs) (fun '(g, _) =>
  obind (visit (S f) g f ([], [])) (fun '(_, order) =>
  obind (steps m order (g, Table (fun _ => None) 0, [])) (fun '(g, _, outs) =>
  obind (nth_error outs 0) (fun o => obind (parent g o) (fun p => obind (fn_of g p) (fun x => Some (g, f_in x))))))).
(** GraphConverter.convert (graph_converter.py:214-229), of a list of outputs. *)
Fixpoint convert (ms : list modifier) (g : graph) (outputs : list nat) : option (graph * list nat) :=
  match ms with
  | [] => Some (g, outputs)
  | m :: ms => obind (convert1 m g outputs) (fun '(g, outputs) => convert ms g outputs)
  end.

(** * Parameters *)

(** get_parameter_scope (graph_converter.py:37-53): only parameters with need_grad are looked at. *)
Definition parameter_scope (g : graph) (v : nat) : string :=
  match find (fun p => p_grad p && match data g v with Some d => p_data p =? d | None => false end) (g_params g) with
  | Some p => p_scope p
  | None => ""
  end.
(** get_parameter_or_create (parameter.py:260-352) with an array as initializer: a registered
    parameter keeps its values. *)
Definition registered (g : graph) (scope name : string) (num : nat) : option nat :=
  match find (fun p => String.eqb (p_scope p) scope && String.eqb (p_name p) name && (p_num p =? num)) (g_params g) with
  | Some p => Some (p_data p)
  | None => None
  end.
Definition get_or_create (g : graph) (scope name : string) (num : nat) (need_grad : bool) (x : V) : graph * nat :=
  match registered g scope name num with
  | Some d => new_leaf g d
  | None =>
      let d := List.length (g_store g) in
      new_leaf (Graph (g_vars g) (g_fns g) (g_store g ++ [x]) (g_params g ++ [Param scope name num need_grad d])) d
  end.

(** * Modifiers *)

Definition unchanged (g : graph) (t : table) : option (graph * table * option nat) := Some (g, t, None).
(** What a call to a function returns is given back if it is one variable; a tuple is refused
    (graph_converter.py:89-90). *)
Definition returned (t : table) (r : option (graph * list nat)) : option (graph * table * option nat) :=
  obind r (fun '(g, outs) => match outs with [o] => Some (g, t, Some o) | _ => None end).
Definition first_output (g : graph) (f : nat) : option nat := obind (fn_of g f) (fun x => nth_error (f_out x) 0).

(** IdentityModifier (identity.py:45-70) without copying values; [repl] is its dictionary, whose
    keys are compared with ==. *)
Definition identity (repl : list (nat * nat)) : modifier := fun g t f inputs =>
  match inputs with
  | [] => None
  | first :: rest =>
      match parent g first with
      | Some _ => unchanged g t
      | None =>
          obind (fn_of g f) (fun x =>
          obind (nth_error (f_in x) 0) (fun old =>
          match find (fun '(k, _) => same g k old) repl with
          | None => unchanged g t
          | Some (_, r) => returned (set_inputs t f (map Some (r :: rest))) (call g (f_op x) (r :: rest))
          end))
      end
  end.

(** RemoveFunctionModifier (remove_function.py:49-60), where no variable has the name x. *)
Definition remove (names : list string) : modifier := fun g t f inputs =>
  obind (type_of g f) (fun n =>
  if existsb (String.eqb n) names then
    obind (first_output g f) (fun o =>
    match references g o, inputs with
    | _ :: _, first :: _ => Some (g, t, Some first)
    | _, _ => None
    end)
  else unchanged g t).

(** NoGradModifier (no_grad.py:49-61). *)
Fixpoint unlink_params (g : graph) (l : list nat) : option (graph * list nat) :=
  match l with
  | [] => Some (g, [])
  | v :: l =>
      obind (data g v) (fun d =>
      obind (if existsb (fun p => p_data p =? d) (g_params g) then unlinked g v else Some (g, v)) (fun '(g, w) =>
      obind (unlink_params g l) (fun '(g, l) => Some (g, w :: l))))
  end.
Definition no_grad : modifier := fun g t f inputs =>
  obind (fn_of g f) (fun x => obind (unlink_params g inputs) (fun '(g, l) => returned t (call g (f_op x) l))).

(** BatchNormBatchStatModifier (batch_norm_batchstat.py:43-67); [off] are the arguments with
    batch_stat=False. *)
Definition batch_norms : list string := ["BatchNormalization"; "FusedBatchNormalization"; "SyncBatchNormalization"].
Definition batch_stat (off : list nat -> list nat) : modifier := fun g t f inputs =>
  obind (fn_of g f) (fun x =>
  if existsb (String.eqb (op_type (f_op x))) batch_norms
  then returned t (call g (Op (op_type (f_op x)) (off (op_args (f_op x)))) inputs)
  else unchanged g t).

(** _fct_set (batch_normalization_folding.py:28-32). *)
Definition bn_type : string := "BatchNormalization".
Definition inner_products : list string := ["Affine"; "Convolution"; "Deconvolution"].
Definition is_ip (n : string) : bool := existsb (String.eqb n) inner_products.
Definition is_bn (n : string) : bool := String.eqb n bn_type.

(** AddBiasModifier (batch_normalization_folding.py:63-89); [zeros] makes the bias for the type
    of the function and its weight. *)
Definition add_bias (zeros : string -> V -> V) : modifier := fun g t f inputs =>
  obind (fn_of g f) (fun x =>
  let n := op_type (f_op x) in
  if negb (is_ip n) then unchanged g t else
  obind (nth_error (f_out x) 0) (fun o =>
  obind (nth_error (references g o) 0) (fun next => obind (type_of g next) (fun next_type =>
  obind (nth_error (f_in x) 0) (fun first =>
  obind (match parent g first with None => Some false | Some p => obind (type_of g p) (fun n => Some (is_bn n)) end) (fun after_bn =>
  if negb after_bn && negb (is_bn next_type) then unchanged g t else
  match inputs with
  | [_; _; _] => unchanged g t
  | i :: w :: _ =>
      obind (content g w) (fun wd =>
      let '(g, b) := get_or_create g (parameter_scope g w) "b" 0 true (zeros n wd) in
      returned t (call g (f_op x) [i; w; b]))
  | _ => None
  end)))))).

(** BatchNormalizationFoldingModifierInner (batch_normalization_folding.py:109-151); [fold] is
    _compute_folded_parameters: of the inner product, the batch normalization, the weight and the
    bias of the one and the parameters of the other. *)
Definition fold_bn (need_grad : nat -> bool) (fold : op -> op -> V -> option V -> list V -> option (V * V)) : modifier := fun g t f inputs =>
  obind (fn_of g f) (fun x =>
  let n := op_type (f_op x) in
  obind (nth_error (f_out x) 0) (fun o =>
  match references g o with
  | [] => unchanged g t
  | next :: others =>
      obind (if is_bn n
             then obind (nth_error inputs 0) (fun i => obind (parent g i) (fun p => obind (type_of g p) (fun n => Some (is_ip n))))
             else Some false) (fun folded =>
      if folded : bool then obind (nth_error inputs 0) (fun i => Some (g, t, Some i)) else
      obind (fn_of g next) (fun y =>
      if negb (is_bn (op_type (f_op y))) then unchanged g t else
      if negb (match others with [] => true | _ => false end) then unchanged g t else
      if negb (is_ip n) then unchanged g t else
      obind (obind (nth_error (f_in x) 1) (content g)) (fun wd =>
      obind (match nth_error (f_in x) 2 with None => Some None | Some b => obind (content g b) (fun bd => Some (Some bd)) end) (fun bd =>
      obind (fold_right (fun v l => obind (content g v) (fun c => obind l (fun l => Some (c :: l)))) (Some []) (firstn 4 (tl (f_in y)))) (fun ps =>
      obind (fold (f_op x) (f_op y) wd bd ps) (fun '(wn, bn) =>
      match inputs with
      | i :: w :: b :: _ =>
          let scope := parameter_scope g w in
          let '(g, w1) := get_or_create g scope "w-folded" 0 (need_grad w) wn in
          let '(g, b1) := get_or_create g scope "b-folded" 0 (need_grad b) bn in
          returned t (call g (f_op x) [i; w1; b1])
      | _ => None
      end))))))
  end)).

(** BatchNormalizationSelfFoldingModifier (batch_normalization_self_folding.py:48-86); [scale]
    computes c0 and c1. *)
Definition mul2 : op := Op "Mul2" [].
Definition add2 : op := Op "Add2" [].
Definition self_fold (name : string) (scale : op -> list V -> option (V * V)) : modifier := fun g t f inputs =>
  obind (fn_of g f) (fun x =>
  if negb (is_bn (op_type (f_op x))) then unchanged g t else
  obind (fold_right (fun v l => obind (content g v) (fun c => obind l (fun l => Some (c :: l)))) (Some []) (firstn 4 (tl (f_in x)))) (fun ps =>
  obind (scale (f_op x) ps) (fun '(c0, c1) =>
  obind (nth_error inputs 0) (fun i =>
  let '(g, a) := get_or_create g name "c0" (t_cnt t) true c0 in
  let '(g, b) := get_or_create g name "c1" (t_cnt t) true c1 in
  obind (call g mul2 [a; i]) (fun '(g, l) => obind (nth_error l 0) (fun h =>
  returned (Table (t_inputs t) (S (t_cnt t))) (call g add2 [h; b]))))))).

End Converter.
Arguments graph : clear implicits.
Arguments modifier : clear implicits.
