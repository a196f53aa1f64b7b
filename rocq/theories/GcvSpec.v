(** What graphs compute, for the graph converters of GcvModel. *)
From Coq Require Import String List Arith.
From Verif Require Import GcvModel.
Import ListNotations.
Local Open Scope list_scope.

Section Spec.
Context {V : Type} (sem : op -> list V -> option (list V)).

(** The value of a variable when the graph is computed: functions compute [sem], and variables
    without parent hold what is stored. *)
Inductive computes (g : graph V) : nat -> V -> Prop :=
  | computes_leaf v d x :
      nth_error (g_vars g) v = Some (Var d None) -> nth_error (g_store g) d = Some x -> computes g v x
  | computes_output v d f y k xs zs x :
      nth_error (g_vars g) v = Some (Var d (Some f)) -> nth_error (g_fns g) f = Some y ->
      nth_error (f_out y) k = Some v -> Forall2 (computes g) (f_in y) xs ->
      sem (f_op y) xs = Some zs -> nth_error zs k = Some x -> computes g v x.

(** The functions that the outputs depend on. *)
Inductive below (g : graph V) (outs : list nat) : nat -> Prop :=
  | below_out v x f : In v outs -> nth_error (g_vars g) v = Some x -> v_parent x = Some f -> below g outs f
  | below_in h y v x f :
      below g outs h -> nth_error (g_fns g) h = Some y -> In v (f_in y) ->
      nth_error (g_vars g) v = Some x -> v_parent x = Some f -> below g outs f.

(** A graph as it comes from calls of functions: inputs were there before the function, outputs
    belong to it, buffers exist. *)
Record built (g : graph V) : Prop := Built {
  built_in : forall f y v, nth_error (g_fns g) f = Some y -> In v (f_in y) ->
    exists x, nth_error (g_vars g) v = Some x /\ (forall p, v_parent x = Some p -> p < f);
  built_out : forall f y v, nth_error (g_fns g) f = Some y -> In v (f_out y) ->
    exists d, nth_error (g_vars g) v = Some (Var d (Some f));
  built_parent : forall v x p, nth_error (g_vars g) v = Some x -> v_parent x = Some p ->
    exists y, nth_error (g_fns g) p = Some y /\ In v (f_out y);
  built_data : forall v x, nth_error (g_vars g) v = Some x -> v_data x < List.length (g_store g);
  built_nodup : forall f y, nth_error (g_fns g) f = Some y -> NoDup (f_out y) }.

(** Somebody takes the variable, or it is an output. *)
Definition used (g : graph V) (outs : list nat) (v : nat) : Prop :=
  In v outs \/ exists f y, nth_error (g_fns g) f = Some y /\ In v (f_in y).
(** No output is used after one that is not. *)
Definition used_in_order (g : graph V) (outs : list nat) (y : fn) : Prop :=
  forall i j a b, i < j -> nth_error (f_out y) i = Some a -> nth_error (f_out y) j = Some b -> used g outs b -> used g outs a.

(** A variable of the graph below the outputs. *)
Definition relevant (g : graph V) (outs : list nat) (v : nat) : Prop :=
  In v outs \/ exists h y, below g outs h /\ nth_error (g_fns g) h = Some y /\ (In v (f_in y) \/ In v (f_out y)).

(** What converters need of a graph: functions take something, the number of outputs is that of a
    new call, outputs are used in order, and variables exist. *)
Record convertible (min_outputs : op -> nat -> option nat) (g : graph V) (outs : list nat) : Prop := Convertible {
  conv_built : built g;
  conv_some : outs <> [];
  conv_outs : forall v, In v outs -> exists x, nth_error (g_vars g) v = Some x;
  conv_in : forall h y, below g outs h -> nth_error (g_fns g) h = Some y -> f_in y <> [];
  conv_call : forall h y, below g outs h -> nth_error (g_fns g) h = Some y ->
    min_outputs (f_op y) (List.length (f_in y)) = Some (List.length (f_out y));
  conv_used : forall h y, below g outs h -> nth_error (g_fns g) h = Some y -> used_in_order g outs y;
  conv_sink : min_outputs sink (List.length outs) = Some 1 }.

(** [val] gives every variable below the outputs its value; who shares the buffer of an output of
    a function has its value. *)
Record valuation (g : graph V) (outs : list nat) (val : nat -> V) : Prop := Valuation {
  val_leaf : forall v d, relevant g outs v -> nth_error (g_vars g) v = Some (Var d None) -> nth_error (g_store g) d = Some (val v);
  val_fn : forall h y, below g outs h -> nth_error (g_fns g) h = Some y -> sem (f_op y) (map val (f_in y)) = Some (map val (f_out y));
  val_data : forall v w a b, relevant g outs v -> relevant g outs w ->
    nth_error (g_vars g) v = Some a -> nth_error (g_vars g) w = Some b -> v_parent a <> None -> v_data a = v_data b -> val v = val w }.

(** Outputs of functions do not share their buffers. *)
Definition own_buffers (g : graph V) (outs : list nat) : Prop :=
  forall v w a b, relevant g outs v -> relevant g outs w -> nth_error (g_vars g) v = Some a -> nth_error (g_vars g) w = Some b ->
    v_parent a <> None -> v_data a = v_data b -> v = w.

(** A variable without parent. *)
Definition leaf (g : graph V) (v : nat) : Prop := exists d, nth_error (g_vars g) v = Some (Var d None).
Definition inner_product (o : op) : Prop := In (op_type o) ["Affine"; "Convolution"; "Deconvolution"]%string.
Definition batch_normalization (o : op) : Prop := op_type o = "BatchNormalization"%string.
(** An inner product [f] whose only output is taken by nobody but the batch normalization [b], as
    its first input; weight, bias and the parameters of the batch normalization have no parent. *)
Record folds (g : graph V) (outs : list nat) (f : nat) (x : fn) (b : nat) (y : fn) (i w c o z : nat) (ps : list nat) : Prop := Folds {
  folds_below : below g outs f;
  folds_fn : nth_error (g_fns g) f = Some x;
  folds_type : inner_product (f_op x);
  folds_bn_fn : nth_error (g_fns g) b = Some y;
  folds_bn : op_type (f_op y) = "BatchNormalization"%string;
  folds_in : f_in x = [i; w; c];
  folds_out : f_out x = [o];
  folds_bn_in : f_in y = o :: ps;
  folds_bn_out : f_out y = [z];
  folds_alone : forall h hy, nth_error (g_fns g) h = Some hy -> In o (f_in hy) -> h = b;
  folds_not_out : ~ In o outs;
  folds_w : leaf g w;
  folds_c : leaf g c;
  folds_ps : forall v, In v (firstn 4 ps) -> leaf g v }.


(** Nothing of the old graph is changed. *)
Definition extends (g g' : graph V) : Prop :=
  exists vs fs xs, g_vars g' = g_vars g ++ vs /\ g_fns g' = g_fns g ++ fs /\ g_store g' = g_store g ++ xs.
(** The parameters with need_grad that have the buffer of [v], and there are some, are in the scope [s]. *)
Definition in_scope (g : graph V) (v : nat) (s : string) : Prop :=
  exists x, nth_error (g_vars g) v = Some x /\
    (exists p, In p (g_params g) /\ p_grad p = true /\ p_data p = v_data x) /\
    forall p, In p (g_params g) -> p_grad p = true -> p_data p = v_data x -> p_scope p = s.
(** No parameter of the scope has this name. *)
Definition no_name (g : graph V) (scope name : string) : Prop := forall p, In p (g_params g) -> p_scope p = scope -> p_name p <> name.
End Spec.
