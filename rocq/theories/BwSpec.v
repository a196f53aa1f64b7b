(** Specification of backward propagation: the gradient is a sum over paths. *)
From Coq Require Import List Arith Bool.
From Verif Require Import CgModel CgSpec BwModel.
Import ListNotations.
Local Open Scope list_scope.

(** One step of a path: function, output position, input position. *)
Notation step := (nat * nat * nat)%type.

Section Spec.
Context {V G : Type}.
Variable add : G -> G -> G.
Variable zero : G.
Variable g : graph V.
Variable d : nat -> nat -> nat -> G -> G.

Definition gsum (l : list G) : G := fold_right add zero l.

(** A step [(f, o, i)] goes through function [f] from its [o]-th output to its [i]-th
    input.  [is_path ng y l v]: the steps [l] lead from [y] to [v] through active
    inputs that need gradients. *)
Inductive is_path (ng : nat -> bool) (y : nat) : list step -> nat -> Prop :=
| path_root : is_path ng y [] y
| path_step l f fd o i u v : is_path ng y l u -> fun_at g f = Some fd ->
    nth_error (f_outs fd) o = Some u -> reads g f i v -> ng v = true ->
    is_path ng y (l ++ [(f, o, i)]) v.

(** The chain rule along one path. *)
Definition path_val (x0 : G) (l : list step) : G :=
  fold_left (fun x st => match st with (f, o, i) => d f o i x end) l x0.

(** [paths] lists, once each, the paths from [y] to the variables satisfying [ends]. *)
Definition all_paths (ng : nat -> bool) (y : nat) (ends : nat -> Prop) (paths : list (list step)) : Prop :=
  NoDup paths /\ forall l, In l paths <-> exists v, is_path ng y l v /\ ends v.

(** The structure of the graph that backward relies on. *)
Record linked : Prop := mkLinked {
  ln_ins : forall f fd v, fun_at g f = Some fd -> In v (f_ins fd) -> is_var g v;
  ln_outs : forall f fd v, fun_at g f = Some fd -> In v (f_outs fd) ->
              is_var g v /\ parent g v = Some f;
  ln_parent : forall v p, parent g v = Some p ->
              exists fd, fun_at g p = Some fd /\ In v (f_outs fd);
  ln_nodup : forall f fd, fun_at g f = Some fd -> NoDup (f_outs fd) }.

(** Only leaves share gradient arrays. *)
Definition own_grads (garr : nat -> nat) : Prop :=
  forall u v, is_var g u -> is_var g v -> ~ is_leaf g v -> garr u = garr v -> u = v.

Definition additive (h : G -> G) : Prop :=
  h zero = zero /\ forall a b, h (add a b) = add (h a) (h b).
End Spec.

(** Gradients can be added in any order. *)
Definition comm_monoid {G} (add : G -> G -> G) (zero : G) : Prop :=
  (forall a b, add a b = add b a) /\ (forall a b c, add a (add b c) = add (add a b) c) /\
  (forall a, add zero a = a).

Section Spec2.
Context {V : Type}.
Variable g : graph V.

(** The state that forward leaves for the functions [p] depends on. *)
Definition marked (gf : nat -> bool) (p : nat) (s : st V) : Prop :=
  (forall f, needs g p f -> fng s f = gf f) /\
  (forall f i v, needs g p f -> reads g f i v -> need_grad_state g s v = ng_of g gf v) /\
  (forall f i v q, needs g p f -> reads g f i v -> parent g v = Some q -> frank s q < frank s f).

(** No gradient is cut in the middle of the graph: no output of a function has its
    need_grad flag set to False, and masked-out inputs with a parent are read elsewhere. *)
Definition uncut (p : nat) : Prop :=
  (forall v q, parent g v = Some q -> v_need_grad (var_at g v) <> Some false) /\
  (forall f fd i v q, needs g p f -> fun_at g f = Some fd -> nth_error (f_ins fd) i = Some v ->
     f_active fd i = false -> parent g v = Some q -> exists h j, needs g p h /\ reads g h j v).
End Spec2.
