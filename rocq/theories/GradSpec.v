(** What nn.grad is asked to compute, and on which graphs. *)
From Coq Require Import List Arith Bool.
From Verif Require Import CgModel CgSpec BwModel BwSpec GradModel.
Import ListNotations.
Local Open Scope list_scope.

Section Spec.
Context {V : Type}.
Variable g : graph V.

(** [v] is an input of a function that [o] is computed through. *)
Inductive above (o : nat) : nat -> Prop :=
| above_in f fd v : parent g o = Some f -> fun_at g f = Some fd -> In v (f_ins fd) -> above o v
| above_up u f fd v : above o u -> parent g u = Some f -> fun_at g f = Some fd -> In v (f_ins fd) -> above o v.

(** The flags and ranks that construction (or a forward) leaves in the graph: a
    function that reads a variable with gradient has one; a function and its outputs
    agree; ranks increase from producer to consumer. *)
Record nn_flags (vneed fneed : nat -> bool) (fr : nat -> nat) : Prop := mkFlags {
  gf_reads : forall f i v, reads g f i v -> vneed v = true -> fneed f = true;
  gf_outs : forall v q, parent g v = Some q -> vneed v = fneed q;
  gf_rank : forall f i v q, reads g f i v -> parent g v = Some q -> fr q < fr f }.

(** Each output is computed by a function of its own, and is either of the rank of
    this function, or the function is not used by another output. *)
Record grad_roots (vneed : nat -> bool) (vr fr : nat -> nat) (roots : list nat) : Prop := mkRoots {
  gr_fun : forall y, In y roots -> exists p, parent g y = Some p /\ fr p <= vr y;
  gr_own : NoDup (map (parent g) roots);
  gr_rank : forall y p, In y roots -> parent g y = Some p -> vr y = fr p \/
    forall z l v, In z roots -> is_path g vneed z l v -> l <> [] -> parent g v <> Some p }.

(** The inputs are different variables, none stands for two variables of the graph, and
    those the gradient reaches are seen from the outputs. *)
Record grad_inputs (vid : nat -> nat) (vneed : nat -> bool) (roots outs inputs : list nat) : Prop := mkInputs {
  gi_own : NoDup (map vid inputs);
  gi_one : forall x u v, In x inputs -> (exists f fd, fun_at g f = Some fd /\ In u (f_ins fd)) ->
    (exists f fd, fun_at g f = Some fd /\ In v (f_ins fd)) -> vid u = vid x -> vid v = vid x -> u = v;
  gi_seen : forall x y l v, In x inputs -> In y roots -> is_path g vneed y l v -> vid v = vid x ->
    l <> [] /\ exists o, In o outs /\ above o v }.

(** Ranks as construction leaves them (computation_graph.cpp:24-38,
    computation_graph/function.cpp:106-112) and as forward leaves them
    (computation_graph/variable.cpp:680-758). *)
Definition built_ranks (vr fr : nat -> nat) : Prop :=
  (forall f fd v, fun_at g f = Some fd -> In v (f_ins fd) -> vr v <= fr f) /\
  (forall v f, parent g v = Some f -> vr v = S (fr f)).
Definition forward_ranks (vr fr : nat -> nat) : Prop :=
  (forall f fd v q, fun_at g f = Some fd -> In v (f_ins fd) -> parent g v = Some q -> fr q < fr f) /\
  (forall v f, parent g v = Some f -> vr v = fr f).
(** The flags: need_grad of a function is that some input needs it; outputs follow. *)
Definition built_flags (vneed fneed : nat -> bool) : Prop :=
  (forall f i v, reads g f i v -> vneed v = true -> fneed f = true) /\
  (forall v q, parent g v = Some q -> vneed v = fneed q).
End Spec.
