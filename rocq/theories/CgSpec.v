(** Specification of forward propagation: what a well-formed graph is, and what the
    values of its variables are, without reference to how they are computed. *)
From Coq Require Import List Arith Bool.
From Verif Require Import CgModel.
Import ListNotations.
Local Open Scope list_scope.

Section Spec.
Context {V : Type}.
Variable g : graph V.

Definition is_var (v : nat) : Prop := v < length (g_vars g).
Definition is_leaf (v : nat) : Prop := parent g v = None.
(** [reads f i v]: the [i]-th input of function [f] is [v] and it is active. *)
Definition reads (f i v : nat) : Prop :=
  exists fd, fun_at g f = Some fd /\ nth_error (f_ins fd) i = Some v /\ f_active fd i = true.
(** [f] is [p] or a function that [p] depends on through active inputs. *)
Inductive needs : nat -> nat -> Prop :=
| needs_refl p : needs p p
| needs_step p i u q f : reads p i u -> parent g u = Some q -> needs q f -> needs p f.

(** The values of the variables: leaves have the given contents, and the outputs of
    every function are the function applied to its active inputs. *)
Definition args (vals : nat -> V) (fd : fn V) : list (option V) :=
  map (fun p => if f_active fd (fst p) then Some (vals (snd p)) else None)
      (combine (seq 0 (length (f_ins fd))) (f_ins fd)).
Definition solution (leaf vals : nat -> V) : Prop :=
  (forall v, is_leaf v -> vals v = leaf v) /\
  (forall f fd, fun_at g f = Some fd -> f_op fd (args vals fd) = map vals (f_outs fd)).

(** Number of times a variable is used as an input in the graph. *)
Definition uses (v : nat) : nat :=
  list_sum (map (fun fd => count_occ Nat.eq_dec (f_ins fd) v) (g_fns g)).

(** [a] is the [i]-th input of [f], in-placed to its only output [b]. *)
Definition inplace_pair (f i a b : nat) : Prop :=
  exists fd, fun_at g f = Some fd /\ nth_error (f_ins fd) i = Some a /\
             is_inplace (f_inplace fd i) = true /\ f_outs fd = [b].

(** Well-formed graphs, as [connect] builds them. *)
Record wf : Prop := mkWf {
  (* the inputs and outputs are variables of the graph *)
  wf_ins : forall f fd v, fun_at g f = Some fd -> In v (f_ins fd) -> is_var v;
  wf_outs : forall f fd v, fun_at g f = Some fd -> In v (f_outs fd) ->
              is_var v /\ parent g v = Some f;
  wf_parent : forall v p, parent g v = Some p ->
              exists fd, fun_at g p = Some fd /\ In v (f_outs fd);
  (* two outputs of a function do not share an array *)
  wf_out_arrays : forall f fd, fun_at g f = Some fd -> NoDup (map (arr g) (f_outs fd));
  (* the reference count is at least the number of uses *)
  wf_refs : forall v, uses v <= v_refs (var_at g v);
  (* in-place functions have one output, and their in-placed inputs are active *)
  wf_inplace : forall f fd i a, fun_at g f = Some fd -> nth_error (f_ins fd) i = Some a ->
      is_inplace (f_inplace fd i) = true ->
      f_active fd i = true /\ f_inplace_with fd i = 0 /\ exists b, f_outs fd = [b];
  (* a function in-placed "not modify" leaves the data as it is *)
  wf_not_modify : forall f fd i a xs x, fun_at g f = Some fd ->
      nth_error (f_ins fd) i = Some a -> f_inplace fd i = INPLACE_NOT_MODIFY ->
      nth_error xs i = Some (Some x) -> f_op fd xs = [x];
  (* only in-placing makes two variables share an array *)
  wf_alias : forall u v, is_var u -> is_var v -> u <> v -> arr g u = arr g v ->
      exists f i a b, inplace_pair f i a b /\ (u = a \/ u = b) }.

(** A numbering of the functions in which producers come before consumers. *)
Definition numbering (lvl : nat -> nat) : Prop :=
  forall f fd, fun_at g f = Some fd ->
    lvl f < length (g_fns g) /\
    forall u q, In u (f_ins fd) -> parent g u = Some q -> lvl q < lvl f.
Definition acyclic : Prop := exists lvl, numbering lvl.

(** Variables that carry the same data through "in-place, not modify" functions. *)
Inductive same_data : nat -> nat -> Prop :=
| same_refl v : same_data v v
| same_sym u v : same_data u v -> same_data v u
| same_trans u v w : same_data u v -> same_data v w -> same_data u w
| same_pair f fd i a b : fun_at g f = Some fd -> nth_error (f_ins fd) i = Some a ->
    f_inplace fd i = INPLACE_NOT_MODIFY -> f_outs fd = [b] -> same_data a b.

(** No function of the set [need] overwrites, by in-placing, an array whose previous
    contents are still wanted: another variable [v] living in the array that [f]
    writes carries the same data, or is computed from the result of [f], or else is
    not to be kept and is only read by functions that [f] depends on. *)
Definition no_hazard (need keep : nat -> Prop) : Prop :=
  forall f fd o v, need f -> fun_at g f = Some fd -> In o (f_outs fd) -> is_var v ->
    v <> o -> arr g v = arr g o ->
    same_data v o \/
    (exists q, parent g v = Some q /\ needs q f) \/
    (~ keep v /\ forall h j, need h -> reads h j v -> needs f h).

(** Inputs masked out (AddN, MulN) own their array, and masked-out leaves have rank 0
    as every fresh leaf has. *)
Definition masked_ok (need : nat -> Prop) (s : st V) : Prop :=
  forall f fd i u, need f -> fun_at g f = Some fd -> nth_error (f_ins fd) i = Some u ->
    f_active fd i = false ->
    (forall v, is_var v -> arr g v = arr g u -> v = u) /\
    (is_leaf u -> vrank s u = 0).

(** The leaves that are read or kept hold their data. *)
Definition loaded (need keep : nat -> Prop) (leaf : nat -> V) (s : st V) : Prop :=
  forall v, is_var v -> is_leaf v -> (keep v \/ exists h j, need h /\ reads h j v) ->
    mem s (arr g v) = Some (leaf v).

(** Need-gradient state and rank of every function, by their defining equations:
    a function needs gradients if some active input does; a variable does if the user
    said so, or else if its producer does. *)
Definition ng_of (gf : nat -> bool) (v : nat) : bool :=
  match v_need_grad (var_at g v) with
  | Some b => b
  | None => match parent g v with Some p => gf p | None => false end
  end.
Definition grad_flags (gf : nat -> bool) : Prop :=
  forall f fd, fun_at g f = Some fd ->
    (gf f = true <-> exists i v, reads f i v /\ ng_of gf v = true).
Definition ranks (rk : nat -> nat) : Prop :=
  forall f fd, fun_at g f = Some fd ->
    (rk f = 1 \/ exists i v p, reads f i v /\ parent g v = Some p /\ rk f = S (rk p)) /\
    0 < rk f /\
    (forall i v p, reads f i v -> parent g v = Some p -> rk p < rk f).

(** The data that backward will read: inputs and outputs of functions that need
    gradients and declare the dependency. *)
Definition grad_reads_input (need : nat -> Prop) (gf : nat -> bool) (v : nat) : Prop :=
  exists f fd i j, need f /\ fun_at g f = Some fd /\ gf f = true /\
    nth_error (f_ins fd) i = Some v /\ j < length (f_ins fd) /\ f_dep_in fd j i = true.
Definition grad_reads_output (need : nat -> Prop) (gf : nat -> bool) (v : nat) : Prop :=
  exists f fd o j, need f /\ fun_at g f = Some fd /\ gf f = true /\
    nth_error (f_outs fd) o = Some v /\ j < length (f_ins fd) /\ f_dep_out fd j o = true.

(** In a list of executed functions, producers come before consumers. *)
Definition in_order (l : list nat) : Prop :=
  forall l1 f l2 i u q, l = l1 ++ f :: l2 -> reads f i u -> parent g u = Some q -> In q l1.
End Spec.
