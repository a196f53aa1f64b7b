(** What identity removal should preserve: well-formed networks and the values they compute. *)
From Coq Require Import String List Bool Arith.
From Verif Require Import Assoc IdModel.
Import ListNotations.
Local Open Scope list_scope.

Definition occurrences (x : string) (l : list string) : nat := count_occ string_dec l x.

Section Spec.
Variable sel : string -> bool.        (* which identities are to be removed, by name *)

(** f writes v. *)
Definition produces (N : pnet) (f v : string) : Prop :=
  exists fi, aget f (n_funs N) = Some fi /\ In v (f_out fi).
(** f is an identity function that is to be removed. *)
Definition is_rem (N : pnet) (f : string) : Prop :=
  exists fi, aget f (n_funs N) = Some fi /\ f_id fi = true /\ sel f = true.
(** How often g reads v. *)
Definition uses (N : pnet) (g v : string) : nat :=
  match aget g (n_funs N) with Some gi => occurrences v (f_in gi) | None => 0 end.
(** r is where v comes from, through identities that are to be removed. *)
Inductive root (N : pnet) : string -> string -> Prop :=
| root_here v : (forall f, produces N f v -> ~ is_rem N f) -> root N v v
| root_step f x y r : is_rem N f -> uses N f x > 0 -> produces N f y -> root N x r -> root N y r.

(** Well-formed networks. *)
Record wf (N : pnet) (rank : string -> nat) : Prop := {
  (** names that functions read and write exist, and the links agree with the functions *)
  w_in : forall f v, uses N f v > 0 -> lookup N v <> None;
  w_out : forall f v, produces N f v -> exists pv, aget v (n_vars N) = Some pv /\ v_parent pv = Some f;
  w_par : forall v pv f, lookup N v = Some pv -> v_parent pv = Some f -> produces N f v;
  w_param : forall v f, aget v (n_params N) <> None -> ~ produces N f v;
  w_nodup : forall f fi, aget f (n_funs N) = Some fi -> NoDup (f_out fi);
  (** [required] lists the readers; readers may be missing for outputs of the network that are
      not written by an identity to be removed *)
  w_req_le : forall v pv g, lookup N v = Some pv -> occurrences g (v_req pv) <= uses N g v;
  w_req : forall v pv, lookup N v = Some pv -> (~ In v (n_out N) \/ exists f, is_rem N f /\ produces N f v) ->
          forall g, occurrences g (v_req pv) = uses N g v;
  (** no cycles *)
  w_rank : forall f g v, uses N f v > 0 -> produces N g v -> rank g < rank f;
  (** identities have one input and one output *)
  w_id : forall f fi, is_rem N f -> aget f (n_funs N) = Some fi -> exists x y, f_in fi = [x] /\ f_out fi = [y];
  (** the ports: inputs are not written; what an identity to be removed writes is an output
      exactly when nothing reads it *)
  w_nin : forall v, In v (n_in N) -> aget v (n_vars N) <> None /\ forall f, ~ produces N f v;
  w_nout : forall v, In v (n_out N) -> aget v (n_vars N) <> None;
  w_ports : forall f y py, is_rem N f -> produces N f y -> aget y (n_vars N) = Some py -> (In y (n_out N) <-> v_req py = []);
  (** two outputs never come from the same variable *)
  w_roots : forall o1 o2 r, In o1 (n_out N) -> In o2 (n_out N) -> root N o1 r -> root N o2 r -> o1 = o2;
  (** an output written by an identity to be removed does not come from a variable that
      nothing writes, such as an input of the network or a parameter *)
  w_written : forall o r f, In o (n_out N) -> is_rem N f -> produces N f o -> root N o r -> exists g, produces N g r }.

(** The value of a variable: what its producer computes from the values of its inputs, or the
    given value if nothing writes it.  [sem f i args] is output i of function f. *)
Section Values.
Variable A : Type.
Variable sem : string -> nat -> list A -> A.
Variable env : string -> A.
Inductive value (N : pnet) : string -> A -> Prop :=
| value_leaf v : (forall f, ~ produces N f v) -> value N v (env v)
| value_fun f fi i v args : aget f (n_funs N) = Some fi -> nth_error (f_out fi) i = Some v ->
    values N (f_in fi) args -> value N v (sem f i args)
with values (N : pnet) : list string -> list A -> Prop :=
| values_nil : values N [] []
| values_cons v vs a l : value N v a -> values N vs l -> values N (v :: vs) (a :: l).
End Values.

(** Following the recorded renamings from v ends at w. *)
Inductive leads (renamed : @amap string) : string -> string -> Prop :=
| leads_end v : aget v renamed = None -> leads renamed v v
| leads_step v u w : aget v renamed = Some u -> leads renamed u w -> leads renamed v w.
End Spec.
