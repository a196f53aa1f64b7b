(** Model of ClipGradByValue (src/nbla/function/generic/clip_grad_by_value.cpp).

    Elements are rational numbers.  Reading past the end of a shape or of an array is undefined
    behaviour, which is an outcome of its own for shapes and [None] for elements. *)
From Coq Require Import List ZArith Bool QArith Qcanon.
From Verif Require Import ReduceModel.
Import ListNotations.
Local Open Scope list_scope.
Local Open Scope Qc_scope.

Inductive checked := Accepted | Refused | Undefined.
Definition positive_size (a : Z) : bool := negb (a =? 0)%Z.
(** The loop of setup_impl over shape0 (clip_grad_by_value.cpp:39-44). *)
Fixpoint check_sizes (shape0 shape1 shape2 : list Z) : checked :=
  match shape0 with
  | [] => Accepted
  | a :: shape0 =>
      if negb (positive_size a) then Refused else
      match shape1 with
      | [] => Undefined
      | b :: shape1 =>
          if negb (positive_size b) then Refused else
          match shape2 with
          | [] => Undefined
          | c :: shape2 => if positive_size c then check_sizes shape0 shape1 shape2 else Refused
          end
      end
  end.
(** setup_impl (clip_grad_by_value.cpp:27-47): "shape0.size() && shape1.size() && shape2.size()". *)
Definition clip_setup (shape0 shape1 shape2 : list Z) : checked :=
  match shape0, shape1, shape2 with
  | _ :: _, _ :: _, _ :: _ => check_sizes shape0 shape1 shape2
  | _, _, _ => Refused
  end.
(** forward_impl (clip_grad_by_value.cpp:49-57). *)
Definition clip_forward (x : list Qc) : list Qc := map (fun v => v) x.
(** clip_grad_by_value_backward_cpu (clip_grad_by_value.cpp:59-79). *)
Definition clipped (dy low high : Qc) : Qc := if less high dy then high else if less dy low then low else dy.
Fixpoint clip_backward (accum : bool) (dx dy low high : list Qc) : option (list Qc) :=
  match dx, dy, low, high with
  | a :: dx, g :: dy, l :: low, h :: high =>
      option_map (cons ((if accum then a else 0) + clipped g l h)) (clip_backward accum dx dy low high)
  | [], [], _, _ => Some []
  | _, _, _, _ => None
  end.
(** backward_impl (clip_grad_by_value.cpp:81-108): the gradients of the three inputs. *)
Definition backward (propagate accum : nat -> bool) (dx dlow dhigh dy low high : list Qc) : option (list Qc * list Qc * list Qc) :=
  if negb (propagate 0%nat) then Some (dx, dlow, dhigh) else
  let other i d := if propagate i && negb (accum i) then map (fun _ => 0) d else d in
  option_map (fun dx => (dx, other 1%nat dlow, other 2%nat dhigh)) (clip_backward (accum 0%nat) dx dy low high).
