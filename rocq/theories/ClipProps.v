(** Properties of clipping of gradients. *)
From Coq Require Import List ZArith Lia Bool QArith Qcanon.
From Verif Require Import ReduceModel FindProofs1 ClipModel.
Import ListNotations.
Local Open Scope list_scope.
Local Open Scope Qc_scope.

(** * C136 *)
Theorem C136_forward : forall x, clip_forward x = x.
Proof. intros x. apply map_id. Qed.
(** The value from low to high nearest to the gradient. *)
Definition limited (g low high v : Qc) : Prop := (high < g -> v = high) /\ (g < low -> v = low) /\ (low <= g -> g <= high -> v = g).
Lemma clipped_ok g low high : low <= high -> limited g low high (clipped g low high) /\ low <= clipped g low high /\ clipped g low high <= high.
Proof.
  intros L. unfold clipped. destruct (less high g) eqn:H; [apply less_true in H | apply less_false in H; destruct (less g low) eqn:K; [apply less_true in K | apply less_false in K]].
  - split; [| split; [exact L | apply Qcle_refl]]. split; [reflexivity |]. split; [intros K | intros _ K]; exfalso; [exact (Qclt_not_le _ _ (Qclt_trans _ _ _ H K) L) | exact (Qclt_not_le _ _ H K)].
  - split; [| split; [apply Qcle_refl | exact L]]. split; [intros N; exfalso; exact (Qclt_not_le _ _ N H) |]. split; [reflexivity |]. intros N. exfalso. exact (Qclt_not_le _ _ K N).
  - split; [| split; [exact K | exact H]]. split; [intros N; exfalso; exact (Qclt_not_le _ _ N H) |]. split; [intros N; exfalso; exact (Qclt_not_le _ _ N K) | reflexivity].
Qed.
Theorem C136_clip : forall accum dx dy low high, length dx = length dy -> length low = length dy -> length high = length dy ->
  exists r, clip_backward accum dx dy low high = Some r /\ length r = length dy /\
  forall k, (k < length dy)%nat -> nth k low 0 <= nth k high 0 -> exists v, nth k r 0 = (if accum then nth k dx 0 else 0) + v /\ limited (nth k dy 0) (nth k low 0) (nth k high 0) v /\ nth k low 0 <= v /\ v <= nth k high 0.
Proof.
  induction dx as [| a dx IH]; intros [| g dy] [| l low] [| h high] L1 L2 L3; try discriminate; cbn [clip_backward].
  - exists []. split; [reflexivity |]. split; [reflexivity |]. intros k K. cbn in K. lia.
  - cbn [length] in *. destruct (IH dy low high) as (r & E & LR & H); try lia. rewrite E. eexists. split; [reflexivity |]. split; [cbn [length]; congruence |].
    intros [| k] K LE; cbn [nth] in *; [| apply H; [lia | exact LE]]. exists (clipped g l h). split; [reflexivity |]. apply clipped_ok. exact LE.
Qed.
(** The gradients of the bounds are set to zero if they are wanted and not added to, or stay. *)
Theorem C136_bounds : forall propagate accum dx dlow dhigh dy low high a b c, propagate 0%nat = true -> backward propagate accum dx dlow dhigh dy low high = Some (a, b, c) ->
  clip_backward (accum 0%nat) dx dy low high = Some a /\
  b = (if propagate 1%nat && negb (accum 1%nat) then map (fun _ => 0) dlow else dlow) /\ c = (if propagate 2%nat && negb (accum 2%nat) then map (fun _ => 0) dhigh else dhigh).
Proof.
  intros propagate accum dx dlow dhigh dy low high a b c P E. unfold backward in E. rewrite P in E. cbn [negb] in E. destruct (clip_backward _ dx dy low high); [| discriminate]. injection E as <- <- <-. auto.
Qed.
(** Refuted: not if the gradient of the first input is not wanted. *)
Theorem C136_bounds_refuted : forall propagate accum dx dlow dhigh dy low high, propagate 0%nat = false -> backward propagate accum dx dlow dhigh dy low high = Some (dx, dlow, dhigh).
Proof. intros propagate accum dx dlow dhigh dy low high P. unfold backward. rewrite P. reflexivity. Qed.
(** Equal shapes are accepted, if there are axes and no size is 0. *)
Lemma sizes_same s : Forall (fun a => (a <> 0)%Z) s -> check_sizes s s s = Accepted.
Proof. induction s as [| a s IH]; intros F; [reflexivity |]. inversion F; subst. cbn [check_sizes]. unfold positive_size. destruct (Z.eqb_spec a 0); [contradiction |]. cbn [negb]. apply IH. assumption. Qed.
Theorem C136_accepted : forall s, s <> [] -> Forall (fun a => (a <> 0)%Z) s -> clip_setup s s s = Accepted.
Proof. intros [| a s] N F; [contradiction |]. change (check_sizes (a :: s) (a :: s) (a :: s) = Accepted). apply sizes_same. exact F. Qed.
(** Refuted: that shapes have to be equal.  Any sizes above 0 will do, so that the bounds are read
    past their end; with fewer axes the shape is read past its end; and scalars are refused. *)
Theorem C136_shapes_refuted : clip_setup [2]%Z [1]%Z [3; 4]%Z = Accepted /\ (forall accum dx0 dx1 g0 g1 l high, clip_backward accum [dx0; dx1] [g0; g1] [l] high = None) /\
  clip_setup [2; 2]%Z [2]%Z [2; 2]%Z = Undefined /\ clip_setup [] [] [] = Refused.
Proof. repeat split. intros accum dx0 dx1 g0 g1 l [| h [| h1 high]]; reflexivity. Qed.
(** What is accepted in general. *)
Theorem C136_setup : forall s0 s1 s2, clip_setup s0 s1 s2 = Accepted <->
  s0 <> [] /\ (length s0 <= length s1)%nat /\ (length s0 <= length s2)%nat /\ forall i, (i < length s0)%nat -> (nth i s0 0 <> 0 /\ nth i s1 0 <> 0 /\ nth i s2 0 <> 0)%Z.
Proof.
  assert (H : forall s0 s1 s2, check_sizes s0 s1 s2 = Accepted <-> (length s0 <= length s1)%nat /\ (length s0 <= length s2)%nat /\ forall i, (i < length s0)%nat -> (nth i s0 0 <> 0 /\ nth i s1 0 <> 0 /\ nth i s2 0 <> 0)%Z).
  { unfold positive_size. induction s0 as [| a s0 IH]; intros s1 s2; cbn [check_sizes length].
    - split; [intros _; repeat split; lia | reflexivity].
    - unfold positive_size in *. destruct (Z.eqb_spec a 0) as [-> | NA]; cbn [negb]; [split; [discriminate | intros (_ & _ & F); destruct (F 0%nat) as (F0 & _); [lia | exfalso; apply F0; reflexivity]] |].
      destruct s1 as [| b s1]; [split; [discriminate | cbn [length]; lia] |]. destruct (Z.eqb_spec b 0) as [-> | NB]; cbn [negb]; [split; [discriminate | intros (_ & _ & F); destruct (F 0%nat) as (_ & F0 & _); [lia | exfalso; apply F0; reflexivity]] |].
      destruct s2 as [| c s2]; [split; [discriminate | cbn [length]; lia] |]. destruct (Z.eqb_spec c 0) as [-> | NC]; cbn [negb]; [split; [discriminate | intros (_ & _ & F); destruct (F 0%nat) as (_ & _ & F0); [lia | exfalso; apply F0; reflexivity]] |].
      rewrite IH. cbn [length]. split.
      + intros (L1 & L2 & F). split; [lia |]. split; [lia |]. intros [| i] I; cbn [nth]; [auto | apply F; lia].
      + intros (L1 & L2 & F). split; [lia |]. split; [lia |]. intros i I. apply (F (S i)). lia. }
  intros [| a s0] s1 s2; [split; [discriminate | intros (N & _); contradiction] |].
  unfold clip_setup. destruct s1 as [| b s1]; [split; [discriminate | cbn [length]; lia] |]. destruct s2 as [| c s2]; [split; [discriminate | cbn [length]; lia] |]. rewrite H. split; [intros R; split; [discriminate | exact R] | intros (_ & R); exact R].
Qed.
Definition k (v : Z) : Qc := Q2Qc (inject_Z v).
Example clip_works : option_map (map this) (clip_backward true [k 1; k 1; k 1] [k 5; k (-5); k 0] [k (-1); k (-2); k (-3)] [k 1; k 2; k 3]) = Some (map this [k 2; k (-1); k 1]).
Proof. vm_compute. reflexivity. Qed.
Print Assumptions C136_clip.
Print Assumptions C136_setup.
