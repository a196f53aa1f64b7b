(** Rectifiers with parameters: values and gradients. *)
From Coq Require Import List ZArith Lia Bool Reals Lra.
From Verif Require Import NdModel NdSpec NdProofs IdxModel IdxSpec IdxProofs1 IdxProofs2 IdxProofs3 IdxProofs6 JoinModel JoinSpec JoinProofs JoinProofs2 ScanModel ScanProofs1 ScanProofs4 ReduceProofs1 ConvProofs3 SortProofs3 PoolProofs2 BinModel ActSpec ActProofs1 ActProofs2 ActProofs4 SmSpec SmModel SmProofs1 SmProofs2 SmProofs3.
Import ListNotations.
Local Open Scope list_scope.
Local Open Scope Z_scope.

(** A loop over all elements, each of which is written once. *)
Lemma each_ok n (body : Z -> list R -> option (list R)) (V : Z -> R -> R) : 0 <= n ->
  (forall j y, 0 <= j < n -> rlen y = n -> body j y = put y j (V j (el y j))) ->
  forall y0, rlen y0 = n -> exists y, loop body (upto n) y0 = Some y /\ length y = length y0 /\ forall j, 0 <= j < n -> el y j = V j (el y0 j).
Proof.
  intros A H y0 L. destruct (loop_inv (fun m y => length y = length y0 /\ forall j, 0 <= j < n -> el y j = if j <? m then V j (el y0 j) else el y0 j) body n A) with (s := y0) as (y & E & Ly & V').
  - intros j y Hj (Ly & Vy). assert (Ln : rlen y = n) by (unfold rlen in *; rewrite Ly; exact L). rewrite H by assumption. destruct (rput y j (V j (el y j))) as (y' & E & Ly' & Vy'); [rewrite Ln; exact Hj |]. exists y'. split; [exact E |]. split; [congruence |].
    intros i Hi. rewrite Vy' by lia. destruct (Z.eqb_spec i j) as [-> | NE].
    + rewrite Vy by exact Hj. rewrite Z.ltb_irrefl. destruct (Z.ltb_spec j (j + 1)); [reflexivity | lia].
    + rewrite Vy by exact Hi. destruct (Z.ltb_spec i j), (Z.ltb_spec i (j + 1)); try lia; reflexivity.
  - split; [reflexivity |]. intros j Hj. destruct (Z.ltb_spec j 0); [lia | reflexivity].
  - exists y. split; [exact E |]. split; [exact Ly |]. intros j Hj. rewrite V' by exact Hj. destruct (Z.ltb_spec j n); [reflexivity | lia].
Qed.

Section prelu.
Variables N W : Z.
Hypothesis PN : 0 <= N.
Hypothesis PW : 0 <= W.
Variables (base_axis : Z) (shape wshape : list Z) (n stride : Z).
Hypothesis SET : prelu_setup base_axis shape wshape = Some (n, stride).
Hypothesis SN : size_from shape 0 = N.
(** Which slope belongs to which element. *)
Variable c : Z -> Z.
Hypothesis SL : forall s, 0 <= s < N -> prelu_slope n stride (size_from wshape 0) s = Some (c s) /\ 0 <= c s < W.

Definition prelu (v a : R) : R := if Rle_dec 0 v then v else (v * a)%R.
Lemma prelu_ok x w y : rlen x = N -> rlen w = W -> rlen y = N -> exists y', prelu_forward base_axis shape wshape x w y = Some y' /\ length y' = length y /\
  forall j, 0 <= j < N -> el y' j = prelu (el x j) (el w (c j)).
Proof using PN SET SN SL.
  intros Lx Lw Ly. unfold prelu_forward. rewrite SET. cbn [obind]. rewrite SN. apply (each_ok N _ (fun j _ => prelu (el x j) (el w (c j)))); try assumption.
  intros j z Hj Lz. rewrite (rget x) by (rewrite Lx; exact Hj). cbn [obind]. destruct (SL j Hj) as (-> & B). cbn [obind]. rewrite (rget w) by (rewrite Lw; exact B). reflexivity.
Qed.
Lemma prelu_back0 accum x w dy dx : rlen x = N -> rlen w = W -> rlen dy = N -> rlen dx = N -> exists dx', prelu_backward0 base_axis shape wshape accum x w dy dx = Some dx' /\ length dx' = length dx /\
  forall j, 0 <= j < N -> el dx' j = ((if accum then el dx j else 0) + (if Rle_dec 0 (el x j) then el dy j else el dy j * el w (c j)))%R.
Proof using PN SET SN SL.
  intros Lx Lw Ldy Ldx. unfold prelu_backward0. rewrite SET. cbn [obind]. rewrite SN. apply (each_ok N _ (fun j old => (if accum then old else 0) + (if Rle_dec 0 (el x j) then el dy j else el dy j * el w (c j)))%R); try assumption.
  intros j z Hj Lz. rewrite (rget x) by (rewrite Lx; exact Hj). cbn [obind]. destruct (SL j Hj) as (-> & B). cbn [obind]. rewrite (rget w) by (rewrite Lw; exact B). cbn [obind]. rewrite (rget dy) by (rewrite Ldy; exact Hj). cbn [obind]. rewrite (rget z) by (rewrite Lz; exact Hj). reflexivity.
Qed.
Lemma prelu_back1 accum x dy dw : rlen x = N -> rlen dy = N -> rlen dw = W -> exists dw', prelu_backward1 base_axis shape wshape accum x dy dw = Some dw' /\ length dw' = length dw /\
  forall q, 0 <= q < W -> el dw' q = ((if accum then el dw q else 0) + rsum N (fun j => el dy j * (if c j =? q then if Rle_dec 0 (el x j) then 0 else el x j else 0)))%R.
Proof using PN SET SN SL.
  intros Lx Ldy Ldw. unfold prelu_backward1. rewrite SET. cbn [obind]. rewrite SN.
  match goal with |- context [loop ?b (upto N) ?s0] => destruct (loop_inv (fun m y => length y = length dw /\ forall q, 0 <= q < W -> el y q = (el s0 q + rsum m (fun j => el dy j * (if c j =? q then if Rle_dec 0 (el x j) then 0 else el x j else 0)))%R) b N PN) with (s := s0) as (y & E & L & V) end.
  - intros j z Hj (Lz & Vz). rewrite (rget x) by (rewrite Lx; exact Hj). cbn [obind]. destruct (SL j Hj) as (-> & B). cbn [obind].
    destruct (Rlt_dec (el x j) 0) as [Lt | Ge].
    + assert (Rz : 0 <= c j < rlen z) by (unfold rlen in *; rewrite Lz, Ldw; exact B). rewrite (rget z) by exact Rz. cbn [obind]. rewrite (rget dy) by (rewrite Ldy; exact Hj). cbn [obind].
      destruct (rput z (c j) (el z (c j) + el dy j * el x j)%R Rz) as (z' & Ez & Lz' & Vz'). exists z'. split; [exact Ez |]. split; [congruence |]. intros q Hq. rewrite Vz', rsum_S by lia. rewrite (Z.eqb_sym (c j) q). destruct (Z.eqb_spec q (c j)) as [-> | NE].
      * rewrite Vz by exact B. destruct (Rle_dec 0 (el x j)); [lra | ring].
      * rewrite Vz by exact Hq. ring.
    + exists z. split; [reflexivity |]. split; [exact Lz |]. intros q Hq. rewrite rsum_S, Vz by lia. destruct (c j =? q); [| ring]. destruct (Rle_dec 0 (el x j)); [ring | lra].
  - split; [apply len_start |]. intros q Hq. rewrite rsum_0. ring.
  - exists y. split; [exact E |]. split; [exact L |]. intros q Hq. rewrite V, el_start by exact Hq. reflexivity.
Qed.
Lemma prelu_slopes a v : exists l, left_slope (fun t => prelu t a) v l /\ right_slope (fun t => prelu t a) v (if Rle_dec 0 v then 1 else a)%R.
Proof using.
  destruct (Rle_dec 0 v) as [Ge | Lt]; [destruct (Req_EM_T v 0) as [-> | NZ] |].
  - exists a. split.
    + apply (left_ext _ (fun t => t * a)%R); [apply left_always; intros t Ht; unfold prelu; destruct (Rle_dec 0 t); [replace t with 0%R by lra; ring | reflexivity] |]. apply lim_left. derive. ring.
    + apply (right_ext _ (fun t => t)); [apply right_always; intros t Ht; unfold prelu; destruct (Rle_dec 0 t); [reflexivity | lra] |]. apply lim_right, derivable_pt_lim_id.
  - exists 1%R. assert (D : derivable_pt_lim (fun t => prelu t a) v 1%R).
    { apply (lim_near _ (fun t => t)); [| apply derivable_pt_lim_id]. apply (near_above _ _ 0); [lra |]. intros t Ht. unfold prelu. destruct (Rle_dec 0 t); [reflexivity | lra]. }
    split; [apply lim_left | apply lim_right]; exact D.
  - exists a. assert (D : derivable_pt_lim (fun t => prelu t a) v a).
    { apply (lim_near _ (fun t => t * a)%R); [| derive; ring]. apply (near_below _ _ 0); [lra |]. intros t Ht. unfold prelu. destruct (Rle_dec 0 t); [lra | reflexivity]. }
    split; [apply lim_left | apply lim_right]; exact D.
Qed.
(** A function of each element by itself. *)
Lemma each_gradient fwd bwd x (f : Z -> R -> R) (g : Z -> R) : rlen x = N ->
  (forall accum dy dx0, rlen dy = N -> rlen dx0 = N -> exists dx, bwd accum dy dx0 = Some dx /\ length dx = length dx0 /\ forall q, 0 <= q < N -> el dx q = ((if accum : bool then el dx0 q else 0) + el dy q * g q)%R) ->
  (forall u y0, rlen u = N -> rlen y0 = N -> exists y, fwd u y0 = Some y /\ length y = length y0 /\ forall o, 0 <= o < N -> el y o = f o (el u o)) ->
  (forall q, 0 <= q < N -> (exists l, left_slope (f q) (el x q) l) /\ right_slope (f q) (el x q) (g q)) ->
  rgradient N N fwd bwd x.
Proof using PN.
  intros Lx BW FW SLP.
  assert (CH : exists l : Z -> R, forall q, 0 <= q < N -> left_slope (f q) (el x q) (l q)).
  { assert (C : forall m : nat, Z.of_nat m <= N -> exists l : Z -> R, forall q, 0 <= q < Z.of_nat m -> left_slope (f q) (el x q) (l q)).
    { induction m as [| m IH]; intros Hm; [exists (fun _ => 0%R); lia |]. destruct IH as (l & Hl); [lia |]. destruct (SLP (Z.of_nat m) ltac:(lia)) as ((l0 & H0) & _).
      exists (fun q => if q =? Z.of_nat m then l0 else l q). intros q Hq. destruct (Z.eqb_spec q (Z.of_nat m)) as [-> |]; [exact H0 | apply Hl; lia]. }
    destruct (C (Z.to_nat N) ltac:(lia)) as (l & Hl). exists l. intros q Hq. apply Hl. lia. }
  destruct CH as (l & Hl).
  apply (rgradient_of N N fwd bwd x (fun u o => f o (u o)) (fun q o => if o =? q then l q else 0)%R (fun q o => if o =? q then g q else 0)%R (fun dy q => el dy q * g q)%R); try assumption.
  - intros u v o Ho E. rewrite E by exact Ho. reflexivity.
  - intros q o Hq Ho. destruct (Z.eqb_spec o q) as [-> |]; [apply Hl; exact Hq | apply left_const].
  - intros q o Hq Ho. destruct (Z.eqb_spec o q) as [-> |]; [apply SLP; exact Hq | apply right_const].
  - intros dy q Ldy Hq. cbv zeta. match goal with |- (Rmin ?a ?b <= ?g <= _)%R => assert (EG : b = g) end.
    { rewrite (rsum_only N _ q Hq); [rewrite Z.eqb_refl; reflexivity |]. intros o _ NE. apply Z.eqb_neq in NE. rewrite NE. ring. }
    rewrite EG. split; [apply Rmin_r | apply Rmax_r].
Qed.
Lemma prelu_gradient0 x w : rlen x = N -> rlen w = W ->
  rgradient N N (fun x y => prelu_forward base_axis shape wshape x w y) (fun accum dy dx => prelu_backward0 base_axis shape wshape accum x w dy dx) x.
Proof using PN SET SN SL.
  intros Lx Lw. apply (each_gradient _ _ x (fun q t => prelu t (el w (c q))) (fun q => if Rle_dec 0 (el x q) then 1 else el w (c q))%R Lx).
  - intros accum dy dx0 Ldy Ldx. destruct (prelu_back0 accum x w dy dx0 Lx Lw Ldy Ldx) as (dx & E & L & V). exists dx. split; [exact E |]. split; [exact L |]. intros q Hq. rewrite V by exact Hq. destruct (Rle_dec 0 (el x q)); ring.
  - intros u y0 Lu Ly0. apply prelu_ok; assumption.
  - intros q Hq. destruct (prelu_slopes (el w (c q)) (el x q)) as (l & A & B). split; [exists l; exact A | exact B].
Qed.
Lemma prelu_gradient1 x w : rlen x = N -> rlen w = W ->
  rgradient W N (fun w y => prelu_forward base_axis shape wshape x w y) (fun accum dy dw => prelu_backward1 base_axis shape wshape accum x dy dw) w.
Proof using PN PW SET SN SL.
  intros Lx Lw. apply (rgradient_by W N _ _ w (fun u j => prelu (el x j) (u (c j))) (fun q j => if c j =? q then if Rle_dec 0 (el x j) then 0 else el x j else 0)%R); try assumption.
  - intros accum dy dw0 Ldy Ldw. apply prelu_back1; assumption.
  - intros u y0 Lu Ly0. apply prelu_ok; assumption.
  - intros u v j Hj E. cbv beta. rewrite (E (c j)) by (destruct (SL j Hj); assumption). reflexivity.
  - intros q j Hq Hj. unfold prelu. destruct (Z.eqb_spec (c j) q) as [E |].
    + destruct (Rle_dec 0 (el x j)); [apply derivable_pt_lim_const | derive; ring].
    + apply derivable_pt_lim_const.
Qed.
End prelu.

(** ** Two functions of each element *)
Section halves.
Variables s0 s1 : Z.
Hypothesis P0 : 0 <= s0.
Hypothesis P1 : 0 <= s1.
Variables (axis : Z) (shape out : list Z).
Hypothesis SET : crelu_setup axis shape = Some (out, s0, s1).
Local Notation P := (at3 2 s0).
Variables f g : R -> R.
Definition half (k : Z) : R -> R := if k =? 0 then f else g.
Lemma halves_ok x y : rlen x = s1 * s0 -> rlen y = s1 * 2 * s0 -> exists y', halves_forward f g axis shape x y = Some y' /\ length y' = length y /\
  forall o k i, 0 <= o < s1 -> 0 <= k < 2 -> 0 <= i < s0 -> el y' (P o k i) = half k (el x (o * s0 + i)).
Proof using P0 P1 SET.
  intros Lx Ly. unfold halves_forward. rewrite SET. cbn [obind]. apply (pairs_ok s1 2 s0 _ (fun o k i _ => half k (el x (o * s0 + i)))); try assumption; [lia |].
  intros o i z Ho Hi Lz. rewrite (rget x) by (rewrite Lx; apply jrange; assumption). cbn [obind].
  replace (o * s0 * 2 + i) with (P o 0 i) by (unfold at3; ring). replace (o * s0 * 2 + s0 + i) with (P o 1 i) by (unfold at3; ring).
  destruct (rput z (P o 0 i) (f (el x (o * s0 + i)))) as (z1 & -> & L1 & V1); [rewrite Lz; apply at3_range; lia |]. cbn [obind].
  destruct (rput z1 (P o 1 i) (g (el x (o * s0 + i)))) as (z2 & -> & L2 & V2); [unfold rlen in *; rewrite L1, Lz; apply at3_range; lia |].
  exists z2. split; [reflexivity |]. split; [congruence |]. assert (NE : P o 0 i <> P o 1 i) by (unfold at3; lia). assert (R0 : 0 <= P o 0 i) by (apply (at3_range s1); lia). assert (R1 : 0 <= P o 1 i) by (apply (at3_range s1); lia). split.
  - intros k Hk. assert (Ck : k = 0 \/ k = 1) by lia. destruct Ck as [-> | ->]; unfold half; cbn [Z.eqb].
    + rewrite V2 by exact R0. destruct (Z.eqb_spec (P o 0 i) (P o 1 i)); [lia |]. rewrite V1, Z.eqb_refl by exact R0. reflexivity.
    + rewrite V2, Z.eqb_refl by exact R1. reflexivity.
  - intros q Hq Nq. rewrite V2, V1 by exact Hq. destruct (Z.eqb_spec q (P o 1 i)) as [-> |]; [exfalso; apply (Nq 1); [lia | reflexivity] |]. destruct (Z.eqb_spec q (P o 0 i)) as [-> |]; [exfalso; apply (Nq 0); [lia | reflexivity] | reflexivity].
Qed.
Variable d : R -> R -> R -> R.
Lemma halves_back accum x dy dx : rlen x = s1 * s0 -> rlen dy = s1 * 2 * s0 -> rlen dx = s1 * s0 -> exists dx', halves_backward d axis shape accum x dy dx = Some dx' /\ length dx' = length dx /\
  forall q, 0 <= q < s1 * s0 -> el dx' q = ((if accum then el dx q else 0) + d (el x q) (el dy (P (q / s0) 0 (q mod s0))) (el dy (P (q / s0) 1 (q mod s0))))%R.
Proof using P0 P1 SET.
  intros Lx Ldy Ldx. unfold halves_backward. rewrite SET. cbn [obind]. apply (cells_ok s1 s0 _ (fun q old => (if accum then old else 0) + d (el x q) (el dy (P (q / s0) 0 (q mod s0))) (el dy (P (q / s0) 1 (q mod s0))))%R); try assumption.
  intros o i z Ho Hi Lz. pose proof (jrange s1 s0 o i Ho Hi) as J. destruct (jparts s0 o i Hi) as (-> & ->). replace (o * s0 * 2 + i) with (P o 0 i) by (unfold at3; ring). replace (o * s0 * 2 + s0 + i) with (P o 1 i) by (unfold at3; ring).
  rewrite (rget x) by (rewrite Lx; exact J). cbn [obind]. rewrite (rget dy) by (rewrite Ldy; apply at3_range; lia). cbn [obind]. rewrite (rget dy) by (rewrite Ldy; apply at3_range; lia). cbn [obind]. rewrite (rget z) by (rewrite Lz; exact J). reflexivity.
Qed.
(** The gradient is right if it is between the slopes of the weighted sum of both functions. *)
Lemma halves_gradient x (fl fr gl gr : R -> R) : rlen x = s1 * s0 ->
  (forall q, 0 <= q < s1 * s0 -> left_slope f (el x q) (fl (el x q)) /\ right_slope f (el x q) (fr (el x q)) /\ left_slope g (el x q) (gl (el x q)) /\ right_slope g (el x q) (gr (el x q))) ->
  (forall q a b, 0 <= q < s1 * s0 -> let l := (a * fl (el x q) + b * gl (el x q))%R in let r := (a * fr (el x q) + b * gr (el x q))%R in (Rmin l r <= d (el x q) a b <= Rmax l r)%R) ->
  rgradient (s1 * s0) (s1 * 2 * s0) (fun x y => halves_forward f g axis shape x y) (fun accum dy dx => halves_backward d axis shape accum x dy dx) x.
Proof using P0 P1 SET.
  intros Lx SLP BT.
  set (own := fun o => p0 2 s0 o * s0 + p2 s0 o).
  set (S2 := fun (hl gl' : R -> R) q o => if own o =? q then if p1 2 s0 o =? 0 then hl (el x q) else gl' (el x q) else 0%R).
  assert (SUM : forall (hl gl' : R -> R) dy q, 0 <= q < s1 * s0 -> rsum (s1 * 2 * s0) (fun o => el dy o * S2 hl gl' q o)%R = (el dy (P (q / s0) 0 (q mod s0)) * hl (el x q) + el dy (P (q / s0) 1 (q mod s0)) * gl' (el x q))%R).
  { intros hl gl' dy q Hq. destruct (jsplit s1 s0 q P1 Hq) as (A & B & Q). rewrite (rsum_line s1 2 s0 _ (q / s0) (q mod s0)); [| exact A | lia | exact B |].
    - rewrite (rsum_S 1), (rsum_S 0), rsum_0 by lia. cbn [Z.add]. unfold S2, own. destruct (parts 2 s0 ltac:(lia) (q / s0) 0 (q mod s0) ltac:(lia) B) as (-> & -> & ->). destruct (parts 2 s0 ltac:(lia) (q / s0) 1 (q mod s0) ltac:(lia) B) as (-> & -> & ->). rewrite <- Q, !Z.eqb_refl. cbn [Z.eqb]. ring.
    - intros o k i Ho Hk Hi NE. unfold S2, own. destruct (parts 2 s0 ltac:(lia) o k i Hk Hi) as (-> & -> & ->). destruct (Z.eqb_spec (o * s0 + i) q) as [E |]; [| ring]. exfalso. rewrite <- E in NE. destruct (jparts s0 o i Hi) as (E1 & E2). lia. }
  assert (OWN : forall o, 0 <= o < s1 * 2 * s0 -> 0 <= own o < s1 * s0 /\ 0 <= p0 2 s0 o < s1 /\ 0 <= p1 2 s0 o < 2 /\ 0 <= p2 s0 o < s0 /\ P (p0 2 s0 o) (p1 2 s0 o) (p2 s0 o) = o).
  { intros o Ho. destruct (whole s1 2 s0 P1 ltac:(lia) P0 o Ho) as (A & B & C & E). split; [apply jrange; assumption | auto]. }
  apply (rgradient_of (s1 * s0) (s1 * 2 * s0) _ _ x (fun u o => half (p1 2 s0 o) (u (own o))) (S2 fl gl) (S2 fr gr) (fun dy q => d (el x q) (el dy (P (q / s0) 0 (q mod s0))) (el dy (P (q / s0) 1 (q mod s0))))); try assumption; try nia.
  - intros accum dy dx0 Ldy Ldx. apply halves_back; assumption.
  - intros u y0 Lu Ly0. destruct (halves_ok u y0 Lu Ly0) as (y & E & L & V). exists y. split; [exact E |]. split; [exact L |]. intros o Ho. destruct (OWN o Ho) as (_ & A & B & C & Eo). rewrite <- Eo at 1. rewrite V by assumption. reflexivity.
  - intros u v o Ho E. rewrite E by (apply OWN; exact Ho). reflexivity.
  - intros q o Hq Ho. unfold S2, half. destruct (SLP q Hq) as (A & _ & B & _). destruct (Z.eqb_spec (own o) q) as [E |]; [| apply left_const]. destruct (p1 2 s0 o =? 0); assumption.
  - intros q o Hq Ho. unfold S2, half. destruct (SLP q Hq) as (_ & A & _ & B). destruct (Z.eqb_spec (own o) q) as [E |]; [| apply right_const]. destruct (p1 2 s0 o =? 0); assumption.
  - intros dy q Ldy Hq. cbv zeta. rewrite !SUM by exact Hq. apply BT. exact Hq.
Qed.
End halves.

(** The functions of CReLU and CELU. *)
Definition pos_l (v : R) : R := if Rlt_dec 0 v then 1%R else 0%R.
Definition pos_r (v : R) : R := if Rle_dec 0 v then 1%R else 0%R.
Lemma relu_slopes v : left_slope (fun v => Rmax 0 v) v (pos_l v) /\ right_slope (fun v => Rmax 0 v) v (pos_r v).
Proof.
  unfold pos_l, pos_r. destruct (Rlt_dec 0 v) as [Lt | Ge].
  - assert (D : derivable_pt_lim (fun v => Rmax 0 v) v 1%R) by (apply (lim_near _ (fun t => t)); [apply (near_above _ _ 0); [exact Lt |]; intros t Ht; rewrite Rmax_right by lra; reflexivity | apply derivable_pt_lim_id]).
    destruct (Rle_dec 0 v); [| lra]. split; [apply lim_left | apply lim_right]; exact D.
  - destruct (Rle_dec 0 v) as [Ge' | Lt].
    + replace v with 0%R by lra. split.
      * apply (left_ext _ (fun _ => 0%R)); [apply left_always; intros t Ht; rewrite Rmax_left by lra; reflexivity | apply left_const].
      * apply (right_ext _ (fun t => t)); [apply right_always; intros t Ht; rewrite Rmax_right by lra; reflexivity | apply lim_right, derivable_pt_lim_id].
    + assert (D : derivable_pt_lim (fun v => Rmax 0 v) v 0%R) by (apply (lim_near _ (fun t => 0%R)); [apply (near_below _ _ 0); [lra |]; intros t Ht; rewrite Rmax_left by lra; reflexivity | apply derivable_pt_lim_const]).
      split; [apply lim_left | apply lim_right]; exact D.
Qed.
Lemma neg_relu_slopes v : left_slope (fun v => Rmax 0 (-1 * v)) v (pos_l v - 1)%R /\ right_slope (fun v => Rmax 0 (-1 * v)) v (pos_r v - 1)%R.
Proof.
  unfold pos_l, pos_r. destruct (Rlt_dec 0 v) as [Lt | Ge].
  - assert (D : derivable_pt_lim (fun v => Rmax 0 (-1 * v)) v (1 - 1)%R) by (rewrite Rminus_diag_eq by reflexivity; apply (lim_near _ (fun t => 0%R)); [apply (near_above _ _ 0); [exact Lt |]; intros t Ht; rewrite Rmax_left by lra; reflexivity | apply derivable_pt_lim_const]).
    destruct (Rle_dec 0 v); [| lra]. split; [apply lim_left | apply lim_right]; exact D.
  - assert (DN : forall v, derivable_pt_lim (fun t => -1 * t)%R v (0 - 1)%R) by (intros; derive; ring). destruct (Rle_dec 0 v) as [Ge' | Lt].
    + replace v with 0%R by lra. split.
      * apply (left_ext _ (fun t => -1 * t)%R); [apply left_always; intros t Ht; rewrite Rmax_right by lra; reflexivity | apply lim_left, DN].
      * rewrite Rminus_diag_eq by reflexivity. apply (right_ext _ (fun t => 0)%R); [apply right_always; intros t Ht; rewrite Rmax_left by lra; reflexivity | apply right_const].
    + assert (D : derivable_pt_lim (fun v => Rmax 0 (-1 * v)) v (0 - 1)%R) by (apply (lim_near _ (fun t => -1 * t)%R); [apply (near_below _ _ 0); [lra |]; intros t Ht; rewrite Rmax_right by lra; reflexivity | apply DN]).
      split; [apply lim_left | apply lim_right]; exact D.
Qed.
(** CELU. *)
Definition elu (alpha v : R) : R := if Rle_dec 0 v then v else (alpha * (exp v - 1))%R.
Definition nelu (alpha v : R) : R := if Rle_dec v 0 then (- v)%R else (alpha * (exp (- v) - 1))%R.
Definition elu_l (alpha v : R) : R := if Rlt_dec 0 v then 1%R else (alpha * exp v)%R.
Definition elu_r (alpha v : R) : R := if Rle_dec 0 v then 1%R else (alpha * exp v)%R.
Definition nelu_l (alpha v : R) : R := if Rle_dec v 0 then (-1)%R else (- alpha * exp (- v))%R.
Definition nelu_r (alpha v : R) : R := if Rlt_dec v 0 then (-1)%R else (- alpha * exp (- v))%R.
Lemma elu_slopes alpha v : left_slope (elu alpha) v (elu_l alpha v) /\ right_slope (elu alpha) v (elu_r alpha v).
Proof.
  assert (DE : forall v, derivable_pt_lim (fun t => alpha * (exp t - 1))%R v (alpha * exp v)%R) by (intros; derive; ring).
  unfold elu_l, elu_r. destruct (Rlt_dec 0 v) as [Lt | Ge].
  - assert (D : derivable_pt_lim (elu alpha) v 1%R) by (apply (lim_near _ (fun t => t)); [apply (near_above _ _ 0); [exact Lt |]; intros t Ht; unfold elu; destruct (Rle_dec 0 t); [reflexivity | lra] | apply derivable_pt_lim_id]).
    destruct (Rle_dec 0 v); [| lra]. split; [apply lim_left | apply lim_right]; exact D.
  - destruct (Rle_dec 0 v) as [Ge' | Lt].
    + replace v with 0%R by lra. split.
      * apply (left_ext _ (fun t => alpha * (exp t - 1))%R); [apply left_always; intros t Ht; unfold elu; destruct (Rle_dec 0 t); [replace t with 0%R by lra; rewrite exp_0; ring | reflexivity] | apply lim_left, DE].
      * apply (right_ext _ (fun t => t)); [apply right_always; intros t Ht; unfold elu; destruct (Rle_dec 0 t); [reflexivity | lra] | apply lim_right, derivable_pt_lim_id].
    + assert (D : derivable_pt_lim (elu alpha) v (alpha * exp v)%R) by (apply (lim_near _ (fun t => alpha * (exp t - 1))%R); [apply (near_below _ _ 0); [lra |]; intros t Ht; unfold elu; destruct (Rle_dec 0 t); [lra | reflexivity] | apply DE]).
      split; [apply lim_left | apply lim_right]; exact D.
Qed.
Lemma nelu_slopes alpha v : left_slope (nelu alpha) v (nelu_l alpha v) /\ right_slope (nelu alpha) v (nelu_r alpha v).
Proof.
  assert (DE : forall v, derivable_pt_lim (fun t => alpha * (exp (- t) - 1))%R v (- alpha * exp (- v))%R) by (intros; derive; ring).
  assert (DN : forall v, derivable_pt_lim (fun t => - t)%R v (-1)%R) by (intros; derive; ring).
  unfold nelu_l, nelu_r. destruct (Rlt_dec v 0) as [Lt | Ge].
  - assert (D : derivable_pt_lim (nelu alpha) v (-1)%R) by (apply (lim_near _ (fun t => - t)%R); [apply (near_below _ _ 0); [exact Lt |]; intros t Ht; unfold nelu; destruct (Rle_dec t 0); [reflexivity | lra] | apply DN]).
    destruct (Rle_dec v 0); [| lra]. split; [apply lim_left | apply lim_right]; exact D.
  - destruct (Rle_dec v 0) as [Ge' | Lt].
    + replace v with 0%R by lra. split.
      * apply (left_ext _ (fun t => - t)%R); [apply left_always; intros t Ht; unfold nelu; destruct (Rle_dec t 0); [reflexivity | lra] | apply lim_left, DN].
      * apply (right_ext _ (fun t => alpha * (exp (- t) - 1))%R); [apply right_always; intros t Ht; unfold nelu; destruct (Rle_dec t 0); [replace t with 0%R by lra; rewrite Ropp_0, exp_0; ring | reflexivity] | apply lim_right, DE].
    + assert (D : derivable_pt_lim (nelu alpha) v (- alpha * exp (- v))%R) by (apply (lim_near _ (fun t => alpha * (exp (- t) - 1))%R); [apply (near_above _ _ 0); [lra |]; intros t Ht; unfold nelu; destruct (Rle_dec t 0); [lra | reflexivity] | apply DE]).
      split; [apply lim_left | apply lim_right]; exact D.
Qed.
