(** Patch correlation: gradients. *)
From Coq Require Import List ZArith Lia Bool QArith Qcanon.
From Verif Require Import NdSpec NdProofs IdxModel IdxProofs1 IdxProofs2 IdxProofs3 JoinModel JoinProofs ScanSpec ScanModel ScanProofs1 ReduceModel ReduceProofs1 ConvModel ConvSpec ConvProofs1 ConvProofs3 ConvProofs5 ConvProofs7 PoolProofs3 PoolProofs5 ItpModel ItpProofs2 PcModel PcSpec PcProofs1.
Import ListNotations.
Local Open Scope list_scope.
Local Open Scope Z_scope.

(** A gradient, if there is one, has [n] elements. *)
Definition fits (n : Z) (o : option (list Qc)) : Prop := match o with Some a => qlen a = n | None => True end.
(** The gradient grew by something whose inner product with [u] is [d u]. *)
Definition grown (o o' : option (list Qc)) (d : list Qc -> Qc) : Prop :=
  match o, o' with
  | Some a, Some a' => length a' = length a /\ forall u, qinner u a' = (qinner u a + d u)%Qc
  | None, None => True
  | _, _ => False
  end.
Lemma grown_fits n o o' d : grown o o' d -> fits n o -> fits n o'.
Proof. destruct o, o'; cbn; try tauto. unfold qlen. intros (L & _) E. congruence. Qed.
Lemma grown_0 o d : (forall u, d u = 0%Qc) -> grown o o d.
Proof. intros D. destruct o; cbn; [| exact I]. split; [reflexivity |]. intros u. rewrite D. ring. Qed.
Lemma grown_ext o o' d e : (forall u, d u = e u) -> grown o o' d -> grown o o' e.
Proof. intros D. destruct o, o'; cbn; try tauto. intros (L & Q). split; [exact L |]. intros u. rewrite Q, D. reflexivity. Qed.
Lemma grown_trans a b c d e h : grown a b d -> grown b c e -> (forall u, h u = d u + e u)%Qc -> grown a c h.
Proof. intros A B E. destruct a, b, c; cbn in *; try tauto. destruct A as (L1 & Q1), B as (L2 & Q2). split; [congruence |]. intros u. rewrite Q2, Q1, E. ring. Qed.
Definition pair_ok (n : Z) (step : option (list Qc) * option (list Qc) -> option (option (list Qc) * option (list Qc))) (d1 d2 : list Qc -> Qc) : Prop :=
  forall a b, fits n a -> fits n b -> exists a' b', step (a, b) = Some (a', b') /\ grown a a' d1 /\ grown b b' d2.
Lemma pair_loop {T} n (step : T -> option (list Qc) * option (list Qc) -> option (option (list Qc) * option (list Qc))) d1 d2 L :
  (forall i, In i L -> pair_ok n (step i) (fun u => d1 u i) (fun u => d2 u i)) -> pair_ok n (loop step L) (fun u => total L (d1 u)) (fun u => total L (d2 u)).
Proof.
  induction L as [| i L IH]; intros ST a b A B.
  - exists a, b. split; [reflexivity |]. split; apply grown_0; intros; apply total_nil.
  - destruct (ST i (or_introl eq_refl) a b A B) as (a1 & b1 & E1 & A1 & B1). destruct (IH (fun j J => ST j (or_intror J)) a1 b1) as (a2 & b2 & E2 & A2 & B2); [eapply grown_fits; eassumption .. |].
    exists a2, b2. cbn [loop]. rewrite E1. cbn [obind]. split; [exact E2 |].
    split; [apply (grown_trans _ _ _ _ _ _ A1 A2) | apply (grown_trans _ _ _ _ _ _ B1 B2)]; intros u; apply total_cons.
Qed.
Lemma pair_ext n s d1 d2 e1 e2 : pair_ok n s d1 d2 -> (forall u, d1 u = e1 u) -> (forall u, d2 u = e2 u) -> pair_ok n s e1 e2.
Proof. intros P E1 E2 a b A B. destruct (P a b A B) as (a' & b' & E & GA & GB). exists a', b'. split; [exact E |]. split; eapply grown_ext; eassumption. Qed.
Lemma pair_0 n : pair_ok n (fun s => Some s) (fun _ => 0%Qc) (fun _ => 0%Qc).
Proof. intros a b _ _. exists a, b. split; [reflexivity |]. split; apply grown_0; reflexivity. Qed.
Lemma on_grad_add n o p v : fits n o -> within n p -> exists o', on_grad (fun d => add_at d p v) o = Some o' /\ grown o o' (fun u => qat u p * v)%Qc.
Proof.
  intros F P. destruct o as [a |]; cbn [on_grad]; [| exists None; split; [reflexivity | exact I]]. cbn in F. destruct (add_at_ok a p v) as (a' & E & L & Q); [rewrite F; exact P |].
  rewrite E. exists (Some a'). split; [reflexivity |]. split; assumption.
Qed.

Section Back.
Variables (f : patch_corr) (N H W C : Z).
Hypothesis NN : 0 <= N /\ 0 <= H /\ 0 <= W /\ 0 <= C /\ 0 <= patch_h f /\ 0 <= patch_w f.
Lemma each_pair_back in1 in2 g n y x yy xx : qlen in1 = M N H W C -> qlen in2 = M N H W C -> 0 <= n < N ->
  pair_ok (M N H W C) (each_pair f H W C n y x yy xx (fun i1 i2 '(in1_grad, in2_grad) =>
      obind (on_grad (fun d => obind (get in2 i2) (fun b => add_at d i1 (b * g)%Qc)) in1_grad) (fun in1_grad =>
      obind (on_grad (fun d => obind (get in1 i1) (fun a => add_at d i2 (a * g)%Qc)) in2_grad) (fun in2_grad =>
      Some (in1_grad, in2_grad)))))
    (fun u => pairs f H W C (fun p q => qat u p * (qat in2 q * g))%Qc n y x yy xx) (fun u => pairs f H W C (fun p q => qat u q * (qat in1 p * g))%Qc n y x yy xx).
Proof using NN.
  intros L1 L2 B. unfold each_pair, pairs.
  eapply pair_ext; [apply (pair_loop _ _
    (fun u ky => if rows_in H y yy ky then zsum (patch_w f) (fun kx => if cols_in W x xx kx then zsum C (fun c => qat u (flat H W C n (y + ky) (x + kx) + c) * (qat in2 (flat H W C n (y + yy + ky) (x + xx + kx) + c) * g))%Qc else 0%Qc) else 0%Qc)
    (fun u ky => if rows_in H y yy ky then zsum (patch_w f) (fun kx => if cols_in W x xx kx then zsum C (fun c => qat u (flat H W C n (y + yy + ky) (x + xx + kx) + c) * (qat in1 (flat H W C n (y + ky) (x + kx) + c) * g))%Qc else 0%Qc) else 0%Qc)) | intros u; apply total_upto ..].
  intros ky K. apply upto_in in K. fold (rows_in H y yy ky). destruct (rows_in H y yy ky) eqn:R; [| apply pair_0]. apply rows_true in R.
  eapply pair_ext; [apply (pair_loop _ _
    (fun u kx => if cols_in W x xx kx then zsum C (fun c => qat u (flat H W C n (y + ky) (x + kx) + c) * (qat in2 (flat H W C n (y + yy + ky) (x + xx + kx) + c) * g))%Qc else 0%Qc)
    (fun u kx => if cols_in W x xx kx then zsum C (fun c => qat u (flat H W C n (y + yy + ky) (x + xx + kx) + c) * (qat in1 (flat H W C n (y + ky) (x + kx) + c) * g))%Qc else 0%Qc)) | intros u; apply total_upto ..].
  intros kx Kx. apply upto_in in Kx. fold (cols_in W x xx kx). destruct (cols_in W x xx kx) eqn:Cc; [| apply pair_0]. apply cols_true in Cc.
  eapply pair_ext; [apply (pair_loop _ _
    (fun u c => qat u (flat H W C n (y + ky) (x + kx) + c) * (qat in2 (flat H W C n (y + yy + ky) (x + xx + kx) + c) * g))%Qc
    (fun u c => qat u (flat H W C n (y + yy + ky) (x + xx + kx) + c) * (qat in1 (flat H W C n (y + ky) (x + kx) + c) * g))%Qc) | intros u; apply total_upto ..].
  intros c Hc. apply upto_in in Hc. change (n * H * W * C + (y + ky) * W * C + (x + kx) * C) with (flat H W C n (y + ky) (x + kx)). change (n * H * W * C + (y + yy + ky) * W * C + (x + xx + kx) * C) with (flat H W C n (y + yy + ky) (x + xx + kx)).
  assert (W1 : within (M N H W C) (flat H W C n (y + ky) (x + kx) + c)) by (apply (flat_within f); lia).
  assert (W2 : within (M N H W C) (flat H W C n (y + yy + ky) (x + xx + kx) + c)) by (apply (flat_within f); lia).
  intros a b A Bf. rewrite !get_ok by (rewrite ?L1, ?L2; assumption). cbn [obind].
  destruct (on_grad_add _ a _ (qat in2 (flat H W C n (y + yy + ky) (x + xx + kx) + c) * g)%Qc A W1) as (a' & E1 & G1). rewrite E1. cbn [obind].
  destruct (on_grad_add _ b _ (qat in1 (flat H W C n (y + ky) (x + kx) + c) * g)%Qc Bf W2) as (b' & E2 & G2). rewrite E2. cbn [obind].
  exists a', b'. split; [reflexivity |]. split; assumption.
Qed.

Variables (oh ow och ocw : Z).
Hypothesis steps_pos : 0 < patch_step_h f /\ 0 < patch_step_w f /\ 0 < shift_step_h f /\ 0 < shift_step_w f.
Hypothesis eoch : Z.quot (2 * shift_h f + shift_step_h f) (shift_step_h f) = och.
Hypothesis eocw : Z.quot (2 * shift_w f + shift_step_w f) (shift_step_w f) = ocw.
Hypothesis eoh : Z.quot (H + (pad_t f + pad_b f) - patch_h f + patch_step_h f) (patch_step_h f) = oh.
Hypothesis eow : Z.quot (W + (pad_l f + pad_r f) - patch_w f + patch_step_w f) (patch_step_w f) = ow.
Hypothesis nn : nonneg [N; oh; ow; och; ocw].
Let ys := [N; oh; ow; och; ocw].
Lemma inside5 idx : inside idx ys -> exists n i j k l, idx = [n; i; j; k; l] /\ 0 <= n < N /\ 0 <= i < oh /\ 0 <= j < ow /\ 0 <= k < och /\ 0 <= l < ocw.
Proof using.
  unfold ys, inside. intros I. destruct idx as [| n [| i [| j [| k [| l [| ? ?]]]]]]; try (exfalso; inversion I; repeat match goal with h : Forall2 _ _ _ |- _ => inversion h; clear h end; discriminate). exists n, i, j, k, l. split; [reflexivity |].
  repeat match goal with h : Forall2 _ (_ :: _) (_ :: _) |- _ => inversion_clear h end. repeat split; lia.
Qed.
Definition at_place (in1 in2 : list Qc) (idx : list Z) : Qc := place f (pairs f H W C (fun p q => qat in1 p * qat in2 q)%Qc) 0%Qc idx.
Lemma forward_ok in1 in2 y0 : qlen in1 = M N H W C -> qlen in2 = M N H W C -> qlen y0 = size ys ->
  exists y, pc_forward f N H W C in1 in2 y0 = Some y /\ length y = length y0 /\ forall i, inside i ys -> qat y (off i ys) = at_place in1 in2 i.
Proof using NN steps_pos eoch eocw eoh eow nn.
  intros L1 L2 LY. unfold pc_forward. rewrite (each_place_ok f N H W oh ow och ocw) by assumption. fold ys.
  match goal with |- context [loop ?st _ _] => destruct (put_loop ys st (at_place in1 in2) y0) as (y & E & L & V) end; [exact nn | exact LY | | rewrite E; exists y; split; [reflexivity | split; assumption]].
  intros idx s I. destruct (inside5 idx I) as (n & i & j & k & l & -> & Bn & _). cbn [place]. rewrite (value_ok f N) by assumption. reflexivity.
Qed.
Lemma backward_ok in1 in2 gy g1 g2 : qlen in1 = M N H W C -> qlen in2 = M N H W C -> qlen gy = size ys -> fits (M N H W C) (start g1) -> fits (M N H W C) (start g2) ->
  exists a b, pc_backward f N H W C in1 in2 gy g1 g2 = Some (a, b) /\
    grown (start g1) a (fun u => total (indices ys) (fun i => qat gy (off i ys) * at_place u in2 i))%Qc /\
    grown (start g2) b (fun u => total (indices ys) (fun i => qat gy (off i ys) * at_place in1 u i))%Qc.
Proof using NN steps_pos eoch eocw eoh eow nn.
  intros L1 L2 LG F1 F2. unfold pc_backward. rewrite (each_place_ok f N H W oh ow och ocw) by assumption. fold ys.
  match goal with |- context [loop ?st _ _] => destruct (pair_loop (M N H W C) st (fun u i => qat gy (off i ys) * at_place u in2 i)%Qc (fun u i => qat gy (off i ys) * at_place in1 u i)%Qc (indices ys)) with (a := start g1) (b := start g2) as (a & b & E & A & B) end; try assumption.
  - intros idx I. apply indices_in in I. pose proof (off_bound _ _ I) as BO. destruct (inside5 idx I) as (n & i & j & k & l & -> & Bn & _). cbn [place]. rewrite get_ok by (unfold within; lia). cbn [obind].
    eapply pair_ext; [apply (each_pair_back in1 in2 (qat gy (off [n; i; j; k; l] ys))); assumption | |]; intros u; unfold at_place, place; rewrite <- pairs_scale; apply pairs_ext; intros p q; ring.
  - rewrite E. cbn [obind]. exists a, b. split; [reflexivity |]. split; assumption.
Qed.
End Back.
