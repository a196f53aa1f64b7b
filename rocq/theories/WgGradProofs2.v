(** Warping by a grid: the loops of the gradient of the grid. *)
From Coq Require Import List ZArith Lia Lqa Bool QArith Qcanon Qround.
From Verif Require Import NdSpec NdProofs IdxModel IdxProofs1 IdxProofs2 IdxProofs3 JoinModel JoinProofs ScanSpec ScanModel ScanProofs1 ReduceModel ReduceProofs1 ConvModel ConvSpec ConvProofs1 ConvProofs3 ConvProofs5 PoolProofs3 PoolProofs5 NmsProofs1 QuantModel QuantSpec QuantProofs1 ItpModel ItpSpec ItpProofs1 ItpProofs2 PcProofs1 WgModel WgSpec WgProofs1 WgProofs2 WgGradModel WgGradSpec WgGradProofs1.
From Verif Require MatProps.
Import ListNotations.
Local Open Scope list_scope.
Local Open Scope Z_scope.

Definition slope (m : padding_mode) (align : bool) (s : Qc) (n : Z) : Qc := match grad_coef m align s n with Some c => c | None => 0%Qc end.
Lemma slope_ok m align v n : 0 < n -> grad_coef m align (place_of align v n) n = Some (slope m align (place_of align v n) n).
Proof. intros N. unfold slope, grad_coef. destruct (pad_coef_total m align v n N) as (c & E). rewrite E. reflexivity. Qed.
(** On one piece of the border the place that is used moves by the slope. *)
Lemma slope_moves f v v' n (m := w_mode f) (align := w_align f) : 0 < n -> one_piece (border_of m) align n (place_of align v n) (place_of align v' n) ->
  (found f (place_of align v' n) n - found f (place_of align v n) n = slope m align (place_of align v n) n * (v' - v))%Qc.
Proof.
  intros N O. destruct (found_ok f v n N) as (E & _). destruct (found_ok f v' n N) as (E' & _). fold m align in E, E'.
  assert (F : fine m align n). { split; [exact N |]. intros M A. destruct (Z.eq_dec n 1) as [-> |]; [exfalso | lia]. rewrite M, A in O. cbn [border_of one_piece] in O. destruct O as (k & (S1 & S2) & _). change (whole_number (1 - 1)) with 0%Qc in *. replace (0 + whole_number k * (0 - 0))%Qc with 0%Qc in S1 by ring. replace (0 + whole_number (k + 1) * (0 - 0))%Qc with 0%Qc in S2 by ring. qlra. }
  destruct (coef_ok m align n _ _ _ _ F O E E') as (c & EC & EM). unfold slope, grad_coef. rewrite EC. cbn [obind]. etransitivity; [exact EM |]. change (of_Z (n - 1)) with (whole_number (n - 1)). change (of_Z n) with (whole_number n). unfold place_of. destruct align; rewrite half_two; ring.
Qed.
Section Warp.
Variables (f : warp) (grid x : list Qc).
Notation B := (w_B f). Notation C := (w_C f). Notation Ho := (w_Ho f). Notation Wo := (w_Wo f). Notation Hi := (w_Hi f). Notation Wi := (w_Wi f).
Let xs := [B; C; Hi; Wi].
Let gs := [B; Ho; Wo; 2].
Let ys := [B; C; Ho; Wo].
Hypothesis fy : 0 < Hi.
Hypothesis fx : 0 < Wi.
Hypothesis nn : 0 <= B /\ 0 <= C /\ 0 <= Ho /\ 0 <= Wo.
Hypothesis lg : qlen grid = size gs.
Hypothesis lx : qlen x = size xs.
Definition PX (b h w : Z) : Qc := place_of (w_align f) (qelem grid gs [b; h; w; 0]) Wi.
Definition PY (b h w : Z) : Qc := place_of (w_align f) (qelem grid gs [b; h; w; 1]) Hi.
Definition along_x (b c : Z) (yf xf : Qc) : Qc :=
  let xi0 := Qfloor xf in let yi0 := Qfloor yf in let py0 := (yf - of_Z yi0)%Qc in
  ((P f x b c yi0 (xi0 + 1) - P f x b c yi0 xi0) * (1 - py0) + (P f x b c (yi0 + 1) (xi0 + 1) - P f x b c (yi0 + 1) xi0) * py0)%Qc.
Definition along_y (b c : Z) (yf xf : Qc) : Qc :=
  let xi0 := Qfloor xf in let yi0 := Qfloor yf in let px0 := (xf - of_Z xi0)%Qc in
  ((P f x b c (yi0 + 1) xi0 - P f x b c yi0 xi0) * (1 - px0) + (P f x b c (yi0 + 1) (xi0 + 1) - P f x b c yi0 (xi0 + 1)) * px0)%Qc.
Definition change (u : list Qc) (i : list Z) : Qc :=
  on4 (fun b c h w => qat u (off [b; h; w; 0%Z] gs) * (along_x b c (YF f grid b h w) (XF f grid b h w) * slope (w_mode f) (w_align f) (PX b h w) Wi) +
                      qat u (off [b; h; w; 1%Z] gs) * (along_y b c (YF f grid b h w) (XF f grid b h w) * slope (w_mode f) (w_align f) (PY b h w) Hi))%Qc 0%Qc i.
Lemma grid_ok gy d0 : qlen gy = size ys -> qlen d0 = size gs ->
  exists d, linear_backward_grid f gy x grid d0 = Some d /\ length d = length d0 /\
  forall u, qinner u d = (qinner u d0 + total (indices ys) (fun i => qat gy (off i ys) * change u i))%Qc.
Proof using fy fx nn lg lx.
  intros LG LD. unfold linear_backward_grid. rewrite (each_output_ok f grid fy fx nn lg). fold ys.
  match goal with |- context [loop ?st _ _] => destruct (add_loop (indices ys) st (fun u i => qat gy (off i ys) * change u i)%Qc (size gs)) with (a := d0) as (d & E & L & V) end; [| exact LD | rewrite E; exists d; split; [reflexivity | split; assumption]].
  intros i a I LA. apply indices_in in I. pose proof (off_bound _ _ I) as BO. destruct (inside4 f i I) as (b & c & h & w & -> & Hb & Hc & Hh & Hw). cbn [on4 change]. cbv zeta.
  assert (I0 : inside [b; h; w; 0] gs) by (unfold gs; repeat constructor; lia). assert (I1 : inside [b; h; w; 1] gs) by (unfold gs; repeat constructor; lia).
  pose proof (off_bound _ _ I0) as B0. pose proof (off_bound _ _ I1) as B1.
  replace (b * (Ho * Wo * 2) + h * (Wo * 2) + w * 2 + 0) with (off [b; h; w; 0] gs) by (unfold gs; cbn [off size]; ring).
  replace (b * (Ho * Wo * 2) + h * (Wo * 2) + w * 2 + 1) with (off [b; h; w; 1] gs) by (unfold gs; cbn [off size]; ring).
  rewrite !(get_ok grid) by (unfold within; rewrite lg; assumption). cbn [obind]. rewrite !(pixel_ok f) by assumption. cbn [obind]. fold ys. rewrite (get_ok gy) by (unfold within; rewrite LG; exact BO). cbn [obind].
  rewrite !unnormalize_ok, <- !MatProps.qelem_off by assumption. fold (PX b h w) (PY b h w). unfold PX at 1. rewrite (slope_ok _ _ _ Wi fx). cbn [obind]. unfold PY at 1. rewrite (slope_ok _ _ _ Hi fy). cbn [obind]. fold (PX b h w) (PY b h w).
  match goal with |- context [add_at a ?p ?v] => destruct (add_at_ok a p v) as (a1 & E1 & L1 & Q1); [unfold within; rewrite LA; exact B0 |] end. rewrite E1. cbn [obind].
  match goal with |- context [add_at a1 ?p ?v] => destruct (add_at_ok a1 p v) as (a2 & E2 & L2 & Q2); [unfold within, qlen in *; rewrite L1, LA; exact B1 |] end. rewrite E2.
  exists a2. split; [reflexivity |]. split; [congruence |]. intros u. rewrite Q2, Q1. unfold along_x, along_y. cbv zeta. fold ys. ring.
Qed.
End Warp.
(** Moving along one axis within a cell. *)
Lemma mixed_x f x b c yf (xf xf' : Qc) : Qfloor xf' = Qfloor xf -> (mixed f x b c yf xf' - mixed f x b c yf xf = along_x f x b c yf xf * (xf' - xf))%Qc.
Proof. intros E. unfold mixed, along_x. cbv zeta. rewrite E. ring. Qed.
Lemma mixed_y f x b c (yf yf' : Qc) xf : Qfloor yf' = Qfloor yf -> (mixed f x b c yf' xf - mixed f x b c yf xf = along_y f x b c yf xf * (yf' - yf))%Qc.
Proof. intros E. unfold mixed, along_y. cbv zeta. rewrite E. ring. Qed.
Lemma cell_floor r k : (whole_number k <= r)%Qc -> (r < whole_number (k + 1))%Qc -> Qfloor (this r) = k.
Proof. intros A D. rewrite W_step in D. destruct (floor_ok r) as (F1 & F2). set (j := Qfloor (this r)) in *. clearbody j. assert (k <= j) by (apply between; qlra). assert (j <= k) by (apply between; qlra). lia. Qed.
