(** Interpolation: the backward loops. *)
From Coq Require Import List ZArith Lia Lqa Bool QArith Qcanon Qround.
From Verif Require Import NdSpec NdProofs IdxModel IdxProofs1 IdxProofs2 IdxProofs3 JoinModel JoinProofs ScanSpec ReduceSpec ScanModel ScanProofs1 ReduceModel ReduceProofs1 ConvModel ConvSpec ConvProofs1 ConvProofs3 ConvProofs7 PoolProofs3 PoolProofs5 FoldProofs4 ScatProofs1 BinProofs3 NmsProofs1 QuantModel QuantSpec QuantProofs1 ItpModel ItpSpec ItpProofs1 ItpProofs2.
Import ListNotations.
Local Open Scope list_scope.
Local Open Scope Z_scope.

Section fixed.
Variables align h nn : bool.
Hypothesis AH : align && h = false.
Variables (gy : list Qc) (N : Z).
Notation pr := (pr align h).
Notation px := (px align h nn).
Definition P (ns : list Z) (n : Z) (i : list Z) : Z := n * size ns + off i ns.
Definition G (ms : list Z) (n : Z) (o : list Z) : Qc := qat gy (P ms n o).
(** What one place of the output adds. *)
Definition parts_1 (iw ow : Z) (idx : list Z) : list (Z * Qc) :=
  match idx with [n; ox] => let x := pr iw ow ox in let g := G [ow] n [ox] in
    [(P [iw] n [p1 x], l0 x * g); (P [iw] n [p2 x], l1 x * g)]%Qc | _ => [] end.
Definition parts_2 (iw ih ow oh : Z) (idx : list Z) : list (Z * Qc) :=
  match idx with [n; oy; ox] => let x := pr iw ow ox in let y := pr ih oh oy in let g := G [oh; ow] n [oy; ox] in let at_ a b := P [ih; iw] n [a; b] in
    [(at_ (p1 y) (p1 x), l0 y * l0 x * g); (at_ (p1 y) (p2 x), l0 y * l1 x * g); (at_ (p2 y) (p1 x), l1 y * l0 x * g); (at_ (p2 y) (p2 x), l1 y * l1 x * g)]%Qc | _ => [] end.
Definition parts_3 (iw ih id ow oh od : Z) (idx : list Z) : list (Z * Qc) :=
  match idx with [n; oz; oy; ox] => let x := pr iw ow ox in let y := pr ih oh oy in let z := pr id od oz in let g := G [od; oh; ow] n [oz; oy; ox] in let at_ a b k := P [id; ih; iw] n [a; b; k] in
    [(at_ (p1 z) (p1 y) (p1 x), l0 z * l0 y * l0 x * g); (at_ (p1 z) (p1 y) (p2 x), l0 z * l0 y * l1 x * g);
     (at_ (p1 z) (p2 y) (p1 x), l0 z * l1 y * l0 x * g); (at_ (p1 z) (p2 y) (p2 x), l0 z * l1 y * l1 x * g);
     (at_ (p2 z) (p1 y) (p1 x), l1 z * l0 y * l0 x * g); (at_ (p2 z) (p1 y) (p2 x), l1 z * l0 y * l1 x * g);
     (at_ (p2 z) (p2 y) (p1 x), l1 z * l1 y * l0 x * g); (at_ (p2 z) (p2 y) (p2 x), l1 z * l1 y * l1 x * g)]%Qc | _ => [] end.
Definition parts_n (ns ms : list Z) (idx : list Z) : list (Z * Qc) :=
  match idx with n :: o => [(P ns n (cuts (nn_rule align h nn) ns ms o), G ms n o)] | [] => [] end.

Lemma get_G ms n o p : qlen gy = N * size ms -> 0 <= n < N -> inside o ms -> p = P ms n o -> get gy p = Some (G ms n o).
Proof using. intros L Hn I ->. pose proof (off_bound _ _ I). unfold P. rewrite get_ok; [reflexivity |]. unfold within. rewrite L. nia. Qed.
Lemma P_in ns n i : 0 <= n < N -> inside i ns -> within (N * size ns) (P ns n i).
Proof using. intros Hn I. pose proof (off_bound _ _ I). unfold within, P. nia. Qed.

Ltac box := unfold inside; repeat (apply Forall2_cons || apply Forall2_nil); cbv beta; auto using pr_1, pr_2, px_in.
Ltac rdg ms o := match goal with H : 0 <= ?n < N |- _ => rewrite (get_G ms n o) by first [assumption | solve [box] | unfold P; cbn [size off]; ring] end; cbn [obind].
Ltac place ns i := match goal with |- context [add_at ?d ?p ?v] => replace p with (P ns _ i) by (unfold P; cbn [size off]; ring) end.
Ltac same := repeat (f_equal; []).
Lemma chain_ext p p' v a (f f' : list Qc -> option (list Qc)) : p = p' -> (forall b, f b = f' b) -> obind (add_at a p v) f = obind (add_at a p' v) f'.
Proof using. intros -> H. destruct (add_at a p' v); cbn [obind]; auto. Qed.
Lemma chain_end p p' v a : p = p' -> add_at a p v = adds [(p', v)] a.
Proof using. intros ->. cbn [adds]. rewrite obind_id. reflexivity. Qed.
Ltac chain := repeat (apply chain_ext; [unfold P; cbn [size off]; ring | intros ?]); apply chain_end; unfold P; cbn [size off]; ring.

Lemma linear_1d_back_loop iw ow gx : 0 < iw -> qlen gy = N * size [ow] ->
  loop (fun n => linear_1d_backward gy (n * ow) (n * iw) iw ow (compute_scale iw ow align) h) (upto N) gx = loop (fun idx => adds (parts_1 iw ow idx)) (indices [N; ow]) gx.
Proof using AH.
  intros IW L. rewrite loop_cons. apply loop_ext. intros n s Hn. apply upto_in in Hn. rewrite loop_indices_1. unfold linear_1d_backward. apply loop_ext. intros ox s' Ho. apply upto_in in Ho.
  assert (F : fit iw ow ox) by (split; assumption). rewrite (pr_back align h AH iw ow ox F). cbv zeta. rdg [ow] [ox]. unfold parts_1. cbv zeta. cbn [adds]. chain.
Qed.
Lemma linear_2d_back_loop iw ih ow oh gx : 0 < iw -> 0 < ih -> qlen gy = N * size [oh; ow] ->
  loop (fun n => linear_2d_backward gy (n * (ow * oh)) (n * (iw * ih)) iw ih ow oh (compute_scale iw ow align) (compute_scale ih oh align) h) (upto N) gx = loop (fun idx => adds (parts_2 iw ih ow oh idx)) (indices [N; oh; ow]) gx.
Proof using AH.
  intros IW IH L. rewrite loop_cons. apply loop_ext. intros n s Hn. apply upto_in in Hn. rewrite loop_cons. unfold linear_2d_backward. apply loop_ext. intros oy s1 Hy. apply upto_in in Hy. rewrite loop_indices_1. cbv zeta. apply loop_ext. intros ox s' Ho. apply upto_in in Ho.
  assert (FX : fit iw ow ox) by (split; assumption). assert (FY : fit ih oh oy) by (split; assumption). rewrite (pr_back align h AH iw ow ox FX), (pr_back align h AH ih oh oy FY). rdg [oh; ow] [oy; ox]. unfold parts_2. cbv zeta. cbn [adds]. chain.
Qed.
Lemma linear_3d_back_loop iw ih id ow oh od gx : 0 < iw -> 0 < ih -> 0 < id -> qlen gy = N * size [od; oh; ow] ->
  loop (fun n => linear_3d_backward gy (n * (ow * oh * od)) (n * (iw * ih * id)) iw ih id ow oh od (compute_scale iw ow align) (compute_scale ih oh align) (compute_scale id od align) h) (upto N) gx =
  loop (fun idx => adds (parts_3 iw ih id ow oh od idx)) (indices [N; od; oh; ow]) gx.
Proof using AH.
  intros IW IH ID L. rewrite loop_cons. apply loop_ext. intros n s Hn. apply upto_in in Hn. rewrite loop_cons. unfold linear_3d_backward. apply loop_ext. intros oz s0 Hz. apply upto_in in Hz. rewrite loop_cons. cbv zeta. apply loop_ext. intros oy s1 Hy. apply upto_in in Hy. rewrite loop_indices_1. apply loop_ext. intros ox s' Ho. apply upto_in in Ho.
  assert (FX : fit iw ow ox) by (split; assumption). assert (FY : fit ih oh oy) by (split; assumption). assert (FZ : fit id od oz) by (split; assumption).
  rewrite (pr_back align h AH iw ow ox FX), (pr_back align h AH ih oh oy FY), (pr_back align h AH id od oz FZ). rdg [od; oh; ow] [oz; oy; ox]. unfold parts_3. cbv zeta. cbn [adds]. chain.
Qed.
Lemma nearest_1d_back_loop iw ow gx : 0 < iw -> qlen gy = N * size [ow] ->
  loop (fun n => nearest_1d_backward gy (n * ow) (n * iw) iw ow (compute_scale_for_nn iw ow align nn) h nn) (upto N) gx = loop (fun idx => adds (parts_n [iw] [ow] idx)) (indices [N; ow]) gx.
Proof using AH.
  intros IW L. rewrite loop_cons. apply loop_ext. intros n s Hn. apply upto_in in Hn. rewrite loop_indices_1. unfold nearest_1d_backward. apply loop_ext. intros ox s' Ho. apply upto_in in Ho.
  assert (F : fit iw ow ox) by (split; assumption). fold (px iw ow ox). rdg [ow] [ox]. unfold parts_n. cbn [cuts]. rewrite px_cut by assumption. chain.
Qed.
Lemma nearest_2d_back_loop iw ih ow oh gx : 0 < iw -> 0 < ih -> qlen gy = N * size [oh; ow] ->
  loop (fun n => nearest_2d_backward gy (n * (ow * oh)) (n * (iw * ih)) iw ih ow oh (compute_scale_for_nn iw ow align nn) (compute_scale_for_nn ih oh align nn) h nn) (upto N) gx = loop (fun idx => adds (parts_n [ih; iw] [oh; ow] idx)) (indices [N; oh; ow]) gx.
Proof using AH.
  intros IW IH L. rewrite loop_cons. apply loop_ext. intros n s Hn. apply upto_in in Hn. rewrite loop_cons. unfold nearest_2d_backward. apply loop_ext. intros oy s1 Hy. apply upto_in in Hy. rewrite loop_indices_1. cbv zeta. apply loop_ext. intros ox s' Ho. apply upto_in in Ho.
  assert (FX : fit iw ow ox) by (split; assumption). assert (FY : fit ih oh oy) by (split; assumption). fold (px iw ow ox) (px ih oh oy). rdg [oh; ow] [oy; ox]. unfold parts_n. cbn [cuts]. rewrite !px_cut by assumption. chain.
Qed.
Lemma nearest_3d_back_loop iw ih id ow oh od gx : 0 < iw -> 0 < ih -> 0 < id -> qlen gy = N * size [od; oh; ow] ->
  loop (fun n => nearest_3d_backward gy (n * (ow * oh * od)) (n * (iw * ih * id)) iw ih id ow oh od (compute_scale_for_nn iw ow align nn) (compute_scale_for_nn ih oh align nn) (compute_scale_for_nn id od align nn) h nn) (upto N) gx =
  loop (fun idx => adds (parts_n [id; ih; iw] [od; oh; ow] idx)) (indices [N; od; oh; ow]) gx.
Proof using AH.
  intros IW IH ID L. rewrite loop_cons. apply loop_ext. intros n s Hn. apply upto_in in Hn. rewrite loop_cons. unfold nearest_3d_backward. apply loop_ext. intros oz s0 Hz. apply upto_in in Hz. rewrite loop_cons. cbv zeta. apply loop_ext. intros oy s1 Hy. apply upto_in in Hy. rewrite loop_indices_1. apply loop_ext. intros ox s' Ho. apply upto_in in Ho.
  assert (FX : fit iw ow ox) by (split; assumption). assert (FY : fit ih oh oy) by (split; assumption). assert (FZ : fit id od oz) by (split; assumption). fold (px iw ow ox) (px ih oh oy) (px id od oz).
  rdg [od; oh; ow] [oz; oy; ox]. unfold parts_n. cbn [cuts]. rewrite !px_cut by assumption. chain.
Qed.

(** The parts together are the value of the forward pass times the gradient. *)
Ltac atoms := repeat match goal with |- context [qat ?a ?p] => let q := fresh in set (q := qat a p); clearbody q end; repeat match goal with |- context [l0 ?t] => let q := fresh in set (q := l0 t); clearbody q end; repeat match goal with |- context [l1 ?t] => let q := fresh in set (q := l1 t); clearbody q end.
Definition whole_parts (ns ms : list Z) (V : list Qc -> list Z -> Qc) (parts : list Z -> list (Z * Qc)) : Prop :=
  forall idx, inside idx (N :: ms) -> (forall p v, In (p, v) (parts idx) -> within (N * size ns) p) /\
  forall u, total (parts idx) (fun '(p, v) => qat u p * v)%Qc = (V u idx * qat gy (off idx (N :: ms)))%Qc.
Ltac open_idx I := repeat match type of I with Forall2 _ _ (_ :: _) => let A := fresh "B" in let J := fresh "J" in inversion I as [| ? ? ? ? A J]; subst; clear I; rename J into I end; inversion I; subst; clear I.
Ltac ins := cbn [In]; intros p v X; repeat (destruct X as [X | X]; [apply pair_equal_spec in X; destruct X as [<- <-]; apply P_in; [assumption | box] |]); destruct X.
Lemma parts_1_ok iw ow : 0 < iw -> whole_parts [iw] [ow] (V_lin align h [iw] [ow]) (parts_1 iw ow).
Proof using AH.
  intros IW idx I. unfold inside in I. open_idx I. match goal with |- context [parts_1 _ _ [?n; ?ox]] => assert (F : fit iw ow ox) by (split; assumption) end. split; [unfold parts_1; cbv zeta; ins |].
  intros u. rewrite (V_1 align h AH) by exact F. unfold parts_1, G, E, total. cbv zeta. cbn [map lsum fold_right]. unfold P. cbn [off]. atoms. ring.
Qed.
Lemma parts_2_ok iw ih ow oh : 0 < iw -> 0 < ih -> whole_parts [ih; iw] [oh; ow] (V_lin align h [ih; iw] [oh; ow]) (parts_2 iw ih ow oh).
Proof using AH.
  intros IW IH idx I. unfold inside in I. open_idx I. match goal with |- context [parts_2 _ _ _ _ [?n; ?oy; ?ox]] => assert (FX : fit iw ow ox) by (split; assumption); assert (FY : fit ih oh oy) by (split; assumption) end. split; [unfold parts_2; cbv zeta; ins |].
  intros u. rewrite (V_2 align h AH) by assumption. unfold e2, parts_2, G, E, total. cbv zeta. cbn [map lsum fold_right]. unfold P. cbn [off]. atoms. ring.
Qed.
Lemma parts_3_ok iw ih id ow oh od : 0 < iw -> 0 < ih -> 0 < id -> whole_parts [id; ih; iw] [od; oh; ow] (V_lin align h [id; ih; iw] [od; oh; ow]) (parts_3 iw ih id ow oh od).
Proof using AH.
  intros IW IH ID idx I. unfold inside in I. open_idx I. match goal with |- context [parts_3 _ _ _ _ _ _ [?n; ?oz; ?oy; ?ox]] => assert (FX : fit iw ow ox) by (split; assumption); assert (FY : fit ih oh oy) by (split; assumption); assert (FZ : fit id od oz) by (split; assumption) end. split; [unfold parts_3; cbv zeta; ins |].
  intros u. rewrite (V_3 align h AH) by assumption. unfold plane, e3, parts_3, G, E, total. cbv zeta. cbn [map lsum fold_right]. unfold P. cbn [off]. atoms. ring.
Qed.
Lemma cuts_in : forall ns ms o, Forall (fun n => 0 < n) ns -> length ns = length ms -> inside o ms -> inside (cuts (nn_rule align h nn) ns ms o) ns.
Proof using AH.
  induction ns as [| n ns IH]; intros ms o PN LE I; destruct ms as [| m ms]; try discriminate; inversion I; subst; cbn [cuts]; constructor.
  - inversion PN; subst. rewrite px_cut by (first [exact AH | split; assumption]). apply px_in; [exact AH | split; assumption].
  - apply IH; [inversion PN; assumption | injection LE as LE; assumption | assumption].
Qed.
Lemma parts_n_ok ns ms : Forall (fun n => 0 < n) ns -> length ns = length ms -> whole_parts ns ms (V_near align h nn ns ms) (parts_n ns ms).
Proof using AH.
  intros PN LE idx I. inversion I as [| n ? o ? Hn Io]; subst. split.
  - intros p v [X | []]. injection X as <- <-. apply P_in; [exact Hn | apply cuts_in; assumption].
  - intros u. unfold parts_n, V_near, G, E, total. cbn [map lsum fold_right]. unfold P. cbn [off]. atoms. ring.
Qed.
Lemma back_sum ns ms V parts : whole_parts ns ms V parts -> forall gx, qlen gx = N * size ns ->
  exists gx', loop (fun idx => adds (parts idx)) (indices (N :: ms)) gx = Some gx' /\ length gx' = length gx /\
  forall u, qinner u gx' = (qinner u gx + total (indices (N :: ms)) (fun idx => V u idx * qat gy (off idx (N :: ms))))%Qc.
Proof using.
  intros W. apply add_loop. intros idx a I A. apply indices_in in I. destruct (W idx I) as [B S]. destruct (adds_ok _ _ B a A) as (a' & E' & L & Q). exists a'. split; [exact E' |]. split; [exact L |]. intros u. rewrite Q, S. reflexivity.
Qed.
End fixed.
