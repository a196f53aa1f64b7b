(** Batch normalization: gradients of the parameters, testing mode. *)
From Coq Require Import List ZArith Lia Bool Reals Lra.
From Verif Require Import NdModel NdSpec NdProofs IdxModel IdxSpec IdxProofs1 IdxProofs2 IdxProofs3 IdxProofs6 JoinModel JoinSpec JoinProofs JoinProofs2 ScanModel ScanProofs1 ScanProofs4 ReduceProofs1 ConvProofs3 SortProofs3 BinModel ActModel ActSpec ActProofs1 ActProofs2 ActProofs4 SmSpec SmModel SmProofs1 SmProofs2 SmProofs3 BnSpec BnModel BnProofs1 BnProofs2 BnProofs3 BnProofs4.
Import ListNotations.
Local Open Scope list_scope.
Local Open Scope Z_scope.

Section parameters.
Variables s0 s1 s2 : Z.
Hypothesis P0 : 0 < s0.
Hypothesis P1 : 0 < s1.
Hypothesis P2 : 0 < s2.
Local Notation T := (s0 * s1 * s2).
Local Notation K := (s0 * s2).
Local Notation pos := (pos s1 s2).
Local Notation cmean := (cmean s0 s1 s2).
Local Notation cvar := (cvar s0 s1 s2).
Variable eps : R.
Local Notation scaled := (scaled eps).

(** ** Training mode *)
Definition slot_fits (d : option (bool * list R)) : Prop := match d with Some (_, a) => rlen a = s1 | None => True end.
Definition start_at (d : option (bool * list R)) (c : Z) : R := match d with Some (true, a) => el a c | _ => 0%R end.
(** The gradient [d'] is [d] with the sums of [f] in the first [n] places. *)
Definition slot_done (n : Z) (f : Z -> Z -> R) (d d' : option (bool * list R)) : Prop :=
  match d, d' with
  | Some (b, a), Some (b', a') => b' = b /\ rlen a' = rlen a /\ forall c, 0 <= c < s1 -> el a' c = (if c <? n then start_at d c + rsum K (f c) else el a c)%R
  | None, None => True
  | _, _ => False
  end.
Lemma grad_params_ok x m v dy db dg : rlen x = T -> rlen m = s1 -> rlen v = s1 -> rlen dy = T -> slot_fits db -> slot_fits dg ->
  exists db' dg', bn_grad_params s0 s1 s2 eps x m v dy (db, dg) = Some (db', dg') /\
  slot_done s1 (fun c k => el dy (pos c k)) db db' /\ slot_done s1 (fun c k => el dy (pos c k) * (el x (pos c k) - el m c) / sqrt (el v c + eps))%R dg dg'.
Proof using P0 P1 P2.
  intros Lx Lm Lv Ly Fb Fg. unfold bn_grad_params.
  match goal with |- context [loop ?f (upto s1) (db, dg)] => destruct (loop_inv (fun n s => slot_done n (fun c k => el dy (pos c k)) db (fst s) /\ slot_done n (fun c k => el dy (pos c k) * (el x (pos c k) - el m c) / sqrt (el v c + eps))%R dg (snd s)) f s1 ltac:(lia)) with (s := (db, dg)) as ([db' dg'] & E & A & B) end.
  - intros c [d g] C (A & B). cbn [fst snd] in A, B.
    assert (ST : forall f d0 d1, slot_fits d0 -> slot_done c f d0 d1 -> match d1 with Some (true, a) => get a c | _ => Some 0%R end = Some (start_at d0 c)).
    { intros f [[b0 a0] |] [[b1 a1] |] F H; cbn [slot_done slot_fits start_at] in *; try contradiction; [| reflexivity]. destruct H as (-> & L & V). destruct b0; [| reflexivity]. rewrite rget by lia. rewrite V by exact C. destruct (Z.ltb_spec c c); [lia | reflexivity]. }
    rewrite (ST _ _ _ Fb A), (ST _ _ _ Fg B). cbn [obind]. clear ST.
    match goal with |- context [channel s0 s1 s2 c ?body ?start] => destruct (channel_inv s0 s1 s2 P0 P2 (fun n s => (match db with Some _ => fst s = start_at db c + rsum n (fun k => el dy (pos c k)) | None => True end)%R /\ (match dg with Some _ => snd s = start_at dg c + rsum n (fun k => el dy (pos c k) * (el x (pos c k) - el m c) / sqrt (el v c + eps)) | None => True end)%R) c body) with (s := start) as ([bv gv] & EC & HB & HG) end.
    + intros k [bv gv] Hk (HB & HG). cbn [fst snd] in HB, HG. pose proof (pos_range s0 s1 s2 P0 P1 P2 c k C Hk) as Rk. rewrite !(rget dy), !(rget x), !(rget m), !(rget v) by lia. cbn [obind].
      destruct db as [[b0 a0] |], d as [[b1 a1] |]; cbn [slot_done] in A; try contradiction; destruct dg as [[b2 a2] |], g as [[b3 a3] |]; cbn [slot_done] in B; try contradiction; cbn [obind]; eexists; (split; [reflexivity |]); cbn [fst snd]; (split; [| ]); try exact Logic.I; rewrite ?HB, ?HG, rsum_S by lia; ring.
    + cbn [fst snd]. destruct db, dg; (split; [| ]); try exact Logic.I; rewrite rsum_0; ring.
    + rewrite EC. cbn [obind].
      assert (FN : forall f d0 d1 value, slot_fits d0 -> slot_done c f d0 d1 -> (match d0 with Some _ => value = start_at d0 c + rsum K (f c) | None => True end)%R ->
         exists d2, match d1 with Some (accum, a) => obind (put a c value) (fun a => Some (Some (accum, a))) | None => Some None end = Some d2 /\ slot_done (c + 1) f d0 d2).
      { intros f [[b0 a0] |] [[b1 a1] |] value F H HV; cbn [slot_done slot_fits] in *; try contradiction; [| exists None; split; [reflexivity | exact Logic.I]]. destruct H as (-> & L & V). destruct (rput_at a1 c value) as (a2 & E2 & L2 & V2 & O2); [lia |]. rewrite E2. cbn [obind]. exists (Some (b0, a2)). split; [reflexivity |]. split; [reflexivity |]. split; [lia |].
        intros j Hj. destruct (Z.eq_dec j c) as [-> | N]; [destruct (Z.ltb_spec c (c + 1)); [| lia]; rewrite V2; exact HV |]. rewrite O2, V by lia. destruct (Z.ltb_spec j c), (Z.ltb_spec j (c + 1)); try lia; reflexivity. }
      cbn [fst snd] in HB, HG. destruct (FN _ db d bv Fb A HB) as (d2 & -> & D2). cbn [obind]. destruct (FN _ dg g gv Fg B HG) as (g2 & -> & G2). cbn [obind]. exists (d2, g2). split; [reflexivity |]. split; assumption.
  - cbn [fst snd]. split; [destruct db as [[b a] |] | destruct dg as [[b a] |]]; cbn [slot_done]; try exact Logic.I; (split; [reflexivity |]); (split; [reflexivity |]); intros c C; destruct (Z.ltb_spec c 0); try lia; reflexivity.
  - exists db', dg'. auto.
Qed.
(** The gradient of one parameter. *)
Definition first_slot (r : option (option (bool * list R) * option (bool * list R))) : option (list R) := match r with Some (Some (_, a), _) => Some a | _ => None end.
Definition second_slot (r : option (option (bool * list R) * option (bool * list R))) : option (list R) := match r with Some (_, Some (_, a)) => Some a | _ => None end.
Lemma first_slot_ok accum x m v dy db dg : rlen x = T -> rlen m = s1 -> rlen v = s1 -> rlen dy = T -> rlen db = s1 -> slot_fits dg ->
  exists d, first_slot (bn_grad_params s0 s1 s2 eps x m v dy (Some (accum, db), dg)) = Some d /\ length d = length db /\
  forall c, 0 <= c < s1 -> el d c = ((if accum : bool then el db c else 0) + rsum K (fun k => el dy (pos c k)))%R.
Proof using P0 P1 P2.
  intros Lx Lm Lv Ly Lb Fg. destruct (grad_params_ok x m v dy (Some (accum, db)) dg Lx Lm Lv Ly Lb Fg) as (db' & dg' & -> & A & _). cbn [first_slot]. destruct db' as [[b a] |]; cbn [slot_done] in A; [| contradiction]. destruct A as (_ & L & V). exists a. split; [reflexivity |]. split; [unfold rlen in L; lia |].
  intros c C. rewrite V by exact C. destruct (Z.ltb_spec c s1); [| lia]. cbn [start_at]. destruct accum; reflexivity.
Qed.
Lemma second_slot_ok accum x m v dy db dg : rlen x = T -> rlen m = s1 -> rlen v = s1 -> rlen dy = T -> slot_fits db -> rlen dg = s1 ->
  exists d, second_slot (bn_grad_params s0 s1 s2 eps x m v dy (db, Some (accum, dg))) = Some d /\ length d = length dg /\
  forall c, 0 <= c < s1 -> el d c = ((if accum : bool then el dg c else 0) + rsum K (fun k => el dy (pos c k) * (el x (pos c k) - el m c) / sqrt (el v c + eps)))%R.
Proof using P0 P1 P2.
  intros Lx Lm Lv Ly Fb Lg. destruct (grad_params_ok x m v dy db (Some (accum, dg)) Lx Lm Lv Ly Fb Lg) as (db' & dg' & -> & _ & A). cbn [second_slot]. destruct dg' as [[b a] |]; cbn [slot_done] in A; [| contradiction]. destruct A as (_ & L & V). exists a. split; [destruct db'; reflexivity |]. split; [unfold rlen in L; lia |].
  intros c C. rewrite V by exact C. destruct (Z.ltb_spec c s1); [| lia]. cbn [start_at]. destruct accum; reflexivity.
Qed.
Section train.
Variables (decay : R) (update : bool) (m0 v0 rm0 : list R) (rv0 : list (option R)).
Hypothesis Lm0 : rlen m0 = s1.
Hypothesis Lv0 : rlen v0 = s1.
Hypothesis Lr0 : rlen rm0 = s1.
Hypothesis Lw0 : Z.of_nat (length rv0) = s1.
Variables (x m v : list R).
Hypothesis Lx : rlen x = T.
Hypothesis Lm : rlen m = s1.
Hypothesis Lv : rlen v = s1.
Hypothesis Em : forall c, 0 <= c < s1 -> el m c = cmean (el x) c.
Hypothesis Ev : forall c, 0 <= c < s1 -> el v c = cvar (el x) c.
Definition y_train (beta gamma : option (list R)) (y0 : list R) : option (list R) :=
  match bn_forward_batch s0 s1 s2 eps decay update x beta gamma (y0, m0, v0, rm0, rv0) with Some (y, _, _, _, _) => Some y | None => None end.
Lemma y_train_ok beta gamma y0 : fits beta s1 -> fits gamma s1 -> rlen y0 = T -> exists y, y_train beta gamma y0 = Some y /\ length y = length y0 /\
  forall c k, 0 <= c < s1 -> 0 <= k < K -> el y (pos c k) = scaled beta gamma (cmean (el x) c) (cvar (el x) c) (el x (pos c k)) c.
Proof using P0 P1 P2 Lm0 Lv0 Lr0 Lw0 Lx.
  clear Lm Lv Em Ev. intros Fb Fg Ly. destruct (forward_batch_ok s0 s1 s2 P0 P1 P2 eps decay beta gamma Fb Fg update x y0 m0 v0 rm0 rv0) as (y & m1 & v1 & rm1 & rv1 & E & L & _ & _ & _ & _ & V & _); [assumption .. |]. unfold y_train. rewrite E. exists y. split; [reflexivity |]. split; [unfold rlen in *; lia | exact V].
Qed.
Lemma train_beta b gamma dg : fits gamma s1 -> slot_fits dg -> rlen b = s1 ->
  rgradient s1 T (fun u => y_train (Some u) gamma) (fun accum dy d => first_slot (bn_grad_params s0 s1 s2 eps x m v dy (Some (accum, d), dg))) b.
Proof using P0 P1 P2 Lm0 Lv0 Lr0 Lw0 Lx Lm Lv.
  intros Fg Fd Lb. apply (affine_gradient s0 s1 s2 P0 P1 P2 _ _ b (fun _ _ => 1%R) (fun c k => (el x (pos c k) - cmean (el x) c) * given_or gamma 1 c / sqrt (cvar (el x) c + eps))%R Lb).
  - intros u y0 Lu Ly. destruct (y_train_ok (Some u) gamma y0 Lu Fg Ly) as (y & E & L & V). exists y. split; [exact E |]. split; [exact L |]. intros c k C Hk. rewrite V by assumption. unfold BnProofs2.scaled. cbn [given_or]. change (at_pos u c) with (el u c). ring.
  - intros accum dy d0 Ly L0. destruct (first_slot_ok accum x m v dy d0 dg) as (d & E & L & V); [assumption .. |]. exists d. split; [exact E |]. split; [exact L |]. intros c C. rewrite V by exact C. f_equal. apply rsum_ext. intros. ring.
Qed.
Lemma train_gamma g beta db : fits beta s1 -> slot_fits db -> rlen g = s1 ->
  rgradient s1 T (fun u => y_train beta (Some u)) (fun accum dy d => second_slot (bn_grad_params s0 s1 s2 eps x m v dy (db, Some (accum, d)))) g.
Proof using P0 P1 P2 Lm0 Lv0 Lr0 Lw0 Lx Lm Lv Em Ev.
  intros Fb Fd Lg. apply (affine_gradient s0 s1 s2 P0 P1 P2 _ _ g (fun c k => (el x (pos c k) - cmean (el x) c) / sqrt (cvar (el x) c + eps))%R (fun c _ => given_or beta 0 c) Lg).
  - intros u y0 Lu Ly. destruct (y_train_ok beta (Some u) y0 Fb Lu Ly) as (y & E & L & V). exists y. split; [exact E |]. split; [exact L |]. intros c k C Hk. rewrite V by assumption. unfold BnProofs2.scaled. cbn [given_or]. change (at_pos u c) with (el u c). unfold Rdiv. ring.
  - intros accum dy d0 Ly L0. destruct (second_slot_ok accum x m v dy db d0) as (d & E & L & V); [assumption .. |]. exists d. split; [exact E |]. split; [exact L |]. intros c C. rewrite V, Em, Ev by exact C. f_equal. apply rsum_ext. intros. unfold Rdiv. ring.
Qed.
End train.

(** ** Testing mode *)
Section test.
Variables (rm rv : list R).
Hypothesis Lr : rlen rm = s1.
Hypothesis Lw : rlen rv = s1.
Hypothesis Pv : forall c, 0 <= c < s1 -> (0 < el rv c + eps)%R.
Lemma each1_ok op n a : 0 <= n <= rlen a -> exists r, each1 op n a = Some r /\ rlen r = n /\ forall i, 0 <= i < n -> el r i = op (el a i).
Proof using. intros H. apply rmap_upto; [lia |]. intros i Hi. rewrite rget by lia. reflexivity. Qed.
Lemma each2_ok op n a b : 0 <= n <= rlen a -> n <= rlen b -> exists r, each2 op n a b = Some r /\ rlen r = n /\ forall i, 0 <= i < n -> el r i = op (el a i) (el b i).
Proof using. intros H H'. apply rmap_upto; [lia |]. intros i Hi. rewrite !rget by lia. reflexivity. Qed.
Lemma spread2_ok op a b : rlen a = T -> rlen b = s1 -> exists r, spread2 op s0 s1 s2 a b = Some r /\ rlen r = T /\ forall c k, 0 <= c < s1 -> 0 <= k < K -> el r (pos c k) = op (el a (pos c k)) (el b c).
Proof using P0 P1 P2.
  intros La Lb. destruct (rmap_upto (fun i => obind (get a i) (fun u => obind (divide i s2) (fun q => obind (remainder q s1) (fun i1 => obind (get b i1) (fun w => Some (op u w)))))) (fun i => op (el a i) (el b ((i / s2) mod s1))) T) as (r & E & L & V); [nia | |].
  - intros i Hi. rewrite rget by lia. cbn [obind]. unfold divide, remainder. destruct (Z.eqb_spec s2 0); [lia |]. cbn [obind]. destruct (Z.eqb_spec s1 0); [lia |]. cbn [obind]. rewrite Z.quot_div_nonneg by lia. pose proof (Z.div_pos i s2 ltac:(lia) ltac:(lia)). rewrite Z.rem_mod_nonneg by lia. pose proof (Z.mod_pos_bound (i / s2) s1 P1). rewrite rget by lia. reflexivity.
  - exists r. split; [exact E |]. split; [exact L |]. intros c k C Hk. pose proof (pos_range s0 s1 s2 P0 P1 P2 c k C Hk). rewrite V by lia. rewrite (chan_pos s0 s1 s2 P0 P1 P2) by assumption. reflexivity.
Qed.
Lemma sum_all_ok a : rlen a = T -> exists r, sum_all s0 s1 s2 a = Some r /\ rlen r = s1 /\ forall c, 0 <= c < s1 -> el r c = rsum K (fun k => el a (pos c k)).
Proof using P0 P1 P2.
  intros La. apply rmap_upto; [lia |]. intros c C. rewrite (channel_sum s0 s1 s2 P0 P2 c _ (fun k => el a (pos c k))); [f_equal; ring |]. intros k s Hk. rewrite rget by (rewrite La; apply pos_range; assumption). reflexivity.
Qed.
Lemma rstd_inv_ok : exists r, rstd_inv eps s1 rv = Some r /\ rlen r = s1 /\ forall c, 0 <= c < s1 -> el r c = (/ sqrt (el rv c + eps))%R.
Proof using P1 Lw Pv.
  unfold rstd_inv. destruct (each1_ok (fun u => u) s1 rv) as (r1 & -> & L1 & V1); [lia |]. cbn [obind]. destruct (each1_ok (fun u => u + eps)%R s1 r1) as (r2 & -> & L2 & V2); [lia |]. cbn [obind]. destruct (each1_ok (fun u => cpow u (- (1 / 2))) s1 r2) as (r3 & -> & L3 & V3); [lia |].
  exists r3. split; [reflexivity |]. split; [exact L3 |]. intros c C. rewrite V3, V2, V1 by exact C. apply cpow_12. apply Pv; exact C.
Qed.
Lemma added_ok accum n old new : 0 <= n -> rlen old = n -> rlen new = n -> exists r, added accum n old new = Some r /\ rlen r = n /\ forall i, 0 <= i < n -> el r i = ((if accum : bool then el old i else 0) + el new i)%R.
Proof using.
  intros N Lo Ln. unfold added. destruct accum.
  - apply each2_ok; lia.
  - destruct (each1_ok (fun u => u) n new) as (r & E & L & V); [lia |]. exists r. split; [exact E |]. split; [exact L |]. intros i Hi. rewrite V by exact Hi. ring.
Qed.
Lemma test_x beta gamma x : fits beta s1 -> fits gamma s1 -> rlen x = T ->
  rgradient T T (fun u => bn_forward_global s0 s1 s2 eps u beta gamma rm rv) (fun accum dy dx => bn_global_x s0 s1 s2 eps accum gamma rv dy dx) x.
Proof using P0 P1 P2 Lr Lw Pv.
  intros Fb Fg Lx. assert (TP : 0 < T) by nia. apply (rgradient_by T T _ _ x (fun u o => scaled beta gamma (el rm (chan s1 s2 o)) (el rv (chan s1 s2 o)) (u o) (chan s1 s2 o)) (fun q o => if o =? q then given_or gamma 1 (chan s1 s2 q) / sqrt (el rv (chan s1 s2 q) + eps) else 0)%R); try lia.
  - intros accum dy dx0 Ly L0. unfold bn_global_x. destruct rstd_inv_ok as (r & -> & L1 & V1). cbn [obind].
    assert (IV : exists iv, match gamma with Some g => each2 Rmult s1 g r | None => Some r end = Some iv /\ rlen iv = s1 /\ forall c, 0 <= c < s1 -> el iv c = (given_or gamma 1 c / sqrt (el rv c + eps))%R).
    { destruct gamma as [g |].
      - cbn [fits] in Fg. destruct (each2_ok Rmult s1 g r) as (iv & -> & L2 & V2); [unfold rlen; lia | lia |]. exists iv. split; [reflexivity |]. split; [exact L2 |]. intros c C. rewrite V2, V1 by exact C. reflexivity.
      - exists r. split; [reflexivity |]. split; [exact L1 |]. intros c C. rewrite V1 by exact C. cbn [given_or]. unfold Rdiv. ring. }
    destruct IV as (iv & -> & L2 & V2). cbn [obind]. destruct (spread2_ok Rmult dy iv Ly L2) as (g & -> & L3 & V3). cbn [obind]. destruct (added_ok accum T dx0 g) as (dx & -> & L4 & V4); [lia | exact L0 | exact L3 |]. exists dx. split; [reflexivity |]. split; [unfold rlen in *; lia |].
    intros q Hq. rewrite V4 by exact Hq. f_equal. rewrite (rsum_only T _ q Hq); [| intros o Ho N; apply Z.eqb_neq in N; rewrite N; ring]. rewrite Z.eqb_refl. destruct (pos_onto s0 s1 s2 P0 P1 P2 q Hq) as (c & k & C & Hk & ->). rewrite V3, V2, (chan_at s0 s1 s2 P0 P1 P2) by assumption. reflexivity.
  - intros u y0 Lu Ly. destruct (forward_global_ok s0 s1 s2 P0 P1 P2 eps beta gamma Fb Fg u rm rv y0 Lu Lr Lw Ly) as (y & E & L & V). exists y. split; [exact E |]. split; [exact L |]. intros o Ho. destruct (pos_onto s0 s1 s2 P0 P1 P2 o Ho) as (c & k & C & Hk & ->). rewrite V, (chan_at s0 s1 s2 P0 P1 P2) by assumption. reflexivity.
  - intros u w o Ho E. rewrite E by exact Ho. reflexivity.
  - intros q o Hq Ho. cbv beta. destruct (Z.eqb_spec o q) as [-> | N]; [| apply D_const]. assert (C : 0 <= chan s1 s2 q < s1) by (apply Z.mod_pos_bound; exact P1). pose proof (sqrt_lt_R0 _ (Pv _ C)). unfold BnProofs2.scaled. derive; [lra |]. unfold Rsqr. field. lra.
Qed.
Lemma test_beta b gamma x : fits gamma s1 -> rlen x = T -> rlen b = s1 ->
  rgradient s1 T (fun u => bn_forward_global s0 s1 s2 eps x (Some u) gamma rm rv) (fun accum dy d => bn_global_beta s0 s1 s2 accum dy d) b.
Proof using P0 P1 P2 Lr Lw.
  intros Fg Lx Lb. apply (affine_gradient s0 s1 s2 P0 P1 P2 _ _ b (fun _ _ => 1%R) (fun c k => (el x (pos c k) - el rm c) * given_or gamma 1 c / sqrt (el rv c + eps))%R Lb).
  - intros u y0 Lu Ly. destruct (forward_global_ok s0 s1 s2 P0 P1 P2 eps (Some u) gamma Lu Fg x rm rv y0 Lx Lr Lw Ly) as (y & E & L & V). exists y. split; [exact E |]. split; [exact L |]. intros c k C Hk. rewrite V by assumption. unfold BnProofs2.scaled. cbn [given_or]. change (at_pos u c) with (el u c). ring.
  - intros accum dy d0 Ly L0. unfold bn_global_beta. destruct (sum_all_ok dy Ly) as (g & -> & L1 & V1). cbn [obind]. destruct (added_ok accum s1 d0 g) as (d & -> & L2 & V2); [lia | exact L0 | exact L1 |]. exists d. split; [reflexivity |]. split; [unfold rlen in *; lia |]. intros c C. rewrite V2, V1 by exact C. f_equal. apply rsum_ext. intros. ring.
Qed.
Lemma test_gamma g beta x : fits beta s1 -> rlen x = T -> rlen g = s1 ->
  rgradient s1 T (fun u => bn_forward_global s0 s1 s2 eps x beta (Some u) rm rv) (fun accum dy d => bn_global_gamma s0 s1 s2 eps accum x rm rv dy d) g.
Proof using P0 P1 P2 Lr Lw Pv.
  intros Fb Lx Lg. apply (affine_gradient s0 s1 s2 P0 P1 P2 _ _ g (fun c k => (el x (pos c k) - el rm c) / sqrt (el rv c + eps))%R (fun c _ => given_or beta 0 c) Lg).
  - intros u y0 Lu Ly. destruct (forward_global_ok s0 s1 s2 P0 P1 P2 eps beta (Some u) Fb Lu x rm rv y0 Lx Lr Lw Ly) as (y & E & L & V). exists y. split; [exact E |]. split; [exact L |]. intros c k C Hk. rewrite V by assumption. unfold BnProofs2.scaled. cbn [given_or]. change (at_pos u c) with (el u c). unfold Rdiv. ring.
  - intros accum dy d0 Ly L0. unfold bn_global_gamma. destruct rstd_inv_ok as (r & -> & L1 & V1). cbn [obind]. destruct (spread2_ok Rminus x rm Lx Lr) as (a1 & -> & L2 & V2). cbn [obind]. destruct (spread2_ok Rmult a1 r L2 L1) as (a2 & -> & L3 & V3). cbn [obind].
    destruct (each2_ok Rmult T dy a2) as (a3 & -> & L4 & V4); [assert (0 < T) by nia; lia | lia |]. cbn [obind]. destruct (sum_all_ok a3 L4) as (gs & -> & L5 & V5). cbn [obind]. destruct (added_ok accum s1 d0 gs) as (d & -> & L6 & V6); [lia | exact L0 | exact L5 |]. exists d. split; [reflexivity |]. split; [unfold rlen in *; lia |].
    intros c C. rewrite V6, V5 by exact C. f_equal. apply rsum_ext. intros k Hk. rewrite V4 by (apply pos_range; assumption). rewrite V3, V2, V1 by assumption. reflexivity.
Qed.
End test.
End parameters.
