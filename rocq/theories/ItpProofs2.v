(** Interpolation: the loops as loops over indices. *)
From Coq Require Import List ZArith Lia Lqa Bool QArith Qcanon Qround.
From Verif Require Import NdSpec NdProofs IdxModel IdxProofs1 IdxProofs2 IdxProofs3 JoinModel JoinProofs ScanSpec ScanModel ScanProofs1 ReduceModel ReduceProofs1 ConvModel ConvSpec ConvProofs1 ConvProofs3 ConvProofs7 PoolProofs3 PoolProofs5 FoldProofs4 ScatProofs1 BinProofs3 NmsProofs1 QuantModel QuantSpec QuantProofs1 ItpModel ItpSpec ItpProofs1.
Import ListNotations.
Local Open Scope list_scope.
Local Open Scope Z_scope.

(** Every index writes its own place. *)
Lemma put_loop sh (step : list Z -> list Qc -> option (list Qc)) val y0 : nonneg sh -> qlen y0 = size sh ->
  (forall i y, inside i sh -> step i y = put y (off i sh) (val i)) ->
  exists y, loop step (indices sh) y0 = Some y /\ length y = length y0 /\ forall i, inside i sh -> qat y (off i sh) = val i.
Proof.
  intros P L ST. set (V := fun p => val (nth (Z.to_nat p) (indices sh) [])).
  assert (VO : forall i, inside i sh -> V (off i sh) = val i).
  { intros i I. unfold V. pose proof (nth_indices (fun z => z) sh i [] P I) as E. rewrite map_id in E. rewrite position_off in E by exact I. rewrite Z.mul_0_l, Z.add_0_l in E. rewrite E. reflexivity. }
  destruct (each_written (fun p y => put y p (V p)) V (size sh) y0) as (y & E & Ly & Y & _); [pose proof (size_nonneg _ P); lia | reflexivity |].
  exists y. split; [| split; [exact Ly |]].
  - rewrite <- E, loop_indices by exact P. apply loop_ext. intros i s I. apply indices_in in I. rewrite ST, VO by exact I. reflexivity.
  - intros i I. rewrite Y by (apply off_bound; exact I). apply VO. exact I.
Qed.
(** Every index adds something. *)
Lemma add_loop {T} (L : list T) (step : T -> list Qc -> option (list Qc)) (d : list Qc -> T -> Qc) N :
  (forall i a, In i L -> qlen a = N -> exists a', step i a = Some a' /\ length a' = length a /\ forall u, qinner u a' = (qinner u a + d u i)%Qc) ->
  forall a, qlen a = N -> exists a', loop step L a = Some a' /\ length a' = length a /\ forall u, qinner u a' = (qinner u a + total L (d u))%Qc.
Proof.
  intros ST. induction L as [| i L IH]; intros a A.
  - exists a. cbn [loop]. split; [reflexivity |]. split; [reflexivity |]. intros u. rewrite total_nil. ring.
  - destruct (ST i a (or_introl eq_refl) A) as (a1 & E1 & L1 & Q1). destruct (IH (fun j b J => ST j b (or_intror J)) a1) as (a2 & E2 & L2 & Q2); [unfold qlen in *; congruence |].
    exists a2. cbn [loop]. rewrite E1. cbn [obind]. split; [exact E2 |]. split; [congruence |]. intros u. rewrite Q2, Q1, total_cons. ring.
Qed.
Lemma add_at_ok a p v : within (qlen a) p -> exists a', add_at a p v = Some a' /\ length a' = length a /\ forall u, qinner u a' = (qinner u a + qat u p * v)%Qc.
Proof.
  intros W. unfold add_at. rewrite get_ok by exact W. cbn [obind]. destruct (put_ok a p (qat a p + v)%Qc W) as (r & E & L & _ & Q). exists r. split; [exact E |]. split; [exact L |]. intros u. rewrite Q. ring.
Qed.
(** A chain of additions. *)
Fixpoint adds (l : list (Z * Qc)) (a : list Qc) : option (list Qc) := match l with [] => Some a | (p, v) :: l => obind (add_at a p v) (adds l) end.
Lemma adds_ok N l : (forall p v, In (p, v) l -> within N p) -> forall a, qlen a = N ->
  exists a', adds l a = Some a' /\ length a' = length a /\ forall u, qinner u a' = (qinner u a + total l (fun '(p, v) => qat u p * v))%Qc.
Proof.
  induction l as [| [p v] l IH]; intros B a A.
  - exists a. split; [reflexivity |]. split; [reflexivity |]. intros u. rewrite total_nil. ring.
  - destruct (add_at_ok a p v) as (a1 & E1 & L1 & Q1); [rewrite A; apply (B p v); left; reflexivity |]. destruct (IH (fun q w J => B q w (or_intror J)) a1) as (a2 & E2 & L2 & Q2); [unfold qlen in *; congruence |].
    exists a2. cbn [adds]. rewrite E1. cbn [obind]. split; [exact E2 |]. split; [congruence |]. intros u. rewrite Q2, Q1, total_cons. ring.
Qed.
Lemma obind_id {A} (o : option A) : obind o (fun x => Some x) = o.
Proof. destruct o; reflexivity. Qed.

Lemma total_one (n : Z) f : total (indices [n]) f = zsum n (fun i => f [i]).
Proof. rewrite total_indices_cons, total_range. apply zsum_ext. intros i _. unfold total. cbn. ring. Qed.
Lemma total_more n m s f : total (indices (n :: m :: s)) f = zsum n (fun i => total (indices (m :: s)) (fun j => f (i :: j))).
Proof. rewrite total_indices_cons, total_range. reflexivity. Qed.

Ltac qring := cbv beta; repeat match goal with |- context [hat ?f ?i] => let q := fresh in set (q := hat f i); clearbody q end; repeat match goal with |- context [qat ?a ?p] => let q := fresh in set (q := qat a p); clearbody q end; ring.
Section fixed.
Variables align h nn : bool.
Hypothesis AH : align && h = false.
Let c := used (rule_of align h).
Definition E (src : list Qc) (ns : list Z) (n : Z) (i : list Z) : Qc := qat src (n * size ns + off i ns).
(** The value at an index: the first number is that of the leading axes. *)
Definition V_lin (ns ms : list Z) (src : list Qc) (idx : list Z) : Qc :=
  match idx with n :: o => total (indices ns) (fun i => hats c ns ms o i * E src ns n i)%Qc | [] => 0%Qc end.
Definition V_near (ns ms : list Z) (src : list Qc) (idx : list Z) : Qc :=
  match idx with n :: o => E src ns n (cuts (nn_rule align h nn) ns ms o) | [] => 0%Qc end.

Definition fit (n m o : Z) : Prop := 0 < n /\ 0 <= o < m.
Definition pr (n m o : Z) : pair := pair_of n (compute_scale n m align) h o.
Definition px (n m o : Z) : Z := pixel_of n (compute_scale_for_nn n m align nn) h nn o.
Lemma pr_1 n m o : fit n m o -> 0 <= p1 (pr n m o) < n.
Proof using AH. intros [N O]. apply (pair_ok align h n m o AH N O). Qed.
Lemma pr_2 n m o : fit n m o -> 0 <= p2 (pr n m o) < n.
Proof using AH. intros [N O]. apply (pair_ok align h n m o AH N O). Qed.
Lemma pr_back n m o : fit n m o -> back_pair_of n (compute_scale n m align) h o = pr n m o.
Proof using AH. intros [N O]. apply (pair_ok align h n m o AH N O). Qed.
Lemma pr_sum n m o (g : Z -> Qc) : fit n m o -> zsum n (fun i => hat (held n (c n m o)) i * g i)%Qc = (l0 (pr n m o) * g (p1 (pr n m o)) + l1 (pr n m o) * g (p2 (pr n m o)))%Qc.
Proof using AH. intros [N O]. symmetry. apply (pair_ok align h n m o AH N O). Qed.
Lemma px_in n m o : fit n m o -> 0 <= px n m o < n.
Proof using AH. intros [N O]. apply (pixel_ok align h nn n m o AH N O). Qed.
Lemma px_cut n m o : fit n m o -> cut n (nn_rule align h nn n m o) = px n m o.
Proof using AH. intros [N O]. symmetry. apply (pixel_ok align h nn n m o AH N O). Qed.

Definition sums (n : Z) (w : Z -> Qc) (t : pair) : Prop := forall g : Z -> Qc, zsum n (fun i => w i * g i)%Qc = (l0 t * g (p1 t) + l1 t * g (p2 t))%Qc.
Lemma pr_sums n m o : fit n m o -> sums n (hat (held n (c n m o))) (pr n m o).
Proof using AH. intros F g. apply pr_sum. exact F. Qed.
Lemma sum_1 n hx x (e : Z -> Qc) : sums n hx x -> zsum n (fun i => hx i * 1 * e i)%Qc = (l0 x * e (p1 x) + l1 x * e (p2 x))%Qc.
Proof using. intros S. rewrite <- (S e). apply zsum_ext. intros i _. ring. Qed.
Lemma sum_2 n m hy y hx x (e : Z -> Z -> Qc) : sums n hy y -> sums m hx x -> zsum n (fun j => zsum m (fun i => hy j * (hx i * 1) * e j i))%Qc =
  (l0 y * (l0 x * e (p1 y) (p1 x) + l1 x * e (p1 y) (p2 x)) + l1 y * (l0 x * e (p2 y) (p1 x) + l1 x * e (p2 y) (p2 x)))%Qc.
Proof using.
  intros SY SX. rewrite <- (sum_1 m hx x (e (p1 y)) SX), <- (sum_1 m hx x (e (p2 y)) SX), <- (SY (fun j => zsum m (fun i => hx i * 1 * e j i)%Qc)).
  apply zsum_ext. intros j _. rewrite <- zsum_scale. apply zsum_ext. intros i _. ring.
Qed.
Lemma sum_3 k n m hz z hy y hx x (e : Z -> Z -> Z -> Qc) : sums k hz z -> sums n hy y -> sums m hx x ->
  let plane a := (l0 y * (l0 x * e a (p1 y) (p1 x) + l1 x * e a (p1 y) (p2 x)) + l1 y * (l0 x * e a (p2 y) (p1 x) + l1 x * e a (p2 y) (p2 x)))%Qc in
  zsum k (fun q => zsum n (fun j => zsum m (fun i => hz q * (hy j * (hx i * 1)) * e q j i)))%Qc = (l0 z * plane (p1 z) + l1 z * plane (p2 z))%Qc.
Proof using.
  intros SZ SY SX plane. unfold plane. rewrite <- (sum_2 n m hy y hx x (e (p1 z)) SY SX), <- (sum_2 n m hy y hx x (e (p2 z)) SY SX), <- (SZ (fun q => zsum n (fun j => zsum m (fun i => hy j * (hx i * 1) * e q j i)%Qc))).
  apply zsum_ext. intros q _. rewrite <- zsum_scale. apply zsum_ext. intros j _. rewrite <- zsum_scale. apply zsum_ext. intros i _. ring.
Qed.
Lemma V_1 iw ow src n ox : fit iw ow ox ->
  V_lin [iw] [ow] src [n; ox] = (l0 (pr iw ow ox) * E src [iw] n [p1 (pr iw ow ox)] + l1 (pr iw ow ox) * E src [iw] n [p2 (pr iw ow ox)])%Qc.
Proof using AH.
  intros F. rewrite <- (sum_1 iw _ (pr iw ow ox) (fun i => E src [iw] n [i]) (pr_sums iw ow ox F)). unfold V_lin. rewrite total_one. cbn [hats]. reflexivity.
Qed.
Definition e2 src ih iw n a b := E src [ih; iw] n [a; b].
Lemma V_2 iw ih ow oh src n oy ox : fit iw ow ox -> fit ih oh oy ->
  V_lin [ih; iw] [oh; ow] src [n; oy; ox] =
  (l0 (pr ih oh oy) * (l0 (pr iw ow ox) * e2 src ih iw n (p1 (pr ih oh oy)) (p1 (pr iw ow ox)) + l1 (pr iw ow ox) * e2 src ih iw n (p1 (pr ih oh oy)) (p2 (pr iw ow ox))) +
   l1 (pr ih oh oy) * (l0 (pr iw ow ox) * e2 src ih iw n (p2 (pr ih oh oy)) (p1 (pr iw ow ox)) + l1 (pr iw ow ox) * e2 src ih iw n (p2 (pr ih oh oy)) (p2 (pr iw ow ox))))%Qc.
Proof using AH.
  intros FX FY. rewrite <- (sum_2 ih iw _ (pr ih oh oy) _ (pr iw ow ox) (e2 src ih iw n) (pr_sums ih oh oy FY) (pr_sums iw ow ox FX)). unfold V_lin. rewrite total_more. apply zsum_ext. intros j _. rewrite total_one. cbn [hats]. reflexivity.
Qed.
Definition e3 src id ih iw n a b k := E src [id; ih; iw] n [a; b; k].
Definition plane iw ih id ow oh src n oy ox a : Qc :=
  (l0 (pr ih oh oy) * (l0 (pr iw ow ox) * e3 src id ih iw n a (p1 (pr ih oh oy)) (p1 (pr iw ow ox)) + l1 (pr iw ow ox) * e3 src id ih iw n a (p1 (pr ih oh oy)) (p2 (pr iw ow ox))) +
   l1 (pr ih oh oy) * (l0 (pr iw ow ox) * e3 src id ih iw n a (p2 (pr ih oh oy)) (p1 (pr iw ow ox)) + l1 (pr iw ow ox) * e3 src id ih iw n a (p2 (pr ih oh oy)) (p2 (pr iw ow ox))))%Qc.
Lemma V_3 iw ih id ow oh od src n oz oy ox : fit iw ow ox -> fit ih oh oy -> fit id od oz ->
  V_lin [id; ih; iw] [od; oh; ow] src [n; oz; oy; ox] = (l0 (pr id od oz) * plane iw ih id ow oh src n oy ox (p1 (pr id od oz)) + l1 (pr id od oz) * plane iw ih id ow oh src n oy ox (p2 (pr id od oz)))%Qc.
Proof using AH.
  intros FX FY FZ. unfold plane. rewrite <- (sum_3 id ih iw _ (pr id od oz) _ (pr ih oh oy) _ (pr iw ow ox) (e3 src id ih iw n) (pr_sums id od oz FZ) (pr_sums ih oh oy FY) (pr_sums iw ow ox FX)).
  unfold V_lin. rewrite total_more. apply zsum_ext. intros q _. rewrite total_more. apply zsum_ext. intros j _. rewrite total_one. cbn [hats]. reflexivity.
Qed.

(** * Forward *)
Section forward.
Variables (src : list Qc) (N : Z).
Lemma get_E ns n i p : qlen src = N * size ns -> 0 <= n < N -> inside i ns -> p = n * size ns + off i ns -> get src p = Some (E src ns n i).
Proof using. intros L Hn I ->. pose proof (off_bound _ _ I). rewrite get_ok; [reflexivity |]. unfold within. rewrite L. nia. Qed.
Ltac box := unfold inside; repeat (apply Forall2_cons || apply Forall2_nil); cbv beta; auto using pr_1, pr_2, px_in.
Ltac rd ns i := match goal with H : 0 <= ?n < N |- _ => rewrite (get_E ns n i) by first [assumption | solve [box] | cbn [size off]; ring] end; cbn [obind].
Ltac fits I := repeat match type of I with Forall2 _ (_ :: _) (_ :: _) => let A := fresh "B" in inversion I as [| ? ? ? ? A I']; subst; clear I; rename I' into I end.

Lemma linear_1d_loop iw ow dst : 0 < iw -> 0 <= N -> qlen src = N * size [iw] ->
  loop (fun n => linear_1d src (n * iw) (n * ow) iw ow (compute_scale iw ow align) h) (upto N) dst =
  loop (fun idx dst => put dst (off idx [N; ow]) (V_lin [iw] [ow] src idx)) (indices [N; ow]) dst.
Proof using AH.
  intros IW HN L. rewrite loop_cons. apply loop_ext. intros n s Hn. apply upto_in in Hn. rewrite loop_indices_1. unfold linear_1d. apply loop_ext. intros ox s' Ho. apply upto_in in Ho.
  assert (F : fit iw ow ox) by (split; assumption). fold (pr iw ow ox). cbv zeta. rd [iw] [p1 (pr iw ow ox)]. rd [iw] [p2 (pr iw ow ox)]. rewrite V_1 by exact F. f_equal. cbn [off size]. ring.
Qed.
Lemma linear_2d_loop iw ih ow oh dst : 0 < iw -> 0 < ih -> 0 <= N -> qlen src = N * size [ih; iw] ->
  loop (fun n => linear_2d src (n * (iw * ih)) (n * (ow * oh)) iw ih ow oh (compute_scale iw ow align) (compute_scale ih oh align) h) (upto N) dst =
  loop (fun idx dst => put dst (off idx [N; oh; ow]) (V_lin [ih; iw] [oh; ow] src idx)) (indices [N; oh; ow]) dst.
Proof using AH.
  intros IW IH HN L. rewrite loop_cons. apply loop_ext. intros n s Hn. apply upto_in in Hn. rewrite loop_cons. unfold linear_2d. apply loop_ext. intros oy s1 Hy. apply upto_in in Hy. rewrite loop_indices_1. cbv zeta. apply loop_ext. intros ox s' Ho. apply upto_in in Ho.
  assert (FX : fit iw ow ox) by (split; assumption). assert (FY : fit ih oh oy) by (split; assumption). fold (pr iw ow ox) (pr ih oh oy). 
  rd [ih; iw] [p1 (pr ih oh oy); p1 (pr iw ow ox)]. rd [ih; iw] [p1 (pr ih oh oy); p2 (pr iw ow ox)]. rd [ih; iw] [p2 (pr ih oh oy); p1 (pr iw ow ox)]. rd [ih; iw] [p2 (pr ih oh oy); p2 (pr iw ow ox)]. rewrite V_2 by assumption. unfold e2. f_equal. cbn [off size]. ring.
Qed.
Lemma linear_3d_loop iw ih id ow oh od dst : 0 < iw -> 0 < ih -> 0 < id -> 0 <= N -> qlen src = N * size [id; ih; iw] ->
  loop (fun n => linear_3d src (n * (iw * ih * id)) (n * (ow * oh * od)) iw ih id ow oh od (compute_scale iw ow align) (compute_scale ih oh align) (compute_scale id od align) h) (upto N) dst =
  loop (fun idx dst => put dst (off idx [N; od; oh; ow]) (V_lin [id; ih; iw] [od; oh; ow] src idx)) (indices [N; od; oh; ow]) dst.
Proof using AH.
  intros IW IH ID HN L. rewrite loop_cons. apply loop_ext. intros n s Hn. apply upto_in in Hn. rewrite loop_cons. unfold linear_3d. apply loop_ext. intros oz s0 Hz. apply upto_in in Hz. rewrite loop_cons. cbv zeta. apply loop_ext. intros oy s1 Hy. apply upto_in in Hy. rewrite loop_indices_1. apply loop_ext. intros ox s' Ho. apply upto_in in Ho.
  assert (FX : fit iw ow ox) by (split; assumption). assert (FY : fit ih oh oy) by (split; assumption). assert (FZ : fit id od oz) by (split; assumption). fold (pr iw ow ox) (pr ih oh oy) (pr id od oz). 
  rd [id; ih; iw] [p1 (pr id od oz); p1 (pr ih oh oy); p1 (pr iw ow ox)]. rd [id; ih; iw] [p1 (pr id od oz); p1 (pr ih oh oy); p2 (pr iw ow ox)]. rd [id; ih; iw] [p1 (pr id od oz); p2 (pr ih oh oy); p1 (pr iw ow ox)]. rd [id; ih; iw] [p1 (pr id od oz); p2 (pr ih oh oy); p2 (pr iw ow ox)].
  rd [id; ih; iw] [p2 (pr id od oz); p1 (pr ih oh oy); p1 (pr iw ow ox)]. rd [id; ih; iw] [p2 (pr id od oz); p1 (pr ih oh oy); p2 (pr iw ow ox)]. rd [id; ih; iw] [p2 (pr id od oz); p2 (pr ih oh oy); p1 (pr iw ow ox)]. rd [id; ih; iw] [p2 (pr id od oz); p2 (pr ih oh oy); p2 (pr iw ow ox)].
  rewrite V_3 by assumption. unfold plane, e3. f_equal. cbn [off size]. ring.
Qed.
Lemma nearest_1d_loop iw ow dst : 0 < iw -> 0 <= N -> qlen src = N * size [iw] ->
  loop (fun n => nearest_1d src (n * iw) (n * ow) iw ow (compute_scale_for_nn iw ow align nn) h nn) (upto N) dst =
  loop (fun idx dst => put dst (off idx [N; ow]) (V_near [iw] [ow] src idx)) (indices [N; ow]) dst.
Proof using AH.
  intros IW HN L. rewrite loop_cons. apply loop_ext. intros n s Hn. apply upto_in in Hn. rewrite loop_indices_1. unfold nearest_1d. apply loop_ext. intros ox s' Ho. apply upto_in in Ho.
  assert (F : fit iw ow ox) by (split; assumption). fold (px iw ow ox). rd [iw] [px iw ow ox]. unfold V_near. cbn [cuts]. rewrite px_cut by exact F. f_equal. cbn [off size]. ring.
Qed.
Lemma nearest_2d_loop iw ih ow oh dst : 0 < iw -> 0 < ih -> 0 <= N -> qlen src = N * size [ih; iw] ->
  loop (fun n => nearest_2d src (n * (iw * ih)) (n * (ow * oh)) iw ih ow oh (compute_scale_for_nn iw ow align nn) (compute_scale_for_nn ih oh align nn) h nn) (upto N) dst =
  loop (fun idx dst => put dst (off idx [N; oh; ow]) (V_near [ih; iw] [oh; ow] src idx)) (indices [N; oh; ow]) dst.
Proof using AH.
  intros IW IH HN L. rewrite loop_cons. apply loop_ext. intros n s Hn. apply upto_in in Hn. rewrite loop_cons. unfold nearest_2d. apply loop_ext. intros oy s1 Hy. apply upto_in in Hy. rewrite loop_indices_1. cbv zeta. apply loop_ext. intros ox s' Ho. apply upto_in in Ho.
  assert (FX : fit iw ow ox) by (split; assumption). assert (FY : fit ih oh oy) by (split; assumption). fold (px iw ow ox) (px ih oh oy). rd [ih; iw] [px ih oh oy; px iw ow ox]. unfold V_near. cbn [cuts]. rewrite !px_cut by assumption. f_equal. cbn [off size]. ring.
Qed.
Lemma nearest_3d_loop iw ih id ow oh od dst : 0 < iw -> 0 < ih -> 0 < id -> 0 <= N -> qlen src = N * size [id; ih; iw] ->
  loop (fun n => nearest_3d src (n * (iw * ih * id)) (n * (ow * oh * od)) iw ih id ow oh od (compute_scale_for_nn iw ow align nn) (compute_scale_for_nn ih oh align nn) (compute_scale_for_nn id od align nn) h nn) (upto N) dst =
  loop (fun idx dst => put dst (off idx [N; od; oh; ow]) (V_near [id; ih; iw] [od; oh; ow] src idx)) (indices [N; od; oh; ow]) dst.
Proof using AH.
  intros IW IH ID HN L. rewrite loop_cons. apply loop_ext. intros n s Hn. apply upto_in in Hn. rewrite loop_cons. unfold nearest_3d. apply loop_ext. intros oz s0 Hz. apply upto_in in Hz. rewrite loop_cons. cbv zeta. apply loop_ext. intros oy s1 Hy. apply upto_in in Hy. rewrite loop_indices_1. apply loop_ext. intros ox s' Ho. apply upto_in in Ho.
  assert (FX : fit iw ow ox) by (split; assumption). assert (FY : fit ih oh oy) by (split; assumption). assert (FZ : fit id od oz) by (split; assumption). fold (px iw ow ox) (px ih oh oy) (px id od oz).
  rd [id; ih; iw] [px id od oz; px ih oh oy; px iw ow ox]. unfold V_near. cbn [cuts]. rewrite !px_cut by assumption. f_equal. cbn [off size]. ring.
Qed.
End forward.
End fixed.
