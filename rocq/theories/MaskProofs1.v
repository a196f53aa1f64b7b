(** Where, BoolFill and OneHot. *)
From Coq Require Import List ZArith Lia Bool QArith Qcanon.
From Verif Require Import NdModel NdSpec NdProofs IdxModel IdxSpec IdxProofs1 IdxProofs2 IdxProofs3 IdxProofs6 JoinModel JoinSpec JoinProofs JoinProofs2 ScanModel ScanSpec ScanProofs1 ReduceModel ReduceSpec ReduceProofs1 ConvModel ConvSpec ConvProofs1 ConvProofs2 ConvProofs3 ConvProofs5 PoolProofs3 PoolProofs5 PoolProps MatModel MatSpec MatProofs1 MatProofs2 MatProps MaskModel MaskSpec.
Import ListNotations.
Local Open Scope list_scope.
Local Open Scope Z_scope.

Lemma truth_set c : truth c = is_set c. Proof. reflexivity. Qed.
(** * Where *)
Lemma same_front_app c d : same_front c (c ++ d) = true.
Proof. induction c as [| m c IH]; cbn [same_front app]; [reflexivity | rewrite Z.eqb_refl; exact IH]. Qed.
Lemma same_front_inv c : forall t, same_front c t = true -> exists d, t = c ++ d.
Proof.
  induction c as [| m c IH]; intros t; cbn [same_front]; [intros _; exists t; reflexivity |]. destruct t as [| n t]; [discriminate |]. intros H. apply andb_true_iff in H. destruct H as (H1 & H2).
  destruct (IH t H2) as (d & ->). exists d. apply Z.eqb_eq in H1. rewrite H1. reflexivity.
Qed.
Lemma where_forward_ok C D cond xt xf y0 : 0 < C -> 0 <= D -> qlen cond = C -> qlen xt = C * D -> qlen xf = C * D -> qlen y0 = C * D ->
  exists y, where_forward C (C * D) cond xt xf y0 = Some y /\ length y = length y0 /\
  forall c d, 0 <= c < C -> 0 <= d < D -> qat y (c * D + d) = if is_set (qat cond c) then qat xt (c * D + d) else qat xf (c * D + d).
Proof.
  intros PC PD LC LT LF LY. unfold where_forward. rewrite (Z.mul_comm C D), divide_mul by lia. cbn [obind]. rewrite (Z.mul_comm D C).
  destruct (fill_ok (C * D) (fun s _ => if is_set (qat cond (s / D)) then qat xt s else qat xf s) (fun s y => obind (divide s D) (fun c => obind (get cond c) (fun b => obind (if truth b then get xt s else get xf s) (put y s)))) y0) as (y & E & L & V).
  - nia.
  - exact LY.
  - intros s y Hs Ly. assert (0 < D) by (destruct (Z.eq_dec D 0) as [E0 |]; [rewrite E0 in Hs; lia | lia]).
    assert (0 <= s / D < C) by (split; [apply Z.div_pos; lia | apply Z.div_lt_upper_bound; lia]).
    unfold divide. destruct (Z.eqb_spec D 0); [lia |]. rewrite Z.quot_div_nonneg by lia. cbn [obind]. rewrite get_ok by (unfold within; lia). cbn [obind]. rewrite truth_set.
    destruct (is_set (qat cond (s / D))); rewrite get_ok by (unfold within; lia); reflexivity.
  - exists y. split; [exact E |]. split; [exact L |]. intros c d Hc Hd. rewrite V by nia. destruct (row_split c D d Hd) as (-> & _). reflexivity.
Qed.
Definition gval (g : grad) (j : Z) : Qc := match g with Some (_, a) => qat a j | None => 0%Qc end.
Definition gfit (g : grad) (n : Z) : Prop := match g with Some (_, a) => qlen a = n | None => True end.
(** [g'] is [g0] with [V] added at all positions before [q], [old] meaning the previous value. *)
Definition gdone (g0 g : grad) (q : Z) (V : Z -> Qc) : Prop :=
  match g0, g with
  | Some (accum, a0), Some (accum', a) => accum' = accum /\ length a = length a0 /\
      (forall j, 0 <= j < q -> qat a j = ((if accum then qat a0 j else 0) + V j)%Qc) /\ (forall j, q <= j -> qat a j = qat a0 j)
  | None, None => True
  | _, _ => False
  end.
Lemma where_grad_ok g0 g n q V : gfit g0 n -> 0 <= q < n -> gdone g0 g q V -> exists g', where_grad g (V q) q = Some g' /\ gdone g0 g' (q + 1) V.
Proof.
  intros F B H. destruct g0 as [[accum a0] |], g as [[accum' a] |]; cbn [gdone] in H; try contradiction; cbn [where_grad gfit] in *; [| exists None; split; [reflexivity | exact I]].
  destruct H as (-> & L & V1 & V2). assert (LA : qlen a = n) by (unfold qlen in *; rewrite L; exact F). assert (W : within (qlen a) q) by (unfold within; lia).
  assert (E : (if accum then get a q else Some 0%Qc) = Some (if accum then qat a0 q else 0%Qc)) by (destruct accum; [rewrite get_ok by exact W; rewrite V2 by lia; reflexivity | reflexivity]).
  rewrite E. cbn [obind]. destruct (put_ok a q ((if accum then qat a0 q else 0) + V q)%Qc W) as (a' & P1 & P2 & P3 & _). rewrite P1. cbn [obind].
  eexists. split; [reflexivity |]. cbn [gdone]. split; [reflexivity |]. split; [rewrite P2; exact L |]. split.
  - intros j Hj. rewrite P3 by lia. destruct (Z.eqb_spec j q) as [-> |]; [reflexivity | apply V1; lia].
  - intros j Hj. rewrite P3 by lia. destruct (Z.eqb_spec j q) as [| _]; [lia | apply V2; lia].
Qed.
Lemma where_backward_ok C D cond dy gt gf : 0 < C -> 0 <= D -> qlen cond = C -> qlen dy = C * D -> gfit gt (C * D) -> gfit gf (C * D) ->
  exists dt df, where_backward C (C * D) cond dy gt gf = Some (option_map snd dt, option_map snd df) /\
  gdone gt dt (C * D) (fun j => if is_set (qat cond (j / D)) then qat dy j else 0%Qc) /\ gdone gf df (C * D) (fun j => if is_set (qat cond (j / D)) then 0%Qc else qat dy j).
Proof.
  intros PC PD LC LD GT GF.
  set (VT := fun j => if is_set (qat cond (j / D)) then qat dy j else 0%Qc). set (VF := fun j => if is_set (qat cond (j / D)) then 0%Qc else qat dy j).
  assert (X : exists st, loop (fun s '(gt, gf) => obind (divide s D) (fun c => obind (get cond c) (fun b => obind (get dy s) (fun v =>
        obind (where_grad gt (if truth b then v else 0%Qc) s) (fun gt => obind (where_grad gf (if truth b then 0%Qc else v) s) (fun gf => Some (gt, gf))))))) (upto (C * D)) (gt, gf) = Some st /\
     gdone gt (fst st) (C * D) VT /\ gdone gf (snd st) (C * D) VF).
  { destruct (loop_inv (fun q st => gdone gt (fst st) q VT /\ gdone gf (snd st) q VF) (fun s '(gt, gf) => obind (divide s D) (fun c => obind (get cond c) (fun b => obind (get dy s) (fun v =>
        obind (where_grad gt (if truth b then v else 0%Qc) s) (fun gt => obind (where_grad gf (if truth b then 0%Qc else v) s) (fun gf => Some (gt, gf))))))) (C * D)) with (s := (gt, gf)) as (st & E & V).
    - nia.
    - intros s [g1 g2] Hs (I1 & I2). cbn [fst snd] in I1, I2. assert (0 < D) by (destruct (Z.eq_dec D 0) as [E0 |]; [rewrite E0 in Hs; lia | lia]).
      assert (0 <= s / D < C) by (split; [apply Z.div_pos; lia | apply Z.div_lt_upper_bound; lia]).
      unfold divide. destruct (Z.eqb_spec D 0); [lia |]. rewrite Z.quot_div_nonneg by lia. cbn [obind]. rewrite !get_ok by (unfold within; lia). cbn [obind]. rewrite truth_set.
      destruct (where_grad_ok gt g1 (C * D) s VT GT Hs I1) as (g1' & E1 & J1). destruct (where_grad_ok gf g2 (C * D) s VF GF Hs I2) as (g2' & E2 & J2).
      change (if is_set (qat cond (s / D)) then qat dy s else 0%Qc) with (VT s). change (if is_set (qat cond (s / D)) then 0%Qc else qat dy s) with (VF s). rewrite E1. cbn [obind]. rewrite E2. cbn [obind].
      exists (g1', g2'). split; [reflexivity |]. split; [exact J1 | exact J2].
    - cbn [fst snd]. split; [destruct gt as [[? ?] |] | destruct gf as [[? ?] |]]; cbn [gdone]; auto; (split; [reflexivity |]; split; [reflexivity |]; split; [intros; lia | intros; reflexivity]).
    - exists st. split; [exact E | exact V]. }
  destruct X as ([dt df] & E & V1 & V2). cbn [fst snd] in V1, V2. exists dt, df. split; [| split; [exact V1 | exact V2]]. unfold where_backward.
  rewrite (Z.mul_comm C D), divide_mul by lia. cbn [obind]. rewrite (Z.mul_comm D C), E. cbn [obind].
  destruct gt as [[? ?] |], gf as [[? ?] |], dt as [[? ?] |], df as [[? ?] |]; cbn [gdone] in V1, V2; try contradiction; reflexivity.
Qed.

(** * BoolFill *)
Lemma copy_src src x n y0 : 0 <= n -> (forall j, 0 <= j < n -> within (qlen x) (src j)) -> qlen y0 = n ->
  exists y, copy_all (map (fun i => (i, src i)) (upto n)) x y0 = Some y /\ qlen y = n /\ forall j, 0 <= j < n -> qat y j = qat x (src j).
Proof.
  intros PN HS LY. unfold copy_all. rewrite <- (loop_map (fun '(d, s) dst => obind (get x s) (fun v => put dst d v)) (fun i => (i, src i))).
  destruct (fill_ok n (fun j _ => qat x (src j)) (fun a => (fun '(d, s) dst => obind (get x s) (fun v => put dst d v)) (a, src a)) y0 PN LY) as (y & E & L & V).
  - intros j a Hj La. rewrite get_ok by (apply HS; exact Hj). reflexivity.
  - exists y. split; [exact E |]. split; [unfold qlen in *; rewrite L; exact LY | exact V].
Qed.
Lemma picked_ones d M : forall i, inside i (repeat 1 d ++ M) -> picked (repeat 1 d ++ M) i = repeat 0 d ++ picked M (skipn d i).
Proof.
  induction d as [| d IH]; intros i I; cbn [repeat app]; [reflexivity |]. cbn [repeat app] in I. inversion I as [| x ? r ? Hx Hr]; subst. cbn [picked skipn]. rewrite Z.eqb_refl, IH by exact Hr. reflexivity.
Qed.
Lemma picked_app M N : forall i j, length i = length M -> picked (M ++ N) (i ++ j) = picked M i ++ picked N j.
Proof. induction M as [| m M IH]; intros [| x i] j L; try discriminate; cbn [app picked]; [reflexivity |]. rewrite IH by (injection L; auto). reflexivity. Qed.
Lemma picked_repeat d : forall i, length i = d -> picked (repeat 1 d) i = repeat 0 d.
Proof. induction d as [| d IH]; intros [| x i] L; try discriminate; cbn [repeat picked]; [reflexivity |]. rewrite Z.eqb_refl, IH by (injection L; auto). reflexivity. Qed.
Lemma off_zeros d i M : inside i M -> off (repeat 0 d ++ i) (repeat 1 d ++ M) = off i M.
Proof. intros I. induction d as [| d IH]; cbn [repeat app off]; [reflexivity |]. rewrite IH. lia. Qed.
Lemma inside_skip X : forall d i, inside i X -> inside (skipn d i) (skipn d X).
Proof. induction X as [| n X IH]; intros d i I; inversion I as [| x ? r ? Hx Hr]; subst; destruct d; cbn [skipn]; try assumption; try constructor; try assumption; apply IH; exact Hr. Qed.
Lemma fill_mask junk M X m : sizes X -> repeatable M X -> (length X <= 8)%nat -> qlen m = size M ->
  exists m', bc_data junk M (Some X) m = Some m' /\ qlen m' = size X /\ forall i, inside i X -> qat m' (off i X) = qat m (off (under M (length X) i) M).
Proof.
  intros HX (LE & F) L8 LM. set (d := (length X - length M)%nat) in *. set (es := repeat 1 d ++ M).
  assert (F2 : stretches es X).
  { unfold stretches, es. rewrite <- (firstn_skipn d X). apply Forall2_app; [| exact F]. assert (LF : length (firstn d X) = d) by (apply firstn_length_le; unfold d; lia).
    revert LF. generalize (firstn d X). generalize d. induction d0 as [| d0 IH]; intros [| n l] LL; try discriminate; cbn [repeat]; constructor; [right; reflexivity | apply IH; injection LL; auto]. }
  assert (LES : length es = length X) by (unfold es; rewrite app_length, repeat_length; unfold d; lia).
  destruct (bc_pairs_ok es X HX F2 L8) as (src & E & S).
  assert (EM : bc_pairs M X = Some (map (fun i => (i, src i)) (upto (size X)))).
  { rewrite <- E. unfold bc_pairs. rewrite LES. assert (Z1 : Nat.leb (length M) (length X) = true) by (apply Nat.leb_le; exact LE). rewrite Z1, Nat.leb_refl.
    assert (X1 : expand_shape es (length X) = es) by (unfold expand_shape; rewrite LES, Nat.sub_diag; reflexivity). assert (X2 : expand_shape M (length X) = es) by reflexivity. rewrite X1, X2. reflexivity. }
  assert (US : forall i, inside i X -> inside (under M (length X) i) M /\ src (off i X) = off (under M (length X) i) M).
  { intros i I. pose proof (inside_skip X d i I) as I2. pose proof (picked_inside M (skipn d X) (skipn d i) F I2) as I3. split; [exact I3 |]. rewrite S by exact I.
    rewrite <- (firstn_skipn d i). unfold es. assert (LI : length i = length X) by (apply Forall2_length with (1 := I)). rewrite picked_app by (rewrite firstn_length_le, repeat_length; [reflexivity | rewrite LI; unfold d; lia]).
    rewrite picked_repeat by (apply firstn_length_le; rewrite LI; unfold d; lia). rewrite off_zeros by exact I3. unfold under. rewrite firstn_skipn. reflexivity. }
  unfold bc_data. rewrite EM. cbn [obind]. pose proof (size_nonneg X HX) as PX.
  destruct (copy_src src m (size X) (fresh junk X) PX) as (m' & E1 & L1 & V).
  - intros j Hj. destruct (unoff_inside X j HX Hj) as (I & O). destruct (US _ I) as (I3 & S3). rewrite O in S3. rewrite S3, LM. apply off_bound. exact I3.
  - unfold qlen, fresh. rewrite repeat_length, prod_size. lia.
  - exists m'. split; [exact E1 |]. split; [exact L1 |]. intros i I. rewrite V by (apply off_bound; exact I). destruct (US i I) as (_ & ->). reflexivity.
Qed.
Lemma fill_forward_ok N value x m y0 : 0 <= N -> qlen x = N -> qlen m = N -> qlen y0 = N ->
  exists y, loop (fun i y => obind (get m i) (fun b => obind (if truth b then Some value else get x i) (put y i))) (upto N) y0 = Some y /\ length y = length y0 /\
  forall j, 0 <= j < N -> qat y j = if is_set (qat m j) then value else qat x j.
Proof.
  intros PN LX LM LY. apply (fill_ok N (fun j _ => if is_set (qat m j) then value else qat x j)); [exact PN | exact LY |]. intros j a Hj La. rewrite get_ok by (unfold within; lia). cbn [obind]. rewrite truth_set.
  destruct (is_set (qat m j)); [reflexivity |]. rewrite get_ok by (unfold within; lia). reflexivity.
Qed.
Lemma fill_backward_ok (accum : bool) N m dy dx0 : 0 <= N -> qlen m = N -> qlen dy = N -> qlen dx0 = N ->
  exists dx, loop (fun i dx => obind (get m i) (fun b => obind (get dy i) (fun g =>
      obind (if accum then obind (get dx i) (fun old => Some (old + g * (1 - flag (truth b)))%Qc) else Some (g * (1 - flag (truth b)))%Qc) (put dx i)))) (upto N) dx0 = Some dx /\ length dx = length dx0 /\
  forall j, 0 <= j < N -> qat dx j = ((if accum then qat dx0 j else 0) + (if is_set (qat m j) then 0 else qat dy j))%Qc.
Proof.
  intros PN LM LD LX. apply (fill_ok N (fun j old => (if accum then old else 0) + (if is_set (qat m j) then 0 else qat dy j))%Qc); [exact PN | exact LX |]. intros j a Hj La. rewrite !get_ok by (unfold within; lia). cbn [obind]. rewrite truth_set.
  assert (E : (qat dy j * (1 - flag (is_set (qat m j))))%Qc = if is_set (qat m j) then 0%Qc else qat dy j) by (unfold flag; destruct (is_set (qat m j)); ring). rewrite E.
  destruct accum; [reflexivity |]. cbn [obind]. rewrite Qcplus_0_l. reflexivity.
Qed.

(** * OneHot *)
Lemma is_inside_iff : forall idx sh, is_inside idx sh = true <-> inside idx sh.
Proof.
  induction idx as [| i idx IH]; intros [| n sh]; cbn [is_inside].
  - split; [constructor | reflexivity].
  - split; [discriminate | intros H; inversion H].
  - split; [discriminate | intros H; inversion H].
  - rewrite !andb_true_iff, Z.leb_le, Z.ltb_lt, IH. split; [intros (H & I); constructor; [exact H | exact I] | intros H; inversion H; auto].
Qed.
Lemma classes_app sh n : forall cs c, length cs = length sh -> classes (sh ++ [n]) (cs ++ [c]) = classes sh cs ++ [class_of n c].
Proof. induction sh as [| m sh IH]; intros [| x cs] c L; try discriminate; cbn [app classes]; [reflexivity |]. rewrite IH by (injection L; auto). reflexivity. Qed.
Lemma is_inside_app sh n i c : length i = length sh -> is_inside (i ++ [c]) (sh ++ [n]) = is_inside i sh && ((0 <=? c) && (c <? n)).
Proof.
  revert i. induction sh as [| m sh IH]; intros [| x i] L; try discriminate; cbn [app is_inside]; [rewrite andb_true_r; reflexivity |]. rewrite IH by (injection L; auto). rewrite !andb_assoc. reflexivity.
Qed.
Lemma classes_length sh : forall cs, length cs = length sh -> length (classes sh cs) = length sh.
Proof. induction sh as [| m sh IH]; intros [| x cs] L; try discriminate; cbn [classes length]; [reflexivity |]. rewrite IH by (injection L; auto). reflexivity. Qed.
Lemma oh_addr_ok x : forall sh cs from addr sz, length cs = length sh -> (forall k, 0 <= k < Z.of_nat (length sh) -> get x (from + k) = Some (nth (Z.to_nat k) cs 0)) ->
  oh_addr (rev sh) x from addr sz = Some (if is_inside (classes sh cs) sh then Some (addr + sz * off (classes sh cs) sh) else None).
Proof.
  induction sh as [| n sh IH] using rev_ind; intros cs from addr sz L G.
  - destruct cs; [| discriminate]. cbn. f_equal. f_equal. lia.
  - rewrite app_length in L. cbn [length] in L. assert (NE : cs <> []) by (intros ->; cbn [length] in L; lia). destruct (exists_last NE) as (cs' & c & ->). rewrite app_length in L. cbn [length] in L. assert (L' : length cs' = length sh) by lia.
    rewrite rev_app_distr. cbn [rev app oh_addr]. rewrite rev_length. rewrite G by (rewrite app_length; cbn [length]; lia). rewrite Nat2Z.id, app_nth2, L', Nat.sub_diag by lia. cbn [nth obind].
    rewrite classes_app by exact L'. rewrite is_inside_app by (apply classes_length; exact L'). fold (class_of n c). set (k := class_of n c).
    destruct (Z.ltb_spec k 0), (Z.leb_spec n k), (Z.leb_spec 0 k), (Z.ltb_spec k n); cbn [orb andb]; try lia; try (rewrite andb_false_r; reflexivity).
    rewrite (IH cs') by (try assumption; intros k0 HK; rewrite G by (rewrite app_length; cbn [length]; lia); rewrite app_nth1 by lia; reflexivity). rewrite andb_true_r.
    destruct (is_inside (classes sh cs') sh) eqn:EI; [| reflexivity]. apply is_inside_iff in EI. rewrite off_app; [| exact EI | constructor; [lia | constructor]]. cbn [off size]. f_equal. f_equal. ring.
Qed.
Lemma oh_forward_ok sh num x (lab : Z -> list Z) y0 : 0 <= num -> sizes sh -> qlen y0 = num * size sh ->
  (forall i, 0 <= i < num -> oh_addr (rev sh) x (i * Z.of_nat (length sh)) 0 1 = Some (if is_inside (lab i) sh then Some (off (lab i) sh) else None)) ->
  exists y, oh_forward sh num (size sh) x y0 = Some y /\ length y = length y0 /\
  forall i o, 0 <= i < num -> inside o sh -> qat y (i * size sh + off o sh) = if list_eq_dec Z.eq_dec (lab i) o then 1%Qc else 0%Qc.
Proof.
  intros PN PS LY HL. unfold oh_forward. pose proof (size_nonneg sh PS) as P0.
  destruct (loop_inv (fun q y => length y = length y0 /\ forall i o, 0 <= i < num -> inside o sh -> qat y (i * size sh + off o sh) = if (i <? q) && (if list_eq_dec Z.eq_dec (lab i) o then true else false) then 1%Qc else 0%Qc)
    (fun i y => obind (oh_addr (rev sh) x (i * Z.of_nat (length sh)) 0 1) (fun a => match a with Some addr => put y (i * size sh + addr) 1%Qc | None => Some y end)) num PN) with (s := cleared false y0) as (y & E & L & V).
  - intros q y Hq (L & V). rewrite HL by exact Hq. cbn [obind]. destruct (is_inside (lab q) sh) eqn:EI.
    + apply is_inside_iff in EI. pose proof (off_bound _ _ EI). assert (W : within (qlen y) (q * size sh + off (lab q) sh)) by (unfold within, qlen in *; rewrite L; nia).
      destruct (put_ok y _ 1%Qc W) as (y' & P1 & P2 & P3 & _). exists y'. split; [exact P1 |]. split; [rewrite P2; exact L |]. intros i o Hi Io. pose proof (off_bound _ _ Io). rewrite P3 by nia.
      destruct (Z.eqb_spec (i * size sh + off o sh) (q * size sh + off (lab q) sh)) as [EQ | NQ].
      * assert (i = q) by nia. subst i. assert (OE : off o sh = off (lab q) sh) by lia. apply (off_inj sh o (lab q) PS Io EI) in OE. subst o.
        destruct (Z.ltb_spec q (q + 1)); [| lia]. destruct (list_eq_dec Z.eq_dec (lab q) (lab q)); [reflexivity | congruence].
      * rewrite V by assumption. destruct (Z.ltb_spec i q), (Z.ltb_spec i (q + 1)); cbn [andb]; try lia; try reflexivity. assert (i = q) by lia. subst i.
        destruct (list_eq_dec Z.eq_dec (lab q) o) as [<- |]; [congruence | reflexivity].
    + exists y. split; [reflexivity |]. split; [exact L |]. intros i o Hi Io. rewrite V by assumption. destruct (Z.ltb_spec i q), (Z.ltb_spec i (q + 1)); cbn [andb]; try lia; try reflexivity.
      assert (i = q) by lia. subst i. destruct (list_eq_dec Z.eq_dec (lab q) o) as [<- |]; [| reflexivity]. apply is_inside_iff in Io. congruence.
  - split; [apply cleared_length |]. intros i o Hi Io. destruct (Z.ltb_spec i 0); [lia |]. cbn [andb]. rewrite cleared_qat. reflexivity.
  - exists y. split; [exact E |]. split; [exact L |]. intros i o Hi Io. rewrite V by assumption. destruct (Z.ltb_spec i num); [| lia]. destruct (list_eq_dec Z.eq_dec (lab i) o); reflexivity.
Qed.
