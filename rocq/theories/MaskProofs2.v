(** The kernels of BoolGather and BoolScatter. *)
From Coq Require Import List ZArith Lia Bool QArith Qcanon.
From Verif Require Import NdModel NdSpec NdProofs IdxModel IdxSpec IdxProofs1 IdxProofs2 IdxProofs3 IdxProofs6 JoinModel JoinSpec JoinProofs JoinProofs2 ScanModel ScanSpec ScanProofs1 ReduceModel ReduceSpec ReduceProofs1 ConvModel ConvSpec ConvProofs1 ConvProofs2 ConvProofs3 ConvProofs5 PoolProofs3 PoolProofs5 PoolProps MatModel MatSpec MatProofs1 MatProofs2 MatProps MaskModel MaskSpec MaskProofs1.
Import ListNotations.
Local Open Scope list_scope.
Local Open Scope Z_scope.

(** * Ranks *)
Section Rank.
Variable t : Z -> bool.
Definition rank (b : Z) : Z := Z.of_nat (length (filter t (upto b))).
Lemma rank_0 : rank 0 = 0. Proof. reflexivity. Qed.
Lemma upto_succ b : 0 <= b -> upto (b + 1) = upto b ++ [b].
Proof. intros H. rewrite <- (Z2Nat.id b) by exact H. replace (Z.of_nat (Z.to_nat b) + 1) with (Z.of_nat (S (Z.to_nat b))) by lia. apply upto_S. Qed.
Lemma rank_S b : 0 <= b -> rank (b + 1) = rank b + (if t b then 1 else 0).
Proof. intros H. unfold rank. rewrite upto_succ by exact H. rewrite filter_app, app_length. cbn [filter]. destruct (t b); cbn [length]; lia. Qed.
Lemma rank_le b c : 0 <= b <= c -> rank b <= rank c.
Proof.
  intros (H & L). replace c with (b + Z.of_nat (Z.to_nat (c - b))) by lia. induction (Z.to_nat (c - b)) as [| n IH]; [rewrite Z.add_0_r; lia |].
  replace (b + Z.of_nat (S n)) with (b + Z.of_nat n + 1) by lia. rewrite rank_S by lia. destruct (t (b + Z.of_nat n)); lia.
Qed.
Lemma rank_lt b c : 0 <= b < c -> t b = true -> rank b < rank c.
Proof. intros H T. pose proof (rank_S b ltac:(lia)) as E. rewrite T in E. pose proof (rank_le (b + 1) c ltac:(lia)). lia. Qed.
Lemma rank_nonneg b : 0 <= rank b. Proof. unfold rank. lia. Qed.
Lemma nth_rank b B : 0 <= b < B -> t b = true -> nth (Z.to_nat (rank b)) (filter t (upto B)) 0 = b.
Proof.
  intros H T. assert (E : exists r, upto B = upto b ++ b :: r).
  { replace B with (b + 1 + Z.of_nat (Z.to_nat (B - b - 1))) by lia. induction (Z.to_nat (B - b - 1)) as [| n IH].
    - exists []. rewrite Z.add_0_r. apply upto_succ. lia.
    - destruct IH as (r & IH). exists (r ++ [b + 1 + Z.of_nat n]). replace (b + 1 + Z.of_nat (S n)) with (b + 1 + Z.of_nat n + 1) by lia. rewrite upto_succ by lia. rewrite IH, <- app_assoc. reflexivity. }
  destruct E as (r & ->). rewrite filter_app. cbn [filter]. rewrite T. unfold rank. rewrite Nat2Z.id, app_nth2, Nat.sub_diag by lia. reflexivity.
Qed.
Lemma rank_nth j B : 0 <= j < rank B -> let b := nth (Z.to_nat j) (filter t (upto B)) 0 in 0 <= b < B /\ t b = true /\ rank b = j.
Proof.
  intros H b. unfold rank in H. assert (I : In b (filter t (upto B))) by (apply nth_In; lia). apply filter_In in I. destruct I as (I & T). apply upto_in in I. split; [exact I |]. split; [exact T |].
  assert (ND : NoDup (filter t (upto B))) by (apply NoDup_filter; apply upto_nodup). pose proof (rank_lt b B I T) as R. unfold rank in R at 2. pose proof (rank_nonneg b).
  apply Z2Nat.inj; [lia | lia |]. apply (proj1 (NoDup_nth (filter t (upto B)) 0) ND); [lia | lia |]. rewrite nth_rank by assumption. reflexivity.
Qed.
End Rank.

Section Kernels.
Variables D B nnz : Z.
Variable mask : list Qc.
Local Notation t := (fun b => is_set (qat mask b)).
Local Notation rk := (rank t).
Hypothesis HD : 0 <= D.
Hypothesis HB : 0 <= B.
Hypothesis LM : qlen mask = B.
Hypothesis FEW : rk B <= nnz.

Lemma pos_eq j d j' d' : 0 <= d < D -> 0 <= d' < D -> j * D + d = j' * D + d' -> j = j' /\ d = d'.
Proof using. clear. intros H H' E. destruct (row_split j D d H) as (A1 & A2). destruct (row_split j' D d' H') as (B1 & B2). rewrite <- E in B1, B2. split; congruence. Qed.
Lemma pos_in j d n : 0 <= j < n -> 0 <= d < D -> 0 <= j * D + d < n * D.
Proof using. clear HD. nia. Qed.

Lemma gather_column (accum : bool) d g s0 : 0 <= d < D -> qlen g = B * D -> qlen s0 = nnz * D ->
  exists k s, loop (gather_step accum D nnz d g mask) (upto B) (0, s0) = Some (k, s) /\ length s = length s0 /\
  (forall b, 0 <= b < B -> t b = true -> qat s (rk b * D + d) = ((if accum then qat s0 (rk b * D + d) else 0) + qat g (b * D + d))%Qc) /\
  (forall j d', 0 <= j -> 0 <= d' < D -> d' <> d -> qat s (j * D + d') = qat s0 (j * D + d')).
Proof using HD HB LM FEW.
  intros Hd LG LS.
  destruct (loop_inv (fun b st => fst st = rk b /\ length (snd st) = length s0 /\
    (forall b', 0 <= b' < b -> t b' = true -> qat (snd st) (rk b' * D + d) = ((if accum then qat s0 (rk b' * D + d) else 0) + qat g (b' * D + d))%Qc) /\
    (accum = true -> forall j, rk b <= j -> qat (snd st) (j * D + d) = qat s0 (j * D + d)) /\
    (forall j d', 0 <= j -> 0 <= d' < D -> d' <> d -> qat (snd st) (j * D + d') = qat s0 (j * D + d'))) (gather_step accum D nnz d g mask) B HB) with (s := (0, s0)) as (st & E & (_ & L & V & _ & W)).
  - intros b [k s] Hb (EK & L & V & U & W). cbn [fst snd] in *. subst k. pose proof (rank_nonneg t b) as R0. pose proof (rank_le t (b + 1) B ltac:(lia)) as RL. rewrite rank_S in RL by lia. unfold gather_step.
    destruct (Z.ltb_spec (rk b) nnz) as [KN | KN].
    + rewrite get_ok by (unfold within; lia). cbn [obind]. rewrite get_ok by (unfold within; rewrite LG; apply pos_in; lia). cbn [obind]. rewrite truth_set.
      assert (LSS : qlen s = nnz * D) by (unfold qlen in *; rewrite L; exact LS). assert (WI : within (qlen s) (rk b * D + d)) by (unfold within; rewrite LSS; apply pos_in; lia).
      set (v := (flag (is_set (qat mask b)) * qat g (b * D + d))%Qc).
      assert (P : exists s', (if accum then obind (get s (rk b * D + d)) (fun old => put s (rk b * D + d) (old + v)%Qc) else put s (rk b * D + d) v) = Some s' /\ length s' = length s /\
        forall j, 0 <= j -> qat s' j = if j =? rk b * D + d then ((if accum then qat s0 (rk b * D + d) else 0) + v)%Qc else qat s j).
      { destruct accum.
        - rewrite get_ok by exact WI. cbn [obind]. destruct (put_ok s (rk b * D + d) (qat s (rk b * D + d) + v)%Qc WI) as (s' & P1 & P2 & P3 & _). exists s'. split; [exact P1 |]. split; [exact P2 |].
          intros j Hj. rewrite P3 by exact Hj. rewrite U by (auto || lia). reflexivity.
        - destruct (put_ok s (rk b * D + d) v WI) as (s' & P1 & P2 & P3 & _). exists s'. split; [exact P1 |]. split; [exact P2 |]. intros j Hj. rewrite P3 by exact Hj. rewrite Qcplus_0_l. reflexivity. }
      destruct P as (s' & P1 & P2 & P3). rewrite P1. cbn [obind]. eexists. split; [reflexivity |]. cbn [fst snd]. rewrite rank_S by lia. split; [destruct (is_set (qat mask b)); lia |].
      split; [rewrite P2; exact L |]. split; [| split].
      * intros b' Hb' T'. pose proof (rank_nonneg t b'). rewrite P3 by nia. destruct (Z.eq_dec b' b) as [-> | N].
        -- rewrite Z.eqb_refl. f_equal. unfold v. rewrite T'. unfold flag. ring.
        -- pose proof (rank_lt t b' b ltac:(lia) T'). destruct (Z.eqb_spec (rk b' * D + d) (rk b * D + d)) as [EQ |]; [apply pos_eq in EQ; lia |]. apply V; [lia | exact T'].
      * intros AC j Hj. rewrite P3 by (destruct (is_set (qat mask b)); nia). rewrite AC. destruct (Z.eqb_spec (j * D + d) (rk b * D + d)) as [EQ | _].
        -- apply pos_eq in EQ; [| lia | lia]. assert (is_set (qat mask b) = false) by (destruct (is_set (qat mask b)); [lia | reflexivity]). unfold v. rewrite H. destruct EQ as (-> & _). unfold flag. ring.
        -- apply U; [exact AC | destruct (is_set (qat mask b)); lia].
      * intros j d' Hj Hd' N. rewrite P3 by nia. destruct (Z.eqb_spec (j * D + d') (rk b * D + d)) as [EQ |]; [apply pos_eq in EQ; lia |]. apply W; assumption.
    + assert (TF : is_set (qat mask b) = false) by (destruct (is_set (qat mask b)); [lia | reflexivity]).
      exists (rk b, s). split; [reflexivity |]. cbn [fst snd]. rewrite rank_S by lia. rewrite TF. split; [lia |]. split; [exact L |]. split; [| split; [intros AC j Hj; apply U; [exact AC | lia] | exact W]].
      intros b' Hb' T'. destruct (Z.eq_dec b' b) as [-> |]; [congruence |]. apply V; [lia | exact T'].
  - cbn [fst snd]. split; [reflexivity |]. split; [reflexivity |]. split; [intros; lia |]. split; reflexivity.
  - destruct st as [k s]. exists k, s. split; [exact E |]. split; [exact L |]. split; [exact V | exact W].
Qed.
Lemma gather_ok (accum : bool) g s0 : qlen g = B * D -> qlen s0 = nnz * D ->
  exists s, bool_gather accum D B nnz g mask s0 = Some s /\ length s = length s0 /\
  forall b d, 0 <= b < B -> 0 <= d < D -> t b = true -> qat s (rk b * D + d) = ((if accum then qat s0 (rk b * D + d) else 0) + qat g (b * D + d))%Qc.
Proof using HD HB LM FEW.
  intros LG LS. unfold bool_gather.
  destruct (loop_inv (fun d s => length s = length s0 /\
    (forall b d', 0 <= b < B -> 0 <= d' < d -> t b = true -> qat s (rk b * D + d') = ((if accum then qat s0 (rk b * D + d') else 0) + qat g (b * D + d'))%Qc) /\
    (forall j d', 0 <= j -> d <= d' < D -> qat s (j * D + d') = qat s0 (j * D + d')))
    (fun d s => obind (loop (gather_step accum D nnz d g mask) (upto B) (0, s)) (fun '(_, s) => Some s)) D HD) with (s := s0) as (s & E & L & V & _).
  - intros d s Hd (L & V & W). destruct (gather_column accum d g s Hd LG) as (k & s' & E & L' & V' & W'); [unfold qlen in *; rewrite L; exact LS |]. rewrite E. cbn [obind]. exists s'. split; [reflexivity |].
    split; [rewrite L'; exact L |]. split.
    + intros b d' Hb Hd' T. pose proof (rank_nonneg t b). destruct (Z.eq_dec d' d) as [-> | N].
      * rewrite V' by assumption. rewrite W by lia. reflexivity.
      * rewrite W' by lia. apply V; [exact Hb | lia | exact T].
    + intros j d' Hj Hd'. rewrite W' by lia. apply W; lia.
  - split; [reflexivity |]. split; [intros; lia | reflexivity].
  - exists s. split; [exact E |]. split; [exact L |]. exact V.
Qed.

Lemma scatter_column (accum inplace : bool) d s g0 : 0 < nnz -> 0 <= d < D -> qlen s = nnz * D -> qlen g0 = B * D ->
  exists k g, loop (scatter_step accum inplace D nnz d s mask) (upto B) (0, g0) = Some (k, g) /\ length g = length g0 /\
  (forall b, 0 <= b < B -> qat g (b * D + d) = ((if accum then qat g0 (b * D + d) else 0) + (if t b then qat s (rk b * D + d) else if inplace then qat g0 (b * D + d) else 0))%Qc) /\
  (forall b d', 0 <= b -> 0 <= d' < D -> d' <> d -> qat g (b * D + d') = qat g0 (b * D + d')).
Proof using HD HB LM FEW.
  intros PN Hd LS LG.
  destruct (loop_inv (fun b st => fst st = Z.min (rk b) (nnz - 1) /\ length (snd st) = length g0 /\
    (forall b', 0 <= b' < b -> qat (snd st) (b' * D + d) = ((if accum then qat g0 (b' * D + d) else 0) + (if t b' then qat s (rk b' * D + d) else if inplace then qat g0 (b' * D + d) else 0))%Qc) /\
    (forall b', b <= b' -> qat (snd st) (b' * D + d) = qat g0 (b' * D + d)) /\
    (forall b' d', 0 <= b' -> 0 <= d' < D -> d' <> d -> qat (snd st) (b' * D + d') = qat g0 (b' * D + d'))) (scatter_step accum inplace D nnz d s mask) B HB) with (s := (0, g0)) as (st & E & (_ & L & V & _ & W)).
  - intros b [k g] Hb (EK & L & V & U & W). cbn [fst snd] in *. pose proof (rank_nonneg t b) as R0. pose proof (rank_le t (b + 1) B ltac:(lia)) as RL. rewrite rank_S in RL by lia. unfold scatter_step.
    rewrite get_ok by (unfold within; lia). cbn [obind]. rewrite get_ok by (unfold within; rewrite LS; apply pos_in; lia). cbn [obind]. rewrite truth_set.
    assert (LGG : qlen g = B * D) by (unfold qlen in *; rewrite L; exact LG). assert (WI : within (qlen g) (b * D + d)) by (unfold within; rewrite LGG; apply pos_in; lia).
    assert (KV : is_set (qat mask b) = true -> k = rk b) by (intros T; rewrite T in RL; lia).
    set (w := if is_set (qat mask b) then qat s (rk b * D + d) else if inplace then qat g0 (b * D + d) else 0%Qc).
    assert (EV : (if inplace then if is_set (qat mask b) then Some (flag (is_set (qat mask b)) * qat s (k * D + d))%Qc else get g (b * D + d) else Some (flag (is_set (qat mask b)) * qat s (k * D + d))%Qc) = Some w).
    { unfold w. destruct (is_set (qat mask b)) eqn:T.
      - rewrite KV by reflexivity. unfold flag. destruct inplace; f_equal; ring.
      - destruct inplace; [rewrite get_ok by exact WI; rewrite U by lia; reflexivity | unfold flag; f_equal; ring]. }
    rewrite EV. cbn [obind].
    assert (P : exists g', (if accum then obind (get g (b * D + d)) (fun old => put g (b * D + d) (old + w)%Qc) else put g (b * D + d) w) = Some g' /\ length g' = length g /\
      forall j, 0 <= j -> qat g' j = if j =? b * D + d then ((if accum then qat g0 (b * D + d) else 0) + w)%Qc else qat g j).
    { destruct accum.
      - rewrite get_ok by exact WI. cbn [obind]. destruct (put_ok g (b * D + d) (qat g (b * D + d) + w)%Qc WI) as (g' & P1 & P2 & P3 & _). exists g'. split; [exact P1 |]. split; [exact P2 |].
        intros j Hj. rewrite P3 by exact Hj. rewrite U by lia. reflexivity.
      - destruct (put_ok g (b * D + d) w WI) as (g' & P1 & P2 & P3 & _). exists g'. split; [exact P1 |]. split; [exact P2 |]. intros j Hj. rewrite P3 by exact Hj. rewrite Qcplus_0_l. reflexivity. }
    destruct P as (g' & P1 & P2 & P3). rewrite P1. cbn [obind]. eexists. split; [reflexivity |]. cbn [fst snd]. rewrite rank_S by lia. split; [destruct (is_set (qat mask b)) eqn:T; [rewrite KV by reflexivity |]; lia |].
    split; [rewrite P2; exact L |]. split; [| split].
    + intros b' Hb'. rewrite P3 by nia. destruct (Z.eqb_spec (b' * D + d) (b * D + d)) as [EQ | N].
      * apply pos_eq in EQ; [| lia | lia]. destruct EQ as (-> & _). reflexivity.
      * apply V. destruct (Z.eq_dec b' b) as [-> |]; [congruence | lia].
    + intros b' Hb'. rewrite P3 by nia. destruct (Z.eqb_spec (b' * D + d) (b * D + d)) as [EQ |]; [apply pos_eq in EQ; lia |]. apply U. lia.
    + intros b' d' H1 H2 N. rewrite P3 by nia. destruct (Z.eqb_spec (b' * D + d') (b * D + d)) as [EQ |]; [apply pos_eq in EQ; lia |]. apply W; assumption.
  - cbn [fst snd]. rewrite rank_0. split; [lia |]. split; [reflexivity |]. split; [intros; lia |]. split; reflexivity.
  - destruct st as [k g]. exists k, g. split; [exact E |]. split; [exact L |]. split; [exact V | exact W].
Qed.
Lemma scatter_ok (accum inplace : bool) s g0 : 0 < nnz -> qlen s = nnz * D -> qlen g0 = B * D ->
  exists g, bool_scatter accum inplace D B nnz s mask g0 = Some g /\ length g = length g0 /\
  forall b d, 0 <= b < B -> 0 <= d < D -> qat g (b * D + d) = ((if accum then qat g0 (b * D + d) else 0) + (if t b then qat s (rk b * D + d) else if inplace then qat g0 (b * D + d) else 0))%Qc.
Proof using HD HB LM FEW.
  intros PN LS LG. unfold bool_scatter.
  destruct (loop_inv (fun d g => length g = length g0 /\
    (forall b d', 0 <= b < B -> 0 <= d' < d -> qat g (b * D + d') = ((if accum then qat g0 (b * D + d') else 0) + (if t b then qat s (rk b * D + d') else if inplace then qat g0 (b * D + d') else 0))%Qc) /\
    (forall b d', 0 <= b -> d <= d' < D -> qat g (b * D + d') = qat g0 (b * D + d')))
    (fun d g => obind (loop (scatter_step accum inplace D nnz d s mask) (upto B) (0, g)) (fun '(_, g) => Some g)) D HD) with (s := g0) as (g & E & L & V & _).
  - intros d g Hd (L & V & W). destruct (scatter_column accum inplace d s g PN Hd LS) as (k & g' & E & L' & V' & W'); [unfold qlen in *; rewrite L; exact LG |]. rewrite E. cbn [obind]. exists g'. split; [reflexivity |].
    split; [rewrite L'; exact L |]. split.
    + intros b d' Hb Hd'. destruct (Z.eq_dec d' d) as [-> | N].
      * rewrite V' by assumption. rewrite W by lia. reflexivity.
      * rewrite W' by lia. apply V; [exact Hb | lia].
    + intros b d' Hb Hd'. rewrite W' by lia. apply W; lia.
  - split; [reflexivity |]. split; [intros; lia | reflexivity].
  - exists g. split; [exact E |]. split; [exact L |]. exact V.
Qed.
Lemma identity_ok (accum : bool) gout g0 : qlen gout = B * D -> qlen g0 = B * D ->
  exists g, masked_identity accum B D gout mask g0 = Some g /\ length g = length g0 /\
  forall b d, 0 <= b < B -> 0 <= d < D -> qat g (b * D + d) = ((if accum then qat g0 (b * D + d) else 0) + (if t b then 0 else qat gout (b * D + d)))%Qc.
Proof using HD HB LM.
  intros LO LG. unfold masked_identity.
  destruct (writes2 (B * D) B D 0 (fun b d old => (if accum then old else 0) + (if t b then 0 else qat gout (b * D + d)))%Qc (fun b d ginp => obind (get mask b) (fun m => obind (get gout (b * D + d)) (fun g =>
    let v := (flag (negb (truth m)) * g)%Qc in
    if accum then obind (get ginp (b * D + d)) (fun old => put ginp (b * D + d) (old + v)%Qc) else put ginp (b * D + d) v))) HD HB) with (a := g0) as (g & E & L & V & _); try lia.
  - intros b d a Hb Hd La. rewrite get_ok by (unfold within; lia). cbn [obind]. rewrite get_ok by (unfold within; rewrite LO; apply pos_in; lia). cbn [obind]. cbv zeta. rewrite truth_set, Z.add_0_l.
    assert (EV : (flag (negb (is_set (qat mask b))) * qat gout (b * D + d))%Qc = if is_set (qat mask b) then 0%Qc else qat gout (b * D + d)) by (unfold flag; destruct (is_set (qat mask b)); cbn [negb]; ring). rewrite EV.
    destruct accum; [rewrite get_ok by (unfold within; rewrite La; apply pos_in; lia); reflexivity | rewrite Qcplus_0_l; reflexivity].
  - exists g. split; [exact E |]. split; [exact L |]. intros b d Hb Hd. specialize (V b d Hb Hd). rewrite Z.add_0_l in V. exact V.
Qed.
End Kernels.

(** * Chosen indices *)
Lemma filter_map {X Y} (h : X -> Y) (p : Y -> bool) l : filter p (map h l) = map h (filter (fun x => p (h x)) l).
Proof. induction l as [| x l IH]; cbn [map filter]; [reflexivity |]. destruct (p (h x)); cbn [map]; rewrite IH; reflexivity. Qed.
Lemma chosen_flat M mask : sizes M -> filter (fun b => is_set (qat mask b)) (upto (size M)) = map (fun i => off i M) (chosen M mask).
Proof.
  intros H. rewrite upto_indices by exact H. rewrite filter_map. f_equal. unfold chosen. apply filter_ext_in. intros i I. apply indices_in in I. rewrite qelem_off by exact I. reflexivity.
Qed.
Lemma chosen_rank M mask : sizes M -> rank (fun b => is_set (qat mask b)) (size M) = Z.of_nat (length (chosen M mask)).
Proof. intros H. unfold rank. rewrite chosen_flat, map_length by exact H. reflexivity. Qed.
Lemma chosen_nth M mask j : sizes M -> (j < length (chosen M mask))%nat -> let i := nth j (chosen M mask) [] in inside i M /\ is_set (qat mask (off i M)) = true /\ rank (fun b => is_set (qat mask b)) (off i M) = Z.of_nat j.
Proof.
  intros H L i. assert (In i (chosen M mask)) as I by (apply nth_In; exact L). apply filter_In in I. destruct I as (I & T). apply indices_in in I. split; [exact I |]. rewrite qelem_off in T by exact I. split; [exact T |].
  destruct (rank_nth (fun b => is_set (qat mask b)) (Z.of_nat j) (size M)) as (_ & _ & R); [rewrite chosen_rank by exact H; lia |]. rewrite Nat2Z.id, chosen_flat in R by exact H.
  rewrite nth_indep with (d' := off [] M) in R by (rewrite map_length; exact L). rewrite (map_nth (fun i => off i M)) in R. exact R.
Qed.
Lemma unset_rank M mask i : sizes M -> inside i M -> is_set (qelem mask M i) = is_set (qat mask (off i M)).
Proof. intros H I. rewrite qelem_off by exact I. reflexivity. Qed.
(** A sum of zeros and ones counts the ones. *)
Lemma trunc_of z : trunc (Q2Qc (inject_Z z)) = z.
Proof. unfold trunc. cbn [this Q2Qc]. unfold inject_Z. rewrite Qred_identity by (cbn [Qnum Qden]; apply Z.gcd_1_r). cbn [Qnum Qden]. apply Z.quot_1_r. Qed.
Lemma count_ok : forall mask, binary mask -> lsum mask = Q2Qc (inject_Z (Z.of_nat (length (filter is_set mask)))).
Proof.
  induction mask as [| c mask IH]; intros H; cbn [filter lsum fold_right]; [reflexivity |]. inversion H as [| ? ? Hc Hm]; subst. fold (lsum mask). change (fold_right Qcplus 0%Qc mask) with (lsum mask). rewrite IH by exact Hm. destruct Hc as [-> | ->].
  - unfold is_set at 2. destruct (Qc_eq_dec 0 0); [| congruence]. ring.
  - unfold is_set at 2. destruct (Qc_eq_dec 1 0) as [E |]; [discriminate E |]. cbn [length]. apply Qc_is_canon. rewrite Nat2Z.inj_succ, <- Z.add_1_l, inject_Z_plus. cbn [this Q2Qc Qcplus]. rewrite !Qred_correct. reflexivity.
Qed.
Lemma filter_qat mask : length (filter is_set mask) = length (filter (fun b => is_set (qat mask b)) (upto (qlen mask))).
Proof.
  unfold upto, qlen. rewrite Nat2Z.id, filter_map, map_length. unfold qat.
  transitivity (length (filter (fun n => is_set (nth n mask 0%Qc)) (seq 0 (length mask)))); [| f_equal; apply filter_ext; intros n; rewrite Nat2Z.id; reflexivity].
  induction mask as [| c mask IH]; [reflexivity |]. cbn [length seq filter nth]. rewrite <- seq_shift, filter_map. cbn [nth]. destruct (is_set c); cbn [length]; rewrite map_length, IH; reflexivity.
Qed.
Lemma trunc_sum M mask : sizes M -> qlen mask = size M -> binary mask -> trunc (sum_list mask) = Z.of_nat (length (chosen M mask)).
Proof. intros H L Bi. rewrite sum_list_lsum, count_ok by exact Bi. rewrite trunc_of, filter_qat, L, chosen_flat, map_length by exact H. reflexivity. Qed.
