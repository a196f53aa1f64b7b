(** The patch matrix: where its elements come from. *)
From Coq Require Import List ZArith Lia Bool QArith Qcanon.
From Verif Require Import NdModel NdSpec NdProofs IdxModel IdxSpec IdxProofs1 IdxProofs2 IdxProofs3 IdxProofs6 JoinModel JoinSpec JoinProofs JoinProofs2 ScanModel ScanSpec ScanProofs1 ReduceModel ReduceSpec ReduceProofs1 SortProofs2 SortProofs3 ConvModel ConvSpec ConvProofs1.
Import ListNotations.
Local Open Scope list_scope.
Local Open Scope Z_scope.

Lemma dims_ok : forall out S k D P St, length S = length out -> length k = length out -> length D = length out -> length P = length out -> length St = length out ->
  outs (dims out (cstrides out) S (cstrides S) k D P St) = out /\ map d_in (dims out (cstrides out) S (cstrides S) k D P St) = S /\
  sized (dims out (cstrides out) S (cstrides S) k D P St).
Proof.
  induction out as [|o out IH]; intros [|n S] [|k ks] [|d D] [|p P] [|s St]; cbn [length]; intros; try lia; [repeat split|].
  destruct (IH S ks D P St) as (E1 & E2 & E3); try lia. rewrite !cstrides_cons. cbn [dims outs map d_out d_in sized d_osize d_isize].
  unfold outs in E1. rewrite E1, E2. auto.
Qed.
Lemma place_ok : forall out S k D P St o, length S = length out -> length k = length out -> length D = length out -> length P = length out -> length St = length out -> length o = length out ->
  place (dims out (cstrides out) S (cstrides S) k D P St) o = if is_inside (tap St D P k o) S then Some (off (tap St D P k o) S) else None.
Proof.
  induction out as [|m out IH]; intros [|n S] [|k ks] [|d D] [|p P] [|s St] [|o os]; cbn [length]; intros; try lia; [reflexivity|].
  rewrite !cstrides_cons. cbn [dims place d_shift d_stride d_in d_isize tap is_inside off]. rewrite IH by lia.
  replace (k * d - p + o * s) with (o * s + k * d - p) by ring. unfold in_shape.
  destruct ((0 <=? o * s + k * d - p) && (o * s + k * d - p <? n)); cbn [andb]; [|reflexivity].
  destruct (is_inside _ _); [|reflexivity]. rewrite (Z.mul_comm (size S)). reflexivity.
Qed.
Lemma is_inside_ok i S : is_inside i S = true <-> inside i S.
Proof.
  revert S. induction i as [|a i IH]; intros [|n S]; cbn [is_inside]; split; intros H; try discriminate; try (inversion H; fail); try constructor; auto.
  - apply andb_true_iff in H. destruct H as (H & _). apply andb_true_iff in H. lia.
  - apply andb_true_iff in H. destruct H as (_ & H). apply IH. auto.
  - inversion H as [|? ? ? ? B F]; subst. apply andb_true_iff. split; [|apply IH; auto]. apply andb_true_iff. lia.
Qed.
Lemma outmap_length : forall S K P St D out, outmap S K P St D = Some out ->
  length S = length out /\ length K = length out /\ length P = length out /\ length St = length out /\ length D = length out.
Proof.
  induction S as [|n S IH]; intros [|k K] [|p P] [|s St] [|d D] out; cbn [outmap]; try discriminate.
  - intros [= <-]. repeat split.
  - destruct (extent n p k s d) as [o|]; cbn [obind]; [|discriminate]. destruct (outmap S K P St D) as [os|] eqn:E; cbn [obind]; [|discriminate].
    intros [= <-]. apply IH in E. cbn [length]. lia.
Qed.

Section patches.
Variables (C : Z) (S K P St D out : list Z).
Hypothesis OUT : outmap S K P St D = Some out.
Hypothesis NS : nonneg S.
Hypothesis NK : nonneg (C :: K).
Hypothesis NO : nonneg out.
Hypothesis NE : out <> [].

(** Where row [r], column [q] of the patch matrix comes from. *)
Definition origin (r q : Z) : option Z :=
  match kernel_index r (C :: K) with
  | c :: k => match place (dims out (cstrides out) S (cstrides S) k D P St) (kernel_index q out) with Some t => Some (c * size S + t) | None => None end
  | [] => None
  end.
Lemma origin_at c k o : inside (c :: k) (C :: K) -> inside o out ->
  origin (off (c :: k) (C :: K)) (off o out) = if is_inside (tap St D P k o) S then Some (off (c :: tap St D P k o) (C :: S)) else None.
Proof using OUT.
  intros I O. unfold origin. rewrite !kernel_index_off by auto. destruct (outmap_length _ _ _ _ _ _ OUT) as (L1 & L2 & L3 & L4 & L5).
  pose proof (inside_length _ _ I) as LI. pose proof (inside_length _ _ O) as LO. cbn [length] in LI.
  rewrite place_ok by lia. destruct (is_inside _ _); reflexivity.
Qed.
Lemma origin_bound r q t : within (C * size K) r -> within (size out) q -> origin r q = Some t -> within (C * size S) t.
Proof using OUT NK NO.
  intros R Q E. destruct (off_onto (C :: K) r NK R) as ([|c k] & I & <-); [inversion I|]. destruct (off_onto out q NO Q) as (o & O & <-).
  rewrite origin_at in E by auto. destruct (is_inside _ _) eqn:B; [|discriminate]. injection E as <-. apply is_inside_ok in B.
  inversion I; subst. exact (off_bound (c :: tap St D P k o) (C :: S) ltac:(constructor; auto)).
Qed.

Lemma rows_ok : exists f, patch_rows C S K P St D = Some (map f (upto (C * size K))) /\
  forall r, within (C * size K) r -> let '(ds, so, co) := f r in ds <> [] /\ sized ds /\ outs ds = out /\ co = r * size out /\
    forall o, inside o out -> origin r (off o out) = match place ds o with Some t => Some (so + t) | None => None end.
Proof using OUT NK NE.
  unfold patch_rows. rewrite OUT. cbn [obind]. rewrite (prod_size (C :: K)), (prod_size S), (prod_size out). change (size (C :: K)) with (C * size K). eexists. split; [reflexivity|]. intros r R.
  destruct (off_onto (C :: K) r NK R) as ([|c k] & I & <-); [inversion I|]. cbv beta. rewrite kernel_index_off by auto.
  destruct (outmap_length _ _ _ _ _ _ OUT) as (L1 & L2 & L3 & L4 & L5). pose proof (inside_length _ _ I) as LI. cbn [length] in LI.
  destruct (dims_ok out S k D P St) as (E1 & E2 & E3); try lia. split; [|split; [exact E3|split; [exact E1|split]]].
  - intros E. rewrite E in E1. apply NE. symmetry. exact E1.
  - reflexivity.
  - intros o O. unfold origin. rewrite !kernel_index_off by auto. reflexivity.
Qed.

Lemma unfold_flat x xo col : unfold_patches C S K P St D x xo col =
  loop (fun r => loop (fun q => put_patch x xo (origin r q) (r * size out + q)) (upto (size out))) (upto (C * size K)) col.
Proof using OUT NK NE NO.
  destruct rows_ok as (f & E & H). unfold unfold_patches. rewrite E. cbn [obind].
  rewrite <- (loop_map (fun '(ds, so, co) col => unfold_kernel ds x (xo + so) co col) f). apply loop_ext. intros r a R. apply upto_in in R.
  specialize (H r R). destruct (f r) as ((ds, so), co). destruct H as (N & W & <- & -> & H).
  rewrite unfold_kernel_ok by auto. rewrite loop_indices by auto. apply loop_ext. intros o b O. apply indices_in in O. rewrite H by auto.
  destruct (place ds o); unfold put_patch; cbn [read]; [rewrite Z.add_assoc|]; reflexivity.
Qed.
Lemma fold_flat col x xo : fold_patches C S K P St D col x xo =
  loop (fun r => loop (fun q => add_patch col xo (origin r q) (r * size out + q)) (upto (size out))) (upto (C * size K)) x.
Proof using OUT NK NE NO.
  destruct rows_ok as (f & E & H). unfold fold_patches. rewrite E. cbn [obind].
  rewrite <- (loop_map (fun '(ds, so, co) x => fold_kernel ds col (xo + so) co x) f). apply loop_ext. intros r a R. apply upto_in in R.
  specialize (H r R). destruct (f r) as ((ds, so), co). destruct H as (N & W & <- & -> & H).
  rewrite fold_kernel_ok by auto. rewrite loop_indices by auto. apply loop_ext. intros o b O. apply indices_in in O. rewrite H by auto.
  destruct (place ds o); unfold add_patch; [rewrite Z.add_assoc|]; reflexivity.
Qed.
End patches.

(** * The values *)
Definition val (x : list Qc) (xo : Z) (p : option Z) : Qc := match p with Some t => qat x (xo + t) | None => 0%Qc end.

Lemma writes2 (N rows cols base : Z) (V : Z -> Z -> Qc -> Qc) (step : Z -> Z -> list Qc -> option (list Qc)) : 0 <= cols -> 0 <= rows -> 0 <= base -> base + rows * cols <= N ->
  (forall r c a, 0 <= r < rows -> 0 <= c < cols -> qlen a = N -> step r c a = put a (base + r * cols + c) (V r c (qat a (base + r * cols + c)))) ->
  forall a, qlen a = N -> exists a', loop (fun r => loop (step r) (upto cols)) (upto rows) a = Some a' /\ length a' = length a /\
    (forall r c, 0 <= r < rows -> 0 <= c < cols -> qat a' (base + r * cols + c) = V r c (qat a (base + r * cols + c))) /\
    (forall q, 0 <= q -> ~ base <= q < base + rows * cols -> qat a' q = qat a q).
Proof.
  intros HC HR HB HN H a La.
  set (l := flat_map (fun r => map (pair r) (upto cols)) (upto rows)).
  assert (M : forall p, In p l <-> 0 <= fst p < rows /\ 0 <= snd p < cols).
  { intros p. unfold l. rewrite in_pairs, upto_in. reflexivity. }
  assert (PB : forall r c, 0 <= r < rows -> 0 <= c < cols -> 0 <= r * cols + c < rows * cols) by (intros; nia).
  destruct (writes_ok 0%Qc N (fun p => base + fst p * cols + snd p) (fun p => V (fst p) (snd p)) (fun p => step (fst p) (snd p)) l) with (a := a) as (a' & E & L & V1 & V2); auto.
  - rewrite (map_ext _ (fun p => base + (fst p * cols + snd p))) by (intros; ring). rewrite <- (map_map (fun p => fst p * cols + snd p) (Z.add base)).
    apply nodup_map; [intros; lia|]. apply pairs_nodup. intros s _. split; [apply upto_nodup|]. intros i Hi. apply upto_in in Hi. auto.
  - intros (r, c) I. apply M in I. cbn [fst snd] in *. specialize (PB r c). lia.
  - intros (r, c) b I Lb. apply M in I. cbn [fst snd] in *. apply H; tauto.
  - exists a'. split; [|split; [auto|split]].
    + rewrite <- E. unfold l. rewrite <- loop_flat. apply loop_ext. intros r b _. apply (loop_map (fun p => step (fst p) (snd p)) (pair r)).
    + intros r c Hr Hc. apply (V1 (r, c)). apply M. cbn. auto.
    + intros q Hq Nq. apply V2; auto. intros I. apply in_map_iff in I. destruct I as ((r, c) & E' & I). apply M in I. cbn [fst snd] in *. specialize (PB r c). lia.
Qed.

Lemma unfold_vals (og : Z -> Z -> option Z) nx rows cols x xo col : 0 <= rows -> 0 <= cols -> 0 <= xo -> xo + nx <= qlen x -> qlen col = rows * cols ->
  (forall r q t, within rows r -> within cols q -> og r q = Some t -> within nx t) ->
  exists col', loop (fun r => loop (fun q => put_patch x xo (og r q) (r * cols + q)) (upto cols)) (upto rows) col = Some col' /\ length col' = length col /\
    forall r q, within rows r -> within cols q -> qat col' (r * cols + q) = val x xo (og r q).
Proof.
  intros HR HC XO XN LC B. destruct (writes2 (rows * cols) rows cols 0 (fun r q _ => val x xo (og r q)) (fun r q => put_patch x xo (og r q) (r * cols + q))) with (a := col) as (c' & E & L & V & _); auto; try lia.
  - intros r q a Hr Hq La. unfold put_patch. replace (0 + r * cols + q) with (r * cols + q) by ring.
    destruct (og r q) as [t|] eqn:Eo; cbn [read val obind]; [|reflexivity]. specialize (B r q t Hr Hq Eo). unfold within in B. rewrite get_ok by (unfold within; lia). reflexivity.
  - exists c'. split; [auto|split; [auto|]]. intros r q Hr Hq. specialize (V r q Hr Hq). cbn [Z.add] in V. exact V.
Qed.
