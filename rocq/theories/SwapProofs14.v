(** Proofs about SwapModel: schedules of recorded orders. *)
From Coq Require Import List ZArith Bool Arith Lia.
From Verif Require Import SwapModel SwapSpec SwapProofs1 SwapProofs2 SwapProofs6 SwapProofs7 SwapProofs8 SwapProofs10 SwapProofs11 SwapProofs12 SwapProofs13.
Import ListNotations.
Local Open Scope list_scope.
Local Open Scope Z_scope.

Lemma no_clear r : tag r <> Clear <-> is_clear r = false.
Proof. unfold is_clear. destruct (tag r); split; congruence. Qed.
Lemma yes_clear r : tag r = Clear <-> is_clear r = true.
Proof. unfold is_clear. destruct (tag r); split; congruence. Qed.
Section transfer.
Variables (order : list record) (ends : list nat) (head0 : nat -> option nat).
Notation order' := (reconfirm head0 (fun _ => false) order).
Notation rec i := (nth i order no_record).
Notation rec' i := (nth i order' no_record).
Lemma fields i : tag (rec' i) = tag (rec i) /\ said (rec' i) = said (rec i) /\ elements (rec' i) = elements (rec i) /\ dtype (rec' i) = dtype (rec i) /\ on_device (rec' i) = on_device (rec i) /\ write_only (rec' i) = write_only (rec i) /\ temporary (rec' i) = temporary (rec i).
Proof. rewrite reconfirm_nth. destruct (again_spec head0 (false || existsb (fun r => is_clear r && Nat.eqb (said r) (said (rec i)))%bool (firstn i order)) (rec i)) as (A1 & A2 & A3 & A4 & A5 & A6 & A7 & _). auto 10. Qed.
Lemma made i : tag (rec i) <> Clear -> created (rec' i) = true <-> makes head0 order i.
Proof.
  intros T. rewrite reconfirm_nth. destruct (again_spec head0 (false || existsb (fun r => is_clear r && Nat.eqb (said r) (said (rec i)))%bool (firstn i order)) (rec i)) as (_ & _ & _ & _ & _ & _ & _ & A8). cbv zeta in A8. rewrite (A8 T). unfold makes. cbn [orb]. rewrite andb_true_iff, orb_true_iff. apply and_iff_compat_l.
  assert (X : existsb (fun r => is_clear r && Nat.eqb (said r) (said (rec i)))%bool (firstn i order) = true <-> exists c, (c < i)%nat /\ tag (rec c) = Clear /\ said (rec c) = said (rec i)).
  { assert (LI : (i < length order)%nat) by (apply (at_inside order i); apply no_clear; exact T). rewrite existsb_exists. split.
    - intros (r & R & C). apply andb_prop in C as (C1 & C2). apply Nat.eqb_eq in C2. apply (In_nth _ _ no_record) in R as (c & C & R). rewrite firstn_length_le in C by lia. exists c. split; [exact C |].
      assert (E : rec c = r) by (transitivity (nth c (firstn i order ++ skipn i order) no_record); [rewrite firstn_skipn; reflexivity | rewrite app_nth1 by (rewrite firstn_length_le; lia); exact R]). rewrite E. split; [apply yes_clear; exact C1 | exact C2].
    - intros (c & C & T' & S'). exists (rec c). split; [| apply andb_true_intro; split; [apply yes_clear; exact T' | apply Nat.eqb_eq; exact S']]. replace (rec c) with (nth c (firstn i order) no_record); [apply nth_In; rewrite firstn_length_le; lia |]. transitivity (nth c (firstn i order ++ skipn i order) no_record); [rewrite app_nth1 by (rewrite firstn_length_le; lia); reflexivity | rewrite firstn_skipn; reflexivity]. }
  rewrite X. destruct (head0 (said (rec i))); split; intros [Y | Y]; auto; discriminate.
Qed.
Lemma arrays_same : arrays order' = arrays order.
Proof.
  unfold arrays. f_equal. generalize (fun _ : nat => false). induction order as [| r l IH]; intros c; [reflexivity |]. cbn [reconfirm]. destruct (is_clear r) eqn:C; cbn [filter].
  - apply yes_clear in C. rewrite C. apply IH.
  - apply no_clear in C. match goal with |- context [filter _ (?x :: _)] => idtac | _ => idtac end. destruct (_ && _ && _)%bool; cbn [filter tag map said]; destruct (tag r); try congruence; cbn [map said]; rewrite IH; reflexivity.
Qed.
Lemma act_same s h a : act order' s h a = act order s h a.
Proof. destruct h as [(t, i) | i | s']; cbn [act]; [| | reflexivity]; destruct (fields i) as (F1 & F2 & F3 & F4 & F5 & _); rewrite ?F1, ?F2, ?F5; reflexivity. Qed.
Lemma play_same s hs : forall a, fold_left (fun a h => act order' s h a) hs a = fold_left (fun a h => act order s h a) hs a.
Proof. induction hs as [| h hs IH]; intros a; [reflexivity |]. cbn [fold_left]. rewrite act_same. apply IH. Qed.
Lemma body_same f : body order' ends f = body order ends f.
Proof.
  unfold body. f_equal. rewrite (filter_ext _ (fun i => match tag (rec i) with Clear => false | _ => temporary (rec i) end)).
  - apply map_ext. intros i. f_equal. apply fields.
  - intros i. destruct (fields i) as (F1 & _ & _ & _ & _ & _ & F7). rewrite F1, F7. reflexivity.
Qed.
Lemma through_same b e f : through order' ends b e f = through order ends b e f.
Proof. induction f as [| f IH]; cbn [through]; [reflexivity |]. rewrite IH, body_same. reflexivity. Qed.
Lemma start_same s : at_start order' ends s = at_start order ends s.
Proof. unfold at_start, after. rewrite body_same. apply play_same. Qed.
Lemma after_same hs s : after order' (at_start order' ends) hs s = after order (at_start order ends) hs s.
Proof. unfold after at 1. rewrite play_same, start_same. reflexivity. Qed.
Lemma memory_same weight w w' : (forall s, w' s = w s) -> memory order' weight w' = memory order weight w.
Proof. intros E. unfold memory. rewrite arrays_same. f_equal. apply map_ext. intros s. rewrite E. reflexivity. Qed.
Lemma load_same weight l : load order' weight l = load order weight l.
Proof.
  unfold load. do 3 f_equal. rewrite (filter_ext _ (fun i => match tag (rec i) with Clear => false | _ => true end)).
  - apply map_ext. intros i. apply fields.
  - intros i. destruct (fields i) as (F1 & _). rewrite F1. reflexivity.
Qed.
Lemma first_same s a j : first_use order' s a j -> first_use order s a j.
Proof.
  unfold first_use. rewrite reconfirm_length. intros (H1 & H2 & H3 & H4). destruct (fields j) as (F1 & F2 & _). rewrite F1 in H2. rewrite F2 in H3. split; [exact H1 | split; [exact H2 | split; [exact H3 |]]].
  intros k K. destruct (fields k) as (G1 & G2 & _). rewrite <- G1, <- G2. apply H4. exact K.
Qed.
Lemma in_same r : List.In r order' -> exists r0, List.In r0 order /\ tag r = tag r0 /\ said r = said r0 /\ elements r = elements r0 /\ dtype r = dtype r0 /\ on_device r = on_device r0.
Proof.
  intros I. apply (In_nth _ _ no_record) in I as (i & L & <-). rewrite reconfirm_length in L. destruct (fields i) as (F1 & F2 & F3 & F4 & F5 & _). exists (rec i). split; [apply nth_In; exact L | auto 10].
Qed.
End transfer.

Section final.
Variables (order : list record) (ends : list nat) (sizeof weight : nat -> Z) (max_bytes max_prefetch : Z) (cast_prefetch : bool) (head0 : nat -> option nat).
Notation order' := (reconfirm head0 (fun _ => false) order).
Hypothesis RG : regular order ends sizeof weight max_bytes head0.
Lemma blocks_le : forall f, (block_end ends f <= length order)%nat.
Proof.
  destruct RG as ((NE & BL & ALL) & L2 & _). intros f. unfold block_end. destruct (Nat.lt_ge_cases f (length ends)) as [X | X]; [| rewrite nth_overflow by exact X; lia]. rewrite <- ALL. apply (block_mono ends BL f (length ends - 1)); lia.
Qed.
Lemma facts : exists ty, (forall r, List.In r order' -> is_clear r = false -> dtype r = ty (said r)) /\ (forall r, List.In r order' -> is_clear r = false -> bytes sizeof r (dtype r) = weight (said r)) /\ (forall s, 0 <= weight s) /\ forall s d, head0 s = Some d -> d = ty s.
Proof.
  destruct RG as (_ & _ & (ty & H1 & H2 & H3) & _). exists ty.
  assert (X : forall r, List.In r order' -> is_clear r = false -> dtype r = ty (said r) /\ bytes sizeof r (dtype r) = weight (said r)).
  { intros r I C. apply in_same in I as (r0 & I & T & S' & E & D & _). apply no_clear in C. rewrite T in C. destruct (H1 r0 I C) as (A1 & A2). unfold bytes. rewrite S', E, D. split; [exact A1 | rewrite A1; exact A2]. }
  split; [intros r I C; apply X; assumption | split; [intros r I C; apply X; assumption | auto]].
Qed.
Lemma strict_facts (strict : Prop) : (strict -> disciplined order ends) ->
  (strict -> forall i, is_clear (at_ order' i) = false -> on_device (at_ order' i) = true) /\
  (strict -> forall c j, (c < length order')%nat -> is_clear (at_ order' c) = true -> first_use order' (said (at_ order' c)) (S c) j -> no_data_transfer (at_ order' j) = true) /\
  (strict -> forall f i j, List.In i (accesses ends f) -> is_clear (at_ order' i) = false -> temporary (at_ order' i) = true -> (block_end ends f <= j)%nat -> uses order' (said (at_ order' i)) j = false).
Proof.
  intros D. split; [| split].
  - intros S0 i C. destruct (D S0) as (D1 & _). pose proof (at_inside order' i C) as LI. rewrite reconfirm_length in LI. unfold at_ in *. destruct (fields order head0 i) as (F1 & _ & _ & _ & F5 & _). rewrite F5. apply D1; [apply nth_In; exact LI |]. rewrite <- F1. apply no_clear. exact C.
  - intros S0 c j LC C FU. destruct (D S0) as (_ & D2 & _). rewrite reconfirm_length in LC. unfold at_ in *. destruct (fields order head0 c) as (F1 & F2 & _). apply first_same in FU. rewrite F2 in FU. apply yes_clear in C. rewrite F1 in C. pose proof (D2 c j LC C FU) as X. destruct FU as (U1 & U2 & U3 & _).
    unfold no_data_transfer. destruct (fields order head0 j) as (_ & _ & _ & _ & _ & F6 & _). rewrite F6. apply orb_true_intro. destruct X as [X | X]; [left; exact X | right]. apply made; [exact U2 |]. split; [exact X |]. right. exists c. split; [lia | split; [exact C | congruence]].
  - intros S0 f i j I C T BJ. destruct (D S0) as (_ & _ & D3). destruct (uses order' (said (at_ order' i)) j) eqn:U; [| reflexivity]. exfalso. apply uses_spec in U as (U1 & U2). pose proof (at_inside order' j U1) as LJ. rewrite reconfirm_length in LJ. unfold at_ in *.
    destruct (fields order head0 i) as (F1 & F2 & _ & _ & _ & _ & F7). destruct (fields order head0 j) as (G1 & G2 & _). apply no_clear in C, U1. rewrite F1 in C. rewrite G1 in U1. rewrite F7 in T. rewrite F2, G2 in U2. apply (D3 f i j I C T); auto.
Qed.
Lemma first_load : before_first order' ends weight = load order weight (accesses ends 0).
Proof. rewrite <- (load_same order head0). reflexivity. Qed.
Lemma whole_fine (strict : Prop) fuel : (strict -> disciplined order ends) -> load order weight (accesses ends 0) <= max_bytes ->
  let r := schedule fuel order ends sizeof max_bytes max_prefetch cast_prefetch head0 in r <> Broken _ /\ forall p, r = Got _ p -> forall a b, whole order ends (begins p) (finals p) = a ++ b ->
  memory order weight (after order (at_start order ends) a) <= max_bytes /\ forall i c, b = Used i :: c -> strict -> needs_content head0 order i -> after order (at_start order ends) a (said (nth i order no_record)) = Resident.
Proof.
  intros DS LD. cbv zeta. destruct facts as (ty & TY & WT & WN & H0). destruct (strict_facts strict DS) as (SD & SC & ST). pose proof RG as ((NE & BL & ALL) & L2 & OT & MX).
  destruct (attempts_good order' ends sizeof max_bytes ty weight strict TY WT WN SD SC ST ltac:(rewrite reconfirm_length; exact blocks_le) BL MX max_prefetch cast_prefetch head0 H0 ltac:(rewrite first_load; exact LD) L2 ltac:(rewrite reconfirm_length; exact ALL) fuel (fun _ => 1%nat)) as (A1 & A2).
  split; [exact A1 |]. intros p E a b W. specialize (A2 p E a b). unfold whole in *. rewrite through_same in A2. destruct (A2 W) as (M & R). split.
  - rewrite <- (memory_same order head0 weight _ (after order' (at_start order' ends) a) (fun s => after_same order ends head0 a s)). exact M.
  - intros i c Eb S0 (N1 & N2 & N3). rewrite <- (after_same order ends head0). unfold at_ in R. specialize (R i c Eb S0). destruct (fields order head0 i) as (F1 & F2 & _ & _ & F5 & F6 & _). rewrite <- F2. apply R. unfold demands. rewrite F1, F5, F6.
    split; [exact N1 | split; [| split; [exact N2 |]]].
    + destruct (DS S0) as (D1 & _). apply D1; [apply nth_In; apply (at_inside order i); apply no_clear; exact N1 | exact N1].
    + destruct (created (nth i order' no_record)) eqn:X; [| reflexivity]. destruct N3. apply (made order head0 i N1). exact X.
Qed.
Lemma load_total l : load order' weight l = total (fun s => if existsb (uses order' s) l then weight s else 0) (arrays order').
Proof.
  unfold load. set (M := nodup Nat.eq_dec _). assert (MI : forall s, List.In s M <-> exists i, List.In i l /\ uses order' s i = true).
  { intros s. unfold M. rewrite nodup_In, in_map_iff. split.
    - intros (i & E & I). apply filter_In in I as (I & T). exists i. split; [exact I |]. apply uses_spec. split; [| exact E]. apply no_clear. unfold at_. destruct (tag (nth i order' no_record)); discriminate.
    - intros (i & I & U). apply uses_spec in U as (C & E). exists i. split; [exact E |]. apply filter_In. split; [exact I |]. apply no_clear in C. unfold at_ in C. destruct (tag (nth i order' no_record)); congruence. }
  transitivity (total weight M); [symmetry; apply total_weights |]. rewrite (total_sub weight M (arrays order') (NoDup_nodup _ _) (arrays_nodup order')).
  - apply total_ext. intros s _. destruct (in_dec Nat.eq_dec s M) as [X | X].
    + apply MI in X as (i & I & U). assert (E : existsb (uses order' s) l = true) by (apply existsb_exists; exists i; auto). rewrite E. reflexivity.
    + destruct (existsb (uses order' s) l) eqn:E; [| reflexivity]. destruct X. apply existsb_exists in E. apply MI. exact E.
  - intros s X. apply MI in X as (i & _ & U). apply arrays_in. apply uses_spec in U as (C & <-). apply used_at. exact C.
Qed.
Lemma fit_load g : (S g < length ends)%nat -> fit order' ends weight g = load order weight (match g with O => accesses ends 0 ++ accesses ends 1 | S _ => accesses ends (S g) end).
Proof.
  intros LG. destruct RG as ((NE & BL & ALL) & _). pose proof (BL g LG) as Bg. rewrite <- (load_same order head0), load_total. unfold fit. apply total_ext. intros s _.
  assert (X : 0 < queue order' s (from ends g) (block_end ends (S g)) <-> existsb (uses order' s) (match g with O => accesses ends 0 ++ accesses ends 1 | S _ => accesses ends (S g) end) = true).
  { rewrite existsb_exists. split.
    - intros Q. destruct (queue_pos_inv order' s _ _ Q) as (k & K & U). exists k. split; [| exact U]. destruct g as [| g].
      + apply in_or_app. rewrite !accesses_block. destruct (Nat.lt_ge_cases k (block_end ends 0)) as [Y | Y]; [left | right]; apply in_block; cbn [block_start]; lia.
      + rewrite accesses_block. apply in_block. cbn [block_start from] in *. lia.
    - intros (k & K & U). apply (queue_pos order' s _ _ k); [| exact U]. destruct g as [| g]; [apply in_app_or in K as [K | K] |]; rewrite accesses_block in K; apply in_block in K; cbn [block_start from] in *; unfold block_end in *; lia. }
  destruct (Z.ltb_spec 0 (queue order' s (from ends g) (block_end ends (S g)))) as [Y | Y]; destruct (existsb _ _); try reflexivity; [apply X in Y; discriminate |]. destruct X as (_ & X). specialize (X eq_refl). lia.
Qed.
Lemma attempt_total stopper : (forall k, (2 <= k < length ends)%nat -> block_start ends k <> 0%nat) -> (forall g, (S g < length ends)%nat -> fit order' ends weight g <= max_bytes /\ fit order' ends weight g <= max_prefetch) -> gentle ends stopper ->
  (exists p, attempt order' ends sizeof max_bytes max_prefetch cast_prefetch head0 stopper = Got _ p) \/ exists st', attempt order' ends sizeof max_bytes max_prefetch cast_prefetch head0 stopper = Again _ st' /\ gentle ends st'.
Proof.
  intros NC FT GE. destruct facts as (ty & TY & WT & WN & H0). destruct (strict_facts False ltac:(contradiction)) as (SD & SC & ST). pose proof RG as ((NE & BL & ALL) & L2 & OT & MX). assert (BE : forall f, (block_end ends f <= length order')%nat) by (rewrite reconfirm_length; exact blocks_le).
  assert (FB : before_first order' ends weight <= max_bytes).
  { rewrite first_load. destruct (FT 0%nat ltac:(lia)) as (F0 & _). rewrite fit_load in F0 by lia. rewrite <- (load_same order head0), load_total in F0. rewrite <- (load_same order head0), load_total. eapply Z.le_trans; [| exact F0]. apply total_le. intros s _. rewrite existsb_app. pose proof (WN s). destruct (existsb _ _); cbn [orb]; [lia |]. destruct (existsb _ _); lia. }
  pose proof (attempt_good order' ends sizeof max_bytes ty weight False TY WT WN SD SC ST BE BL MX max_prefetch cast_prefetch head0 H0 FB L2 ltac:(rewrite reconfirm_length; exact ALL) stopper) as (NB & _). unfold attempt in *.
  destruct (clear_info order' ends) as [info |] eqn:CI; [| exfalso; apply (preclear_some order' ends (length ends) (length ends - 1) (fun _ => None) (fun _ => [])) in CI; [exact CI | lia | exact NC]].
  pose proof (clear_info_ok order' ends BL info NE CI) as IO.
  pose proof (first_before order' ends sizeof max_bytes ty weight False TY WT WN SD SC ST BE head0 H0 FB L2) as B0.
  destruct (rounds_result order' ends sizeof max_bytes ty weight False TY WT WN SD BE BL MX max_prefetch cast_prefetch head0 FT info stopper GE SC ST IO (length ends - 1) 0 _ ltac:(lia) B0) as [(p & R) | (st' & R & G)]; rewrite R in *; [left | right; exists st'; auto].
  destruct (finished _ _); [eexists; reflexivity | congruence].
Qed.
Lemma schedule_total fuel : (length order * length ends < fuel)%nat -> (3 <= length ends -> 0 < nth 1 ends 0)%nat ->
  load order weight (accesses ends 0 ++ accesses ends 1) <= Z.min max_bytes max_prefetch -> (forall f, (2 <= f < length ends)%nat -> load order weight (accesses ends f) <= Z.min max_bytes max_prefetch) ->
  exists p, schedule fuel order ends sizeof max_bytes max_prefetch cast_prefetch head0 = Got _ p.
Proof.
  intros FU N1 LD1 LD2. pose proof RG as ((NE & BL & ALL) & L2 & OT & MX). unfold schedule. assert (FT : forall g, (S g < length ends)%nat -> fit order' ends weight g <= max_bytes /\ fit order' ends weight g <= max_prefetch).
  { intros g G. rewrite fit_load by exact G. destruct g as [| g]; [lia |]. specialize (LD2 (S (S g)) ltac:(lia)). lia. }
  assert (NC : forall k, (2 <= k < length ends)%nat -> block_start ends k <> 0%nat).
  { intros k K. destruct k as [| k]; [lia |]. cbn [block_start]. pose proof (block_mono ends BL 1 k ltac:(lia) ltac:(lia)) as X. specialize (N1 ltac:(lia)). unfold block_end in *. lia. }
  assert (M : (measure order' ends (fun _ => 1%nat) < fuel)%nat) by (rewrite first_measure, reconfirm_length; exact FU). assert (GE : gentle ends (fun _ => 1%nat)) by (intros f k F _; lia).
  revert M GE. generalize (fun _ : nat => 1%nat). clear FU. induction fuel as [| fuel IH]; intros stopper M GE; [lia |]. cbn [attempts]. destruct (attempt_total stopper NC FT GE) as [(p & A) | (st' & A & G)].
  - exists p. rewrite A. reflexivity.
  - pose proof A as A'. apply attempt_up in A' as (g & LG & U); [| exact BL]. rewrite A. apply IH; [| exact G]. pose proof (up_measure order' ends g stopper st' LG U). lia.
Qed.
End final.
