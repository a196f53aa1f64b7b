(** C24: packing and padding sequences are inverse. *)
From Coq Require Import List Arith Bool Lia Sorting.Sorted Permutation.
From Verif Require Import PackModel PackSpec PackProofs.
Import ListNotations.
Local Open Scope list_scope.

Lemma sizes_le l t : nth t (sizes l) 0 <= length l.
Proof. rewrite sizes_nth. apply cnt_le. Qed.

(** Packing: the batch sizes count the sequences longer than each step, and the packed
    elements are those of the sequences, step by step. *)
Theorem C24_pack_partial : forall A bf T D (x : list A) lengths bs0 y0,
  decreasing lengths -> list_max lengths = T -> length x = T * length lengths * D ->
  length bs0 = T -> length y0 = total lengths * D ->
  exists y bs, pack_padded bf T D x lengths bs0 y0 = Some (y, bs) /\ length bs = T /\ length y = total lengths * D /\
    (forall t, nth t bs 0 = length (filter (fun l => t <? l) lengths)) /\
    forall j t b d, nth_error (packed_order lengths T D) j = Some (t, b, d) ->
      exists v, cell bf T (length lengths) D x t b d v /\ nth_error y j = Some v.
Proof.
  intros A bf T D x lengths bs0 y0 S M Lx Lb Ly. unfold pack_padded. rewrite counts_enough. fold (sizes lengths).
  rewrite write_all by (rewrite sizes_length; lia).
  assert (E : pack_cells (sizes lengths) T D = packed_order lengths T D) by (apply pack_cells_order; auto; lia).
  destruct (pack_ok bf overwrite x (sizes lengths) y0 T T (length lengths) D) as (y & P & L & H); auto.
  - intros. apply sizes_le.
  - rewrite E, packed_length by (auto; lia). auto.
  - rewrite P. exists y, (sizes lengths). split; auto. split; [rewrite sizes_length; auto|]. split; [lia|]. split; [apply sizes_nth|].
    intros j t b d J. rewrite <- E in J. destruct (H _ _ _ _ J) as (v & o & C & _ & R). exists v. auto.
Qed.

Lemma in_order lengths T D t b d : In (t, b, d) (packed_order lengths T D) <-> t < T /\ b < length lengths /\ t < nth b lengths 0 /\ d < D.
Proof.
  unfold packed_order. rewrite in_flat_map. split.
  - intros (t' & I & H). apply in_flat_map in H. destruct H as (b' & I' & H). apply in_map_iff in H. destruct H as (d' & E & I'').
    injection E as -> -> ->. apply filter_In in I'. rewrite Nat.ltb_lt in I'. rewrite in_seq in *. lia.
  - intros (Ht & Hb & Hl & Hd). exists t. rewrite in_seq. split; [lia|]. apply in_flat_map. exists b. rewrite filter_In, in_seq, Nat.ltb_lt. split; [lia|].
    apply in_map_iff. exists d. rewrite in_seq. split; auto. lia.
Qed.

Definition steps (T total_length : nat) : nat := if T <? total_length then total_length else T.
(** The padded result: the sequences of [x], and zero after their ends. *)
Definition restored {A} (bf : bool) (zero : A) (T TL D : nat) (lengths : list nat) (x z : list A) : Prop :=
  let B := length lengths in
  length z = TL * B * D /\
  forall t b d, t < TL -> b < B -> d < D ->
    if t <? nth b lengths 0 then exists v, cell bf T B D x t b d v /\ cell bf TL B D z t b d v
    else cell bf TL B D z t b d zero.

Lemma pad_sizes {A} bf (zero pv : A) tl D y lengths l0 z0 :
  decreasing lengths -> lengths <> [] -> Forall (fun l => 0 < l) lengths ->
  let T := list_max lengths in let TL := steps T tl in let B := length lengths in
  length l0 = B -> length z0 = TL * B * D -> length y = total lengths * D ->
  exists z, pad_packed bf zero pv tl D y (sizes lengths) l0 z0 = Some (z, lengths) /\ length z = length z0 /\
    (forall j t b d, nth_error (packed_order lengths T D) j = Some (t, b, d) ->
      exists v, nth_error y j = Some v /\ cell bf TL B D z t b d v) /\
    (forall t b d, t < TL -> b < B -> d < D -> ~ t < nth b lengths 0 -> cell bf TL B D z t b d zero).
Proof.
  intros S N P T TL B Ll Lz Ly. unfold pad_packed. rewrite sizes_length. fold T.
  pose proof (max_positive _ N P) as Tp. fold T in Tp. destruct (Nat.eqb_spec T 0); [lia|]. fold (steps T tl). fold TL.
  rewrite counts_enough. fold (sizes (sizes lengths)). rewrite sizes_sizes by auto. rewrite write_all by auto.
  rewrite sizes_max by auto. fold B.
  assert (E : pack_cells (sizes lengths) T D = packed_order lengths T D) by (apply pack_cells_order; auto).
  assert (TLT : T <= TL) by (unfold TL, steps; destruct (Nat.ltb_spec T tl); lia).
  destruct (unpack_all bf (Some zero) overwrite y (sizes lengths) z0 T TL B D) as (z & U & L & H1 & H2); auto.
  - intros. apply sizes_le.
  - rewrite E, packed_length by auto. lia.
  - rewrite U. exists z. split; auto. split; auto. split.
    + intros j t b d J. rewrite <- E in J. destruct (H1 _ _ _ _ J) as (v & o & V & _ & C). exists v. auto.
    + intros t b d Ht Hb Hd NL. destruct (cell_some bf TL B D z0 t b d Lz Ht Hb Hd) as (o & C). apply (H2 _ _ _ _ C).
      rewrite E, in_order. tauto.
Qed.

(** Padding what was packed gives back the sequences and their lengths. *)
Theorem C24_roundtrip_partial : forall A bf (zero padding_value : A) T total_length D x lengths bs0 y0 l0 z0,
  decreasing lengths -> lengths <> [] -> Forall (fun l => 0 < l) lengths -> list_max lengths = T ->
  let B := length lengths in
  length x = T * B * D -> length bs0 = T -> length y0 = total lengths * D ->
  length l0 = B -> length z0 = steps T total_length * B * D ->
  exists y bs z, pack_padded bf T D x lengths bs0 y0 = Some (y, bs) /\
    pad_packed bf zero padding_value total_length D y bs l0 z0 = Some (z, lengths) /\
    restored bf zero T (steps T total_length) D lengths x z.
Proof.
  intros A bf zero pv T tl D x lengths bs0 y0 l0 z0 S N P M B Lx Lb Ly Ll Lz.
  destruct (C24_pack_partial A bf T D x lengths bs0 y0 S M Lx Lb Ly) as (y & bs & Pk & Lbs & Ly' & Hbs & Hy).
  assert (Ebs : bs = sizes lengths).
  { apply nth_ext with (d := 0) (d' := 0); [rewrite sizes_length; lia|]. intros t _. rewrite Hbs, sizes_nth. auto. }
  subst bs T.
  destruct (pad_sizes bf zero pv tl D y lengths l0 z0 S N P Ll Lz Ly') as (z & Pd & L & H1 & H2).
  exists y, (sizes lengths), z. split; auto. split; auto. split; [lia|].
  intros t b d Ht Hb Hd. destruct (Nat.ltb_spec t (nth b lengths 0)) as [Lt|Lt]; [|apply H2; auto; lia].
  pose proof (nth_max lengths b) as Mx.
  assert (I : In (t, b, d) (packed_order lengths (list_max lengths) D)) by (apply in_order; repeat split; auto; lia).
  apply In_nth_error in I. destruct I as [j J]. destruct (Hy _ _ _ _ J) as (v & C & V). destruct (H1 _ _ _ _ J) as (v' & V' & C').
  rewrite V in V'. injection V' as <-. exists v. auto.
Qed.

(** With enforce_sorted=False, for any result of the sort. *)
Theorem C24_unsorted_partial : forall A bf (zero padding_value : A) T total_length D x lengths sorted bs0 y0 l0 z0,
  Permutation sorted (seq 0 (length lengths)) -> decreasing (map (fun i => nth i lengths 0) sorted) ->
  lengths <> [] -> Forall (fun l => 0 < l) lengths -> list_max lengths = T ->
  let B := length lengths in
  length x = T * B * D -> length bs0 = T -> length y0 = total lengths * D ->
  length l0 = B -> length z0 = steps T total_length * B * D ->
  exists y bs u z, pack_unsorted bf T D x lengths sorted bs0 y0 = Some (y, bs, u) /\
    pad_unsorted bf zero padding_value total_length D y bs u l0 z0 = Some (z, lengths) /\
    restored bf zero T (steps T total_length) D lengths x z.
Proof.
  intros A bf zero pv T tl D x lengths sorted bs0 y0 l0 z0 Pm S N P M B Lx Lb Ly Ll Lz.
  assert (Ls : length sorted = B) by (rewrite (Permutation_length Pm), seq_length; auto).
  assert (Is : forall s, In s sorted -> s < B) by (intros s I; apply (Permutation_in _ Pm), in_seq in I; lia).
  assert (ND : NoDup sorted) by (eapply Permutation_NoDup; [symmetry; exact Pm|apply seq_NoDup]).
  set (l' := map (fun i => nth i lengths 0) sorted) in *.
  assert (Pl : Permutation l' lengths).
  { pose proof (Permutation_map (fun i => nth i lengths 0) Pm) as Q. rewrite map_nth_seq in Q. exact Q. }
  assert (Ll' : length l' = B) by (unfold l'; rewrite map_length; auto).
  unfold pack_unsorted. fold B.
  destruct (read_ok lengths sorted Is) as (l1 & R1 & Lr1 & N1).
  assert (E1 : l1 = l').
  { apply nth_ext with (d := 0) (d' := nth 0 lengths 0); [unfold l'; rewrite map_length; auto|]. intros k K.
    unfold l'. rewrite map_nth with (f := fun i => nth i lengths 0).
    destruct (nth_error sorted k) as [s|] eqn:Sk; [|apply nth_error_None in Sk; lia].
    specialize (N1 _ _ Sk). rewrite (nth_error_nth sorted k 0 Sk). assert (s < B) by (apply Is; eapply nth_error_In; eauto).
    rewrite (nth_error_nth' lengths 0) in N1 by (unfold B in *; lia). apply (nth_error_nth l1 k 0 N1). }
  rewrite R1, E1.
  destruct (scatter_ok sorted 0 (repeat 0 B) ND) as (u & Su & Lu & Hu & _); [intros; rewrite repeat_length; auto|].
  rewrite repeat_length in Lu. rewrite Su.
  destruct (gather_ok bf T D x B sorted Lx Is) as (xg & G & Lg & Hg). rewrite G. rewrite Ls in *.
  assert (N' : l' <> []) by (intros E; rewrite E in Ll'; cbn in Ll'; destruct lengths; [congruence|discriminate]).
  assert (P' : Forall (fun l => 0 < l) l') by (eapply Permutation_Forall; [symmetry; exact Pl|auto]).
  assert (M' : list_max l' = T) by (rewrite (max_perm _ _ Pl); auto).
  assert (Ly' : length y0 = total l' * D) by (rewrite (total_perm _ _ Pl); auto).
  destruct (C24_roundtrip_partial A bf zero pv T tl D xg l' bs0 y0 l0 z0) as (y & bs & z & Pk & Pd & Lzz & Rz); auto; try (rewrite Ll'; auto).
  rewrite Pk. exists y, bs, u. rewrite Ll' in *.
  assert (Ebs : length bs = T /\ list_max bs = B).
  { destruct (C24_pack_partial A bf T D xg l' bs0 y0) as (y2 & bs2 & Pk2 & Lbs & _ & Hb & _); auto; [rewrite Ll'; auto|].
    rewrite Pk in Pk2. injection Pk2 as <- <-. split; auto.
    assert (bs = sizes l') as -> by (apply nth_ext with (d := 0) (d' := 0); [rewrite sizes_length; lia|intros; rewrite Hb, sizes_nth; auto]).
    rewrite sizes_max by auto. auto. }
  destruct Ebs as [Lbs Mbs].
  unfold pad_unsorted. rewrite Pd, Lbs, Mbs. fold (steps T tl). set (TL := steps T tl) in *.
  assert (Iu : forall b i, nth_error u b = Some i -> b < B /\ nth_error sorted i = Some b).
  { intros b i Hb. assert (Bb : b < B) by (rewrite <- Lu; apply nth_error_Some; congruence). split; auto.
    assert (I : In b sorted) by (eapply Permutation_in; [symmetry; exact Pm|apply in_seq; unfold B in *; lia]).
    apply In_nth_error in I. destruct I as [k K]. pose proof (Hu _ _ K) as E. rewrite Hb in E. injection E as ->. auto. }
  assert (Bu : forall i, In i u -> i < B).
  { intros i I. apply In_nth_error in I. destruct I as [b I]. apply Iu in I. destruct I as [_ I]. rewrite <- Ls. apply nth_error_Some. congruence. }
  destruct (gather_ok bf TL D z B u Lzz Bu) as (z' & Gz & Lz' & Hz'). rewrite Gz. rewrite Lu in *.
  assert (Bu' : forall i, In i u -> i < length l') by (rewrite Ll'; auto).
  destruct (read_ok l' u Bu') as (l2 & R2 & Lr2 & N2). rewrite R2.
  assert (Nl : forall b i, nth_error u b = Some i -> nth i l' 0 = nth b lengths 0).
  { intros b i Hb. destruct (Iu _ _ Hb) as [Bb Si]. apply nth_error_nth. unfold l'. rewrite nth_error_map, Si. auto. }
  assert (E2 : l2 = lengths).
  { apply nth_ext with (d := 0) (d' := 0); [lia|]. intros b K. rewrite Lr2, Lu in K.
    destruct (nth_error u b) as [i|] eqn:Ub; [|apply nth_error_None in Ub; lia].
    apply nth_error_nth. rewrite (N2 _ _ Ub). rewrite <- (Nl _ _ Ub). apply nth_error_nth'. apply Bu'. eapply nth_error_In; eauto. }
  exists z'. split; auto. rewrite E2. split; auto. split; [exact Lz'|].
  intros t b d Ht Hb Hd. destruct (nth_error u b) as [i|] eqn:Ub; [|apply nth_error_None in Ub; unfold B in *; lia].
  destruct (Iu _ _ Ub) as [Bb Si]. assert (Bi : i < B) by (apply Bu; eapply nth_error_In; eauto).
  specialize (Rz t i d Ht Bi Hd). rewrite (Nl _ _ Ub) in Rz.
  destruct (Nat.ltb_spec t (nth b lengths 0)) as [Lt|Lt].
  - destruct Rz as (v & Cx & Cz). exists v. split; [|eapply Hz'; eauto].
    assert (Tt : t < T) by (pose proof (nth_max lengths b); lia).
    destruct (cell_some bf T B D x t b d Lx Tt Bb Hd) as (w & W).
    pose proof (Hg _ _ _ _ _ Si W) as Wg. rewrite (cell_fun _ _ _ _ _ _ _ _ _ _ Cx Wg). exact W.
  - eapply Hz'; eauto.
Qed.

(** Backward of packing sends the gradient of each packed element to the element it came
    from, and zero (or nothing, when accumulating) to the padding. *)
Theorem C24_pack_backward_partial : forall A bf (zero : A) add accum T D lengths bs gy gx,
  decreasing lengths -> list_max lengths = T -> (forall t, nth t bs 0 = length (filter (fun l => t <? l) lengths)) ->
  let B := length lengths in
  length gx = T * B * D -> length gy = total lengths * D ->
  exists r, pack_backward bf zero add accum T B D gy bs gx = Some r /\ length r = length gx /\
    (forall j t b d, nth_error (packed_order lengths T D) j = Some (t, b, d) -> exists g o,
      nth_error gy j = Some g /\ cell bf T B D gx t b d o /\ cell bf T B D r t b d (if accum then add o g else g)) /\
    (forall t b d o, cell bf T B D gx t b d o -> nth b lengths 0 <= t -> cell bf T B D r t b d (if accum then o else zero)).
Proof.
  intros A bf zero add accum T D lengths bs gy gx S M Hbs B Lx Ly.
  assert (E : pack_cells bs T D = packed_order lengths T D).
  { rewrite <- (pack_cells_order lengths T D) by (auto; lia). unfold pack_cells. apply flat_map_ext. intros t. rewrite Hbs, sizes_nth. auto. }
  assert (Hb : forall t, t < T -> nth t bs 0 <= B) by (intros; rewrite Hbs; apply cnt_le).
  assert (Lp : length (pack_cells bs T D) <= length gy) by (rewrite E, packed_length by (auto; lia); lia).
  unfold pack_backward. destruct accum.
  - destruct (unpack_all bf None add gy bs gx T T B D) as (r & U & L & H1 & H2); auto. exists r. split; auto. split; auto. split.
    + intros j t b d J. rewrite <- E in J. destruct (H1 _ _ _ _ J) as (v & o & V & C & C'). exists v, o. auto.
    + intros t b d o C Lt. apply (H2 _ _ _ _ C). rewrite E, in_order. lia.
  - destruct (unpack_all bf (Some zero) overwrite gy bs gx T T B D) as (r & U & L & H1 & H2); auto. exists r. split; auto. split; auto. split.
    + intros j t b d J. rewrite <- E in J. destruct (H1 _ _ _ _ J) as (v & o & V & C & C'). exists v, o. auto.
    + intros t b d o C Lt. apply (H2 _ _ _ _ C). rewrite E, in_order. lia.
Qed.

(** Backward of padding sends to each packed element the gradient of the element it went to. *)
Theorem C24_pad_backward_partial : forall A bf (add : A -> A -> A) accum total_length D lengths bs gz gy,
  decreasing lengths -> lengths <> [] -> Forall (fun l => 0 < l) lengths -> length bs = list_max lengths ->
  (forall t, nth t bs 0 = length (filter (fun l => t <? l) lengths)) ->
  let B := length lengths in let T := list_max lengths in let TL := steps T total_length in
  length gz = TL * B * D -> length gy = total lengths * D ->
  exists r, pad_backward bf add accum total_length D gz bs gy = Some r /\ length r = length gy /\
    forall j t b d, nth_error (packed_order lengths T D) j = Some (t, b, d) -> exists g o,
      cell bf TL B D gz t b d g /\ nth_error gy j = Some o /\ nth_error r j = Some (if accum then add o g else g).
Proof.
  intros A bf add accum tl D lengths bs gz gy S N P Lb Hbs B T TL Lz Ly.
  assert (bs = sizes lengths) as -> by (apply nth_ext with (d := 0) (d' := 0); [rewrite sizes_length; lia|intros; rewrite Hbs, sizes_nth; auto]).
  unfold pad_backward. rewrite sizes_length, sizes_max by auto. fold T. fold (steps T tl). fold TL. fold B.
  assert (E : pack_cells (sizes lengths) T D = packed_order lengths T D) by (apply pack_cells_order; auto).
  destruct (pack_ok bf (if accum then add else overwrite) gz (sizes lengths) gy T TL B D) as (r & U & L & H); auto.
  - unfold TL, steps. destruct (Nat.ltb_spec T tl); lia.
  - intros. apply sizes_le.
  - rewrite E, packed_length by auto. auto.
  - exists r. split; auto. split; auto. intros j t b d J. rewrite <- E in J. destruct (H _ _ _ _ J) as (v & o & C & O & R).
    exists v, o. split; auto. split; auto. destruct accum; auto.
Qed.

(** ** Refutations of the full statement *)
(** A sequence of length zero is lost: lengths (1, 0) come back as (1). *)
Theorem C24_zero_length_refuted : exists y bs z, pack_padded false 1 1 [7; 8] [1; 0] [0] [0] = Some (y, bs) /\
  pad_packed false 0 0 0 1 y bs [5] [6] = Some (z, [1]) /\ z = [7].
Proof. eexists _, _, _. split; [reflexivity|]. split; reflexivity. Qed.
(** With enforce_sorted=False unpacking then indexes past the batch. *)
Theorem C24_zero_length_unsorted_refuted : exists y bs u, pack_unsorted false 1 1 [7; 8] [1; 0] [0; 1] [0] [0] = Some (y, bs, u) /\
  pad_unsorted false 0 0 0 1 y bs u [5] [6] = None.
Proof. eexists _, _, _. split; reflexivity. Qed.
(** When the padded sequence is longer than the longest length, the last batch sizes are
    not written: with 5 left in memory packing reads outside the input. *)
Theorem C24_longer_refuted : pack_padded false 2 1 [7; 8] [1] [5; 5] [0] = None.
Proof. reflexivity. Qed.
(** Lengths that are not decreasing are not rejected, and give other sequences. *)
Theorem C24_order_refuted : exists y bs z, pack_padded false 2 1 [1; 2; 3; 4] [1; 2] [0; 0] [0; 0; 0] = Some (y, bs) /\
  pad_packed false 0 0 0 1 y bs [0; 0] [0; 0; 0; 0] = Some (z, [2; 1]) /\ z = [1; 2; 3; 0].
Proof. eexists _, _, _. split; [reflexivity|]. split; reflexivity. Qed.
(** The padding value is ignored. *)
Theorem C24_padding_value_refuted : exists y bs z, pack_padded false 2 1 [1; 2; 3; 4] [2; 1] [0; 0] [0; 0; 0] = Some (y, bs) /\
  pad_packed false 0 9 0 1 y bs [0; 0] [0; 0; 0; 0] = Some (z, [2; 1]) /\ z = [1; 2; 3; 0].
Proof. eexists _, _, _. split; [reflexivity|]. split; reflexivity. Qed.

(** ** Examples *)
Example C24_example_hypotheses : decreasing [3; 2; 2] /\ [3; 2; 2] <> [] /\ Forall (fun l => 0 < l) [3; 2; 2] /\ list_max [3; 2; 2] = 3.
Proof. split; [repeat constructor|]. split; [discriminate|]. split; [repeat constructor|reflexivity]. Qed.
Example C24_example : exists y bs z, pack_padded true 3 1 [1; 2; 3; 4; 5; 0; 6; 7; 0] [3; 2; 2] [9; 9; 9] (repeat 0 7) = Some (y, bs) /\
  y = [1; 4; 6; 2; 5; 7; 3] /\ bs = [3; 3; 1] /\
  pad_packed true 0 0 4 1 y bs [9; 9; 9] (repeat 9 12) = Some (z, [3; 2; 2]) /\ z = [1; 2; 3; 0; 4; 5; 0; 0; 6; 7; 0; 0].
Proof. eexists _, _, _. split; [reflexivity|]. split; [reflexivity|]. split; [reflexivity|]. split; reflexivity. Qed.
Example C24_example_unsorted : exists y bs u z, pack_unsorted false 3 1 [1; 2; 3; 4; 5; 6; 0; 7; 0] [2; 3; 2] [1; 2; 0] [9; 9; 9] (repeat 0 7) = Some (y, bs, u) /\
  u = [2; 0; 1] /\ pad_unsorted false 0 0 0 1 y bs u [9; 9; 9] (repeat 9 9) = Some (z, [2; 3; 2]) /\ z = [1; 2; 3; 4; 5; 6; 0; 7; 0].
Proof. eexists _, _, _, _. split; [reflexivity|]. split; [reflexivity|]. split; reflexivity. Qed.
Example C24_example_backward : pack_backward true 0 Nat.add true 2 2 1 [1; 2; 3] [2; 1] [10; 10; 10; 10] = Some [11; 13; 12; 10] /\
  pad_backward true Nat.add false 3 1 [1; 2; 3; 4; 5; 6] [2; 1] [0; 0; 0] = Some [1; 4; 2].
Proof. split; reflexivity. Qed.

Print Assumptions C24_pack_partial.
Print Assumptions C24_roundtrip_partial.
Print Assumptions C24_unsorted_partial.
Print Assumptions C24_pack_backward_partial.
Print Assumptions C24_pad_backward_partial.
Print Assumptions C24_zero_length_refuted.
Print Assumptions C24_zero_length_unsorted_refuted.
Print Assumptions C24_longer_refuted.
Print Assumptions C24_order_refuted.
Print Assumptions C24_padding_value_refuted.
