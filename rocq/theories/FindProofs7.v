(** Unique: elements and slices. *)
From Coq Require Import List ZArith Lia Bool Permutation Sorted QArith Qcanon.
From Verif Require Import NdModel NdSpec NdProofs IdxModel IdxSpec IdxProofs1 IdxProofs2 IdxProofs3 IdxProofs5 IdxProofs6 JoinModel JoinSpec JoinProofs JoinProofs2 ScanModel ScanSpec ScanProofs1 ReduceModel ReduceSpec ReduceProofs1 ReduceProofs2 ReduceProofs5 SortModel SortSpec SortProofs1 SortProofs2 SortProofs3 ConvProofs1 FindModel FindSpec FindProofs1 FindProofs3 FindProofs4 FindProofs5 FindProofs6.
Import ListNotations.
Local Open Scope list_scope.
Local Open Scope Z_scope.

Lemma distinct_map {V} (before : V -> V -> Prop) (sorted : bool) n (K : Z -> list Qc) num I f C (val out : Z -> V) I' f' C' :
  distinct lex sorted n K num (fun k => K (I k)) I f C ->
  (forall a b, 0 <= a < n -> 0 <= b < n -> (K a = K b <-> val a = val b)) ->
  (forall a b, 0 <= a < n -> 0 <= b < n -> lex (K a) (K b) -> before (val a) (val b)) ->
  (forall k, 0 <= k < num -> out k = val (I k)) -> (forall k, 0 <= k < num -> I' k = I k /\ C' k = C k) -> (forall a, 0 <= a < n -> f' a = f a) ->
  distinct before sorted n val num out I' f' C'.
Proof.
  intros [D1 D2 D3 D4] EQ LX OUT IC F. constructor.
  - intros k Hk. destruct (IC k Hk) as [-> _]. rewrite OUT by auto. destruct (D1 k Hk) as (B & _ & N). split; [auto|]. split; [auto|]. intros j J E. apply (N j J). apply EQ; auto. lia.
  - intros i Hi. rewrite F by auto. destruct (D2 i Hi) as [B E]. split; [auto|]. rewrite OUT by auto. destruct (D1 _ B) as (B' & _). apply EQ; auto.
  - intros k Hk. destruct (IC k Hk) as [_ ->]. rewrite OUT by auto. destruct (D1 k Hk) as (B & _). destruct (D3 k Hk) as (l & ND & IN & L). exists l. split; [auto|]. split; [|auto].
    intros i. rewrite IN. split; intros [H1 H2]; (split; [auto|]); apply EQ; auto.
  - intros k k' H1 H2. specialize (D4 k k' H1 H2). destruct (D1 k ltac:(lia)) as (B & _). destruct (D1 k' ltac:(lia)) as (B' & _). destruct (IC k ltac:(lia)) as [-> _]. destruct (IC k' ltac:(lia)) as [-> _].
    destruct sorted; [|auto]. rewrite !OUT by lia. apply LX; auto.
Qed.
Lemma row_length x col a : length (row_at x col a) = length (upto col).
Proof. apply map_length. Qed.
Lemma lex_one u v : lex [u] [v] -> (u < v)%Qc.
Proof.
  intros (w & u' & v' & s & t & E1 & E2 & L). destruct w as [|z w]; cbn [app] in *; [inversion E1; inversion E2; subst; auto|]. inversion E1 as [[X Y]]. destruct w; discriminate.
Qed.
Lemma upto_len m : 0 <= m -> Z.of_nat (length (upto m)) = m.
Proof. intros H. unfold upto. rewrite map_length, seq_length. lia. Qed.

Section unique.
Variables std_sort std_stable : (Z -> Z -> bool) -> list Z -> list Z.
Hypothesis STD : sorting std_sort.
Hypothesis SORT : sorting std_stable.
Hypothesis STABLE : stable std_stable.

Lemma unique_flat_ok sorted axis k shape x : nonneg shape -> 0 < size shape -> qlen x = size shape -> denotes axis k (length shape) -> (k < length shape)%nat ->
  exists u, unique std_sort std_stable true axis sorted shape x = Some u /\ u_shape u = [qlen (u_y u)] /\
    glen (u_index u) = qlen (u_y u) /\ glen (u_inverse u) = size shape /\ glen (u_counts u) = qlen (u_y u) /\
    distinct Qclt sorted (size shape) (qat x) (qlen (u_y u)) (qat (u_y u)) (gat 0 (u_index u)) (gat 0 (u_inverse u)) (gat 0 (u_counts u)).
Proof.
  intros NN SP LX D KK. unfold unique. rewrite (refine_denotes _ _ _ D KK). cbn [obind unique_preprocess]. rewrite prod_size.
  destruct (walk_ok (row_at x 1) (length (upto 1)) (row_length x 1) std_stable SORT STABLE (size shape) x 1 eq_refl SP) as (s & E & W).
  rewrite E. cbn [obind]. pose proof (num_pos _ _ _ _ W) as NP. pose proof (len_indices _ _ _ _ W) as LI.
  assert (RK : forall a, 0 <= a -> row_at x 1 a = [qat x a]) by (intros a Ha; unfold row_at, qat; change (upto 1) with [0]; cbn [map]; replace (a * 1 + 0) with a by lia; reflexivity).
  unfold unique_y. fold (glen (s_indices s)). rewrite LI. set (order := output_order std_sort sorted (s_indices s)). set (num := s_num s) in *.
  pose proof (fun i H => get_od (row_at x 1) std_sort std_stable STD (size shape) s W sorted i H) as GO. fold order num in GO.
  pose proof (fun i H => od_ok (row_at x 1) std_sort std_stable STD (size shape) s W sorted i H) as OO. fold order num in OO.
  pose proof (fun i H => get_idx (row_at x 1) std_stable (size shape) s W i H) as GI. fold num in GI.
  pose proof (fun i H => idx_ok (row_at x 1) _ (row_length x 1) std_stable SORT (size shape) s W i H) as IO. fold num in IO.
  destruct (writes_ok 0%Qc num (fun i => i) (fun i _ => qat x (gat 0 (s_indices s) (gat 0 order i)))
     (fun i y => obind (get order i) (fun o => obind (get (s_indices s) o) (fun k => obind (get x k) (fun v => put y i v)))) (upto num)) with (a := repeat 0%Qc (Z.to_nat num)) as (y & Ey & Ly & Vy & _).
  { rewrite map_id. apply upto_nodup. } { intros i Hi. apply upto_in in Hi. auto. }
  { intros i a Hi _. apply upto_in in Hi. rewrite GO by auto. cbn [obind]. rewrite GI by (apply OO; auto). cbn [obind]. rewrite get_ok by (unfold within; rewrite LX; apply IO, OO; auto). reflexivity. }
  { unfold glen. rewrite repeat_length. lia. }
  rewrite Ey. cbn [obind]. rewrite repeat_length in Ly.
  pose proof (index_ok (row_at x 1) std_sort std_stable STD (size shape) s W sorted) as EI. fold order num in EI. rewrite EI. cbn [obind].
  destruct (distinct_ok (row_at x 1) _ (row_length x 1) std_sort std_stable STD SORT (size shape) SP s W sorted) as (f & Ef & DD). fold order num in Ef, DD. rewrite Ef. cbn [obind].
  pose proof (counts_ok (row_at x 1) std_sort std_stable STD (size shape) s W sorted) as EC. fold order num in EC. rewrite EC. cbn [obind].
  eexists. split; [reflexivity|]. cbn [u_shape u_y u_index u_inverse u_counts]. assert (LY : qlen y = num) by (unfold qlen; lia). rewrite LY.
  split; [auto|]. unfold glen. rewrite !map_length, !upto_len by lia. split; [auto|]. split; [auto|]. split; [auto|].
  eapply distinct_map; [exact DD| | | | |].
  - intros a b Ha Hb. rewrite !RK by lia. split; [intros X; inversion X; auto|intros ->; auto].
  - intros a b Ha Hb. rewrite !RK by lia. apply lex_one.
  - intros j Hj. change (qat y j) with (gat 0%Qc y j). apply Vy. apply upto_in. auto.
  - intros j Hj. rewrite !gat_upto by auto. auto.
  - intros a Ha. apply gat_upto. auto.
Qed.
End unique.
