(** Patch correlation: the loops as loops over indices. *)
From Coq Require Import List ZArith Lia Bool QArith Qcanon.
From Verif Require Import NdSpec NdProofs IdxModel IdxProofs1 IdxProofs2 IdxProofs3 JoinModel JoinProofs ScanSpec ScanModel ScanProofs1 ReduceModel ReduceProofs1 ConvModel ConvSpec ConvProofs1 ConvProofs3 ConvProofs7 PoolProofs3 PoolProofs5 ItpModel ItpProofs2 PcModel PcSpec.
Import ListNotations.
Local Open Scope list_scope.
Local Open Scope Z_scope.

Lemma upto_shift n : 0 <= n -> upto (n + 1) = 0 :: map (fun i => i + 1) (upto n).
Proof.
  intros N. unfold upto. replace (Z.to_nat (n + 1)) with (S (Z.to_nat n)) by lia. cbn [seq map]. f_equal. rewrite <- seq_shift, !map_map. apply map_ext. intros a. lia.
Qed.
Lemma stepping_ok step : 0 < step -> forall fuel from last, last - from + 1 <= Z.of_nat fuel ->
  stepping fuel from last step = map (fun i => from + i * step) (upto (Z.max 0 ((last - from) / step + 1))).
Proof.
  intros P. induction fuel as [| fuel IH]; intros from last F.
  - replace (Z.max 0 ((last - from) / step + 1)) with 0; [reflexivity |]. assert ((last - from) / step < 0) by (apply Z.div_lt_upper_bound; lia). lia.
  - cbn [stepping]. destruct (Z.leb_spec from last).
    + rewrite IH by lia. assert (E : (last - (from + step)) / step = (last - from) / step - 1) by (replace (last - (from + step)) with (last - from + (-1) * step) by ring; rewrite Z.div_add by lia; lia).
      assert (0 <= (last - from) / step) by (apply Z.div_pos; lia). rewrite E. replace ((last - from) / step - 1 + 1) with ((last - from) / step) by lia.
      rewrite !Z.max_r by lia. rewrite upto_shift by lia. cbn [map]. f_equal; [ring |]. rewrite map_map. apply map_ext. intros a. ring.
    + replace (Z.max 0 ((last - from) / step + 1)) with 0; [reflexivity |]. assert ((last - from) / step < 0) by (apply Z.div_lt_upper_bound; lia). lia.
Qed.
Lemma quot_count d s : 0 < s -> 0 <= Z.quot (d + s) s -> Z.max 0 (d / s + 1) = Z.quot (d + s) s.
Proof.
  intros P Q. assert (E : (d + s) / s = d / s + 1) by (replace (d + s) with (d + 1 * s) by ring; rewrite Z.div_add; lia).
  destruct (Z.le_gt_cases 0 (d + s)).
  - rewrite Z.quot_div_nonneg in * by lia. lia.
  - assert ((d + s) / s < 0) by (apply Z.div_lt_upper_bound; lia). assert (Z.quot (d + s) s <= 0); [| lia].
    replace (d + s) with (- (- (d + s))) by ring. rewrite Z.quot_opp_l by lia. assert (0 <= Z.quot (- (d + s)) s) by (apply Z.quot_pos; lia). lia.
Qed.
Lemma from_to_ok from last step n : 0 < step -> Z.quot (last - from + step) step = n -> 0 <= n -> from_to from last step = map (fun i => from + i * step) (upto n).
Proof. intros P Q N. unfold from_to. rewrite stepping_ok by lia. rewrite quot_count by (rewrite ?Q; lia). rewrite Q. reflexivity. Qed.

(** A loop that counts. *)
Lemma counted {A S} (B : A -> Z -> S -> option S) L : forall s it,
  loop (fun a '(s, it) => obind (B a it s) (fun s => Some (s, it + 1))) L (s, it) =
  obind (loop (fun '(a, k) => B a k) (combine L (range it (length L))) s) (fun s => Some (s, it + Z.of_nat (length L))).
Proof.
  induction L as [| a L IH]; intros s it; cbn [loop combine length range].
  - cbn [obind]. do 2 f_equal. lia.
  - destruct (B a it s) as [s' |]; cbn [obind]; [| reflexivity]. rewrite IH. destruct (loop _ _ s'); cbn [obind]; [| reflexivity]. do 2 f_equal. lia.
Qed.
Lemma combine_map_r {A B} (f : A -> B) l : combine l (map f l) = map (fun x => (x, f x)) l.
Proof. induction l; cbn [map combine]; congruence. Qed.
Lemma counted_indices {S} (B : list Z -> Z -> S -> option S) sh s : nonneg sh ->
  loop (fun a '(s, it) => obind (B a it s) (fun s => Some (s, it + 1))) (indices sh) (s, 0) =
  obind (loop (fun i => B i (off i sh)) (indices sh) s) (fun s => Some (s, size sh)).
Proof.
  intros P. rewrite counted. pose proof (IdxProofs2.indices_length sh P) as IL. rewrite IL. replace (length (indices sh)) with (Z.to_nat (size sh)) by lia.
  rewrite <- (NdProofs.indices_off sh P), combine_map_r. rewrite <- (loop_map (fun '(a, k) => B a k) (fun x => (x, off x sh))). reflexivity.
Qed.

Section Nest.
Variables (f : patch_corr) (N H W : Z) (oh ow och ocw : Z).
Hypothesis steps_pos : 0 < patch_step_h f /\ 0 < patch_step_w f /\ 0 < shift_step_h f /\ 0 < shift_step_w f.
Hypothesis eoch : Z.quot (2 * shift_h f + shift_step_h f) (shift_step_h f) = och.
Hypothesis eocw : Z.quot (2 * shift_w f + shift_step_w f) (shift_step_w f) = ocw.
Hypothesis eoh : Z.quot (H + (pad_t f + pad_b f) - patch_h f + patch_step_h f) (patch_step_h f) = oh.
Hypothesis eow : Z.quot (W + (pad_l f + pad_r f) - patch_w f + patch_step_w f) (patch_step_w f) = ow.
Hypothesis nn : nonneg [N; oh; ow; och; ocw].
Definition place {A : Type} (body : Z -> Z -> Z -> Z -> Z -> A) (d : A) (idx : list Z) : A :=
  match idx with
  | [n; i; j; k; l] => body n (- pad_t f + i * patch_step_h f) (- pad_l f + j * patch_step_w f) (- shift_h f + k * shift_step_h f) (- shift_w f + l * shift_step_w f)
  | _ => d
  end.
Lemma each_place_ok {A : Type} (body : Z -> Z -> Z -> Z -> Z -> Z -> A -> option A) s :
  each_place f N H W body s = obind (loop (fun idx => place body (fun _ _ => None) idx (off idx [N; oh; ow; och; ocw])) (indices [N; oh; ow; och; ocw]) s) (fun s => Some (s, size [N; oh; ow; och; ocw])).
Proof using steps_pos eoch eocw eoh eow nn.
  rewrite <- (counted_indices (fun idx => place body (fun _ _ => None) idx)) by exact nn. unfold each_place.
  destruct steps_pos as (P1 & P2 & P3 & P4). assert (NN : 0 <= oh /\ 0 <= ow /\ 0 <= och /\ 0 <= ocw) by (pose proof nn as Q; unfold nonneg in Q; rewrite !Forall_cons_iff in Q; lia).
  rewrite (from_to_ok (- shift_w f) (shift_w f) (shift_step_w f) ocw), (from_to_ok (- shift_h f) (shift_h f) (shift_step_h f) och),
    (from_to_ok (- pad_l f) (W - patch_w f + pad_r f) (patch_step_w f) ow), (from_to_ok (- pad_t f) (H - patch_h f + pad_b f) (patch_step_h f) oh) by (lia || (rewrite <- ?eocw, <- ?eoch, <- ?eoh, <- ?eow; f_equal; lia)).
  rewrite loop_cons. apply loop_ext. intros n s1 _.
  rewrite loop_cons. rewrite <- (loop_map _ (fun i => - pad_t f + i * patch_step_h f)). apply loop_ext. intros i s2 _.
  rewrite loop_cons. rewrite <- (loop_map _ (fun i => - pad_l f + i * patch_step_w f)). apply loop_ext. intros j s3 _.
  rewrite loop_cons. rewrite <- (loop_map _ (fun i => - shift_h f + i * shift_step_h f)). apply loop_ext. intros k s4 _.
  rewrite loop_indices_1. rewrite <- (loop_map _ (fun i => - shift_w f + i * shift_step_w f)). apply loop_ext. intros l [s5 it] _. reflexivity.
Qed.
End Nest.

(** * The pairs of elements of two patches *)
Section Pairs.
Variables (f : patch_corr) (N H W C : Z).
Hypothesis NN : 0 <= N /\ 0 <= H /\ 0 <= W /\ 0 <= C /\ 0 <= patch_h f /\ 0 <= patch_w f.
Definition flat (n y x : Z) : Z := n * H * W * C + y * W * C + x * C.
Definition rows_in (y yy ky : Z) : bool := (0 <=? y + ky) && (y + ky <? H) && (0 <=? y + yy + ky) && (y + yy + ky <? H).
Definition cols_in (x xx kx : Z) : bool := (0 <=? x + kx) && (x + kx <? W) && (0 <=? x + xx + kx) && (x + xx + kx <? W).
(** The sum of [F] at all pairs. *)
Definition pairs (F : Z -> Z -> Qc) (n y x yy xx : Z) : Qc :=
  zsum (patch_h f) (fun ky => if rows_in y yy ky then zsum (patch_w f) (fun kx => if cols_in x xx kx then
    zsum C (fun c => F (flat n (y + ky) (x + kx) + c) (flat n (y + yy + ky) (x + xx + kx) + c)) else 0%Qc) else 0%Qc).
Definition M := size [N; H; W; C].
Lemma flat_within n y x c : 0 <= n < N -> 0 <= y < H -> 0 <= x < W -> 0 <= c < C -> within M (flat n y x + c).
Proof using NN.
  intros. assert (I : inside [n; y; x; c] [N; H; W; C]) by (repeat constructor; lia). pose proof (off_bound _ _ I) as B. unfold within, M. cbn [off size] in *. unfold flat. cbn [size]. lia.
Qed.
Lemma rows_true y yy ky : rows_in y yy ky = true -> 0 <= y + ky < H /\ 0 <= y + yy + ky < H.
Proof using. unfold rows_in. rewrite !andb_true_iff, !Z.leb_le, !Z.ltb_lt. lia. Qed.
Lemma cols_true x xx kx : cols_in x xx kx = true -> 0 <= x + kx < W /\ 0 <= x + xx + kx < W.
Proof using. unfold cols_in. rewrite !andb_true_iff, !Z.leb_le, !Z.ltb_lt. lia. Qed.
Lemma pairs_ext F G n y x yy xx : (forall p q, F p q = G p q) -> pairs F n y x yy xx = pairs G n y x yy xx.
Proof using.
  intros E. unfold pairs. apply zsum_ext. intros ky _. destruct (rows_in y yy ky); [| reflexivity]. apply zsum_ext. intros kx _. destruct (cols_in x xx kx); [| reflexivity]. apply zsum_ext. intros c _. apply E.
Qed.
Lemma pairs_scale F g n y x yy xx : pairs (fun p q => g * F p q)%Qc n y x yy xx = (g * pairs F n y x yy xx)%Qc.
Proof using.
  unfold pairs. rewrite <- zsum_scale. apply zsum_ext. intros ky _. destruct (rows_in y yy ky); [| ring]. rewrite <- zsum_scale. apply zsum_ext. intros kx _. destruct (cols_in x xx kx); [| ring]. apply zsum_scale.
Qed.
(** The value of one output element. *)
Lemma sum_up (step : Z -> Qc -> option Qc) g n : 0 <= n -> (forall i v, 0 <= i < n -> step i v = Some (v + g i)%Qc) -> forall v, loop step (upto n) v = Some (v + zsum n g)%Qc.
Proof using.
  intros P ST v. destruct (loop_inv (fun m s => s = (v + zsum m g)%Qc) step n P) with (s := v) as (s & E & ->).
  - intros i s I ->. exists (v + zsum i g + g i)%Qc. split; [apply ST; exact I |]. rewrite zsum_S by lia. ring.
  - rewrite zsum_0. ring.
  - exact E.
Qed.
Lemma value_ok in1 in2 n y x yy xx : qlen in1 = M -> qlen in2 = M -> 0 <= n < N ->
  each_pair f H W C n y x yy xx (fun i1 i2 value => obind (get in1 i1) (fun a => obind (get in2 i2) (fun b => Some (value + a * b)%Qc))) 0%Qc =
  Some (pairs (fun p q => qat in1 p * qat in2 q)%Qc n y x yy xx).
Proof using NN.
  intros L1 L2 B. unfold each_pair. rewrite (sum_up _ (fun ky => if rows_in y yy ky then zsum (patch_w f) (fun kx => if cols_in x xx kx then
    zsum C (fun c => qat in1 (flat n (y + ky) (x + kx) + c) * qat in2 (flat n (y + yy + ky) (x + xx + kx) + c))%Qc else 0%Qc) else 0%Qc)).
  - f_equal. unfold pairs. ring.
  - lia.
  - intros ky v K. fold (rows_in y yy ky). destruct (rows_in y yy ky) eqn:R; [| f_equal; ring]. apply rows_true in R. apply sum_up; [lia |].
    intros kx v1 Kx. fold (cols_in x xx kx). destruct (cols_in x xx kx) eqn:Cc; [| f_equal; ring]. apply cols_true in Cc. apply sum_up; [lia |].
    intros c v2 Hc. change (n * H * W * C + (y + ky) * W * C + (x + kx) * C) with (flat n (y + ky) (x + kx)). change (n * H * W * C + (y + yy + ky) * W * C + (x + xx + kx) * C) with (flat n (y + yy + ky) (x + xx + kx)).
    rewrite get_ok by (rewrite L1; apply flat_within; lia). cbn [obind]. rewrite get_ok by (rewrite L2; apply flat_within; lia). reflexivity.
Qed.
End Pairs.
