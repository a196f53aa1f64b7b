(** TopNError, ConfusionMatrix and BinaryError. *)
From Coq Require Import List ZArith Lia Bool Permutation QArith Qcanon.
From Verif Require Import NdModel NdSpec NdProofs IdxModel IdxSpec IdxProofs1 IdxProofs2 IdxProofs3 IdxProofs6 JoinModel JoinSpec JoinProofs JoinProofs2 ScanModel ScanSpec ScanProofs1 ReduceModel ReduceSpec ReduceProofs1 ReduceProofs2 ReduceProofs5 SortModel SortSpec SortProofs1 SortProofs2 SortProofs3 ConvProofs1 FindModel FindSpec FindProofs1.
Import ListNotations.
Local Open Scope list_scope.
Local Open Scope Z_scope.

Lemma labels_fit_ok A n B : forall a, a = Z.of_nat (length A) -> labels_fit a (A ++ n :: B) (A ++ 1 :: B) = true.
Proof.
  assert (G : forall B a, a < 0 -> labels_fit a B B = true).
  { clear. induction B as [|b B IH]; intros a H; cbn [labels_fit]; [auto|]. destruct (Z.eqb_spec a 0); [lia|]. rewrite Z.eqb_refl, IH by lia. auto. }
  induction A as [|x A IH]; intros a ->; cbn [app labels_fit length].
  - cbn. apply G. lia.
  - destruct (Z.eqb_spec (Z.of_nat (S (length A))) 0); [lia|]. rewrite Z.eqb_refl, IH by lia. auto.
Qed.
Lemma label_setup_ok axis A n B : positive A -> 0 < n -> positive B -> denotes axis (length A) (length (A ++ n :: B)) ->
  label_setup axis (A ++ n :: B) (A ++ 1 :: B) = Some (size A, n, size B).
Proof.
  intros PA Hn PB D. pose proof (size_pos A PA). pose proof (size_pos B PB). unfold label_setup.
  rewrite (refine_denotes _ _ _ D) by (rewrite app_length; cbn; lia). cbn [obind]. rewrite labels_fit_ok by auto. cbn [negb]. unfold vget.
  destruct (Z.ltb_spec (Z.of_nat (length A)) 0); [lia|]. rewrite !Nat2Z.id, nth_error_at, size_from_0, size_from_app, size_app. cbn [obind size].
  rewrite divide_mul by nia. cbn [obind]. rewrite (Z.mul_comm (size A)), divide_mul by lia. cbn [obind].
  rewrite (Z.mul_comm n), divide_mul by lia. cbn [obind]. destruct (Z.eqb_spec (size A * n * size B) (size B * n * size A)); [auto|lia].
Qed.

Lemma in_cube a b n i j c : 0 <= i < a -> 0 <= j < b -> 0 <= c < n -> 0 <= i * n * b + j + c * b < a * n * b.
Proof.
  intros I J C. pose proof (Z.mul_le_mono_nonneg_r (c + 1) n b ltac:(lia) ltac:(lia)) as H1.
  pose proof (Z.mul_le_mono_nonneg_r (i + 1) a (n * b) ltac:(nia) ltac:(lia)) as H2.
  assert (0 <= n * b) by nia. assert (0 <= i * (n * b)) by (apply Z.mul_nonneg_nonneg; lia). assert (0 <= c * b) by nia. replace (i * n * b) with (i * (n * b)) by ring. replace (a * n * b) with (a * (n * b)) by ring. lia.
Qed.
Section axis.
Variables (A : list Z) (n : Z) (B : list Z).
Hypothesis PA : positive A.
Hypothesis Hn : 0 < n.
Hypothesis PB : positive B.
Let sh := A ++ n :: B.
Let lsh := A ++ 1 :: B.
Lemma at_score p c r : inside p A -> 0 <= c < n -> inside r B -> position 0 (p ++ c :: r) sh = off p A * n * size B + off r B + c * size B.
Proof.
  intros P K R. rewrite position_off by (apply Forall2_app; [auto|constructor; auto]). unfold sh. rewrite off_app by (auto; constructor; auto). cbn [size off]. ring.
Qed.
Lemma at_label p r : inside p A -> inside r B -> position 0 (p ++ 0 :: r) lsh = off p A * size B + off r B.
Proof.
  intros P R. assert (0 <= 0 < 1) by lia. rewrite position_off by (apply Forall2_app; [auto|constructor; auto]). unfold lsh. rewrite off_app by (auto; constructor; auto). cbn [size off]. ring.
Qed.
Variables (x : list Qc) (l : list Z).
Hypothesis LX : qlen x = size sh.
Hypothesis LL : glen l = size lsh.
Lemma size_sh : size sh = size A * n * size B.
Proof. unfold sh. rewrite size_app. cbn [size]. ring. Qed.
Lemma size_lsh : size lsh = size A * size B.
Proof. unfold lsh. rewrite size_app. cbn [size]. ring. Qed.
Definition sc (i j c : Z) : Qc := qat x (i * n * size B + j + c * size B).
Lemma get_score i j c : 0 <= i < size A -> 0 <= j < size B -> 0 <= c < n -> get x (i * n * size B + j + c * size B) = Some (sc i j c).
Proof.
  intros I J C. apply get_ok. unfold within. rewrite LX, size_sh. apply in_cube; auto.
Qed.
Lemma get_label i j : 0 <= i < size A -> 0 <= j < size B -> get l (i * size B + j) = Some (gat 0 l (i * size B + j)).
Proof. intros I J. apply gget_ok. unfold within. rewrite LL, size_lsh. nia. Qed.
Hypothesis LB : forall p r, inside p A -> inside r B -> 0 <= elem l lsh (p ++ 0 :: r) < n.
Lemma label_bound i j : 0 <= i < size A -> 0 <= j < size B -> 0 <= gat 0 l (i * size B + j) < n.
Proof.
  intros I J. destruct (off_onto A i (positive_nonneg _ PA) I) as (p & P & <-). destruct (off_onto B j (positive_nonneg _ PB) J) as (r & R & <-).
  specialize (LB p r P R). unfold elem in LB. rewrite at_label in LB by auto. exact LB.
Qed.

(** * The N-th place *)
Definition atleast (i j : Z) (t : Qc) : Z := Z.of_nat (length (filter (fun c => negb (less (sc i j c) t)) (upto n))).
Lemma count_loop i j t : 0 <= i < size A -> 0 <= j < size B ->
  loop (fun i1 count => obind (get x (i * n * size B + j + i1 * size B)) (fun v => Some (count + (if less v t then 0 else 1)))) (upto n) 0 = Some (atleast i j t).
Proof.
  intros I J. unfold atleast. assert (G : forall L c, (forall k, In k L -> 0 <= k < n) ->
    loop (fun i1 count => obind (get x (i * n * size B + j + i1 * size B)) (fun v => Some (count + (if less v t then 0 else 1)))) L c = Some (c + Z.of_nat (length (filter (fun c => negb (less (sc i j c) t)) L)))).
  { induction L as [|k L IH]; intros c H; cbn [loop filter]; [cbn; f_equal; lia|]. rewrite get_score by (auto; apply H; left; auto). cbn [obind].
    rewrite IH by (intros; apply H; right; auto). destruct (less (sc i j k) t); cbn [negb length]; f_equal; lia. }
  rewrite G by (intros k Hk; apply upto_in in Hk; auto). f_equal.
Qed.
Lemma top_n_forward_ok axis N y0 : denotes axis (length A) (length sh) -> glen y0 = size lsh ->
  exists y, top_n_forward axis N sh lsh x l y0 = Some y /\ length y = length y0 /\
  forall p r, inside p A -> inside r B -> elem y lsh (p ++ 0 :: r) = if N <? atleast (off p A) (off r B) (qelem x sh (p ++ elem l lsh (p ++ 0 :: r) :: r)) then 1 else 0.
Proof.
  intros D L0. unfold top_n_forward, sh, lsh. rewrite label_setup_ok by auto. fold sh lsh. cbn [obind]. rewrite loop_cells.
  set (V := fun i j => if N <? atleast i j (sc i j (gat 0 l (i * size B + j))) then 1 else 0).
  destruct (writes_ok 0 (size lsh) (fun c => fst c * size B + snd c) (fun c _ => V (fst c) (snd c))
     (fun c => top_n_step N n (size B) x l (fst c) (snd c)) (cells (size A) (size B))) with (a := y0) as (y & E & L & W & _).
  - apply cells_nodup.
  - intros [i j] H. apply cells_in in H as [H1 H2]. cbn [fst snd] in *. rewrite size_lsh. nia.
  - intros [i j] a H La. apply cells_in in H as [H1 H2]. cbn [fst snd] in *. unfold top_n_step. rewrite get_label by auto. cbn [obind].
    pose proof (label_bound i j H1 H2). rewrite get_score by auto. cbn [obind]. rewrite count_loop by auto. cbn [obind]. reflexivity.
  - auto.
  - exists y. split; [auto|]. split; [auto|]. intros p r P R. pose proof (off_bound _ _ P). pose proof (off_bound _ _ R).
    unfold elem at 1. rewrite at_label by auto. specialize (W (off p A, off r B)). cbn [fst snd] in W. unfold gat at 1 in W. rewrite W by (apply cells_in; auto). unfold V.
    pose proof (LB p r P R) as B0. unfold qelem. rewrite at_score by auto. unfold elem. rewrite at_label by auto. reflexivity.
Qed.

(** * The predicted class *)
Lemma best_loop i j : 0 <= i < size A -> 0 <= j < size B -> exists c,
  loop (fun i1 index => obind (get x (i * n * size B + j + i1 * size B)) (fun a => obind (get x (i * n * size B + j + index * size B)) (fun b => Some (if more a b then i1 else index)))) (between 1 n) 0 = Some c /\ predicted n (sc i j) c.
Proof.
  intros I J. assert (G : forall m, 1 <= 1 + Z.of_nat m <= n -> exists c,
    loop (fun i1 index => obind (get x (i * n * size B + j + i1 * size B)) (fun a => obind (get x (i * n * size B + j + index * size B)) (fun b => Some (if more a b then i1 else index)))) (between 1 (1 + Z.of_nat m)) 0 = Some c /\ predicted (1 + Z.of_nat m) (sc i j) c).
  { induction m as [|m IH]; intros M.
    - exists 0. split; [reflexivity|]. split; [lia|]. split; [|lia]. intros k K. replace k with 0 by lia. apply Qcle_refl.
    - destruct IH as (c & E & C1 & C2 & C3); [lia|]. replace (1 + Z.of_nat (S m)) with ((1 + Z.of_nat m) + 1) by lia. rewrite between_next by lia. rewrite loop_app, E. cbn [obind loop].
      rewrite !get_score by (auto; lia). cbn [obind]. eexists. split; [reflexivity|]. rewrite more_less. destruct (less (sc i j c) (sc i j (1 + Z.of_nat m))) eqn:Q.
      + apply less_true in Q. split; [lia|]. split.
        * intros k K. destruct (Z.eq_dec k (1 + Z.of_nat m)) as [->|]; [apply Qcle_refl|]. eapply Qcle_trans; [apply C2; lia|]. apply Qclt_le_weak. auto.
        * intros k K. eapply Qcle_lt_trans; [apply C2; lia|auto].
      + apply less_false in Q. split; [lia|]. split; [|auto]. intros k K. destruct (Z.eq_dec k (1 + Z.of_nat m)) as [->|]; [auto|]. apply C2. lia. }
  destruct (G (Z.to_nat (n - 1))) as (c & E & C); [lia|]. replace (1 + Z.of_nat (Z.to_nat (n - 1))) with n in * by lia. eauto.
Qed.
Definition cls (i j : Z) : Z :=
  match loop (fun i1 index => obind (get x (i * n * size B + j + i1 * size B)) (fun a => obind (get x (i * n * size B + j + index * size B)) (fun b => Some (if more a b then i1 else index)))) (between 1 n) 0 with Some c => c | None => 0 end.
Lemma cls_ok i j : 0 <= i < size A -> 0 <= j < size B -> predicted n (sc i j) (cls i j).
Proof. intros I J. destruct (best_loop i j I J) as (c & E & C). unfold cls. rewrite E. auto. Qed.
Definition lab (i j : Z) : Z := gat 0 l (i * size B + j).
Lemma confusion_loop cs : forall y, (forall c, In c cs -> 0 <= fst c < size A /\ 0 <= snd c < size B) -> glen y = n * n ->
  exists y', loop (fun c => confusion_step n (size B) x l (fst c) (snd c)) cs y = Some y' /\ length y' = length y /\
  forall a b, 0 <= a < n -> 0 <= b < n -> gat 0 y' (a * n + b) = gat 0 y (a * n + b) + Z.of_nat (length (filter (fun c => (lab (fst c) (snd c) =? a) && (cls (fst c) (snd c) =? b)) cs)).
Proof.
  induction cs as [|[i j] cs IH]; intros y H L; cbn [loop].
  - exists y. split; [auto|]. split; [auto|]. intros. cbn. lia.
  - destruct (H _ (or_introl eq_refl)) as [I J]. cbn [fst snd] in *. unfold confusion_step at 1. rewrite get_label by auto. cbn [obind].
    destruct (best_loop i j I J) as (c & E & C). rewrite E. cbn [obind]. assert (EC : cls i j = c) by (unfold cls; rewrite E; auto).
    pose proof (label_bound i j I J) as LBD. fold (lab i j) in *. destruct C as [C _].
    rewrite (gget_ok 0 y) by (unfold within; rewrite L; nia). cbn [obind].
    destruct (put_gen 0 y (lab i j * n + c) (gat 0 y (lab i j * n + c) + 1)) as (y1 & E1 & L1 & V1); [unfold glen in L; nia|]. rewrite E1. cbn [obind].
    destruct (IH y1) as (y2 & E2 & L2 & V2); [intros; apply H; right; auto|unfold glen in *; congruence|]. exists y2. split; [auto|]. split; [congruence|].
    intros a b Ha Hb. rewrite V2 by auto. unfold gat at 1. rewrite V1 by nia. cbn [filter fst snd]. rewrite EC.
    destruct (Z.eqb_spec (a * n + b) (lab i j * n + c)) as [Q|Q].
    + assert (lab i j = a) by nia. assert (c = b) by nia. subst a b. rewrite !Z.eqb_refl. cbn [andb length]. lia.
    + destruct (Z.eqb_spec (lab i j) a); destruct (Z.eqb_spec c b); cbn [andb]; unfold gat; try lia; subst; lia.
Qed.
End axis.
Lemma cells_indices A B : nonneg A -> nonneg B -> cells (size A) (size B) = map (fun pr => (off (fst pr) A, off (snd pr) B)) (list_prod (indices A) (indices B)).
Proof.
  intros NA NB. unfold cells. rewrite !upto_indices by auto. induction (indices A) as [|p l IH]; cbn [map flat_map list_prod]; [auto|].
  rewrite IH, map_app. f_equal. rewrite !map_map. apply map_ext. auto.
Qed.
Lemma list_prod_flat {T U} (a : list T) (b : list U) : list_prod a b = flat_map (fun x => map (pair x) b) a.
Proof. induction a as [|x a IH]; cbn; [auto|]. rewrite IH. auto. Qed.
Lemma filter_map_len {T U} (f : T -> U) (P : U -> bool) l : length (filter P (map f l)) = length (filter (fun a => P (f a)) l).
Proof. induction l as [|a l IH]; cbn [map filter]; [auto|]. destruct (P (f a)); cbn [length]; auto. Qed.

Lemma confusion_forward_ok A n B x l axis y0 : positive A -> 0 < n -> positive B -> qlen x = size (A ++ n :: B) -> glen l = size (A ++ 1 :: B) ->
  (forall p r, inside p A -> inside r B -> 0 <= elem l (A ++ 1 :: B) (p ++ 0 :: r) < n) ->
  denotes axis (length A) (length (A ++ n :: B)) -> glen y0 = n * n ->
  exists y pred, confusion_forward axis (A ++ n :: B) (A ++ 1 :: B) x l y0 = Some y /\ length y = length y0 /\
  (forall p r, inside p A -> inside r B -> predicted n (fun c => qelem x (A ++ n :: B) (p ++ c :: r)) (pred (p, r))) /\
  forall a b, 0 <= a < n -> 0 <= b < n -> elem y [n; n] [a; b] =
    Z.of_nat (length (filter (fun pr => (elem l (A ++ 1 :: B) (fst pr ++ 0 :: snd pr) =? a) && (pred pr =? b)) (list_prod (indices A) (indices B)))).
Proof.
  intros PA Hn PB LX LL LB D L0. unfold confusion_forward. rewrite label_setup_ok by auto. cbn [obind]. rewrite loop_cells.
  destruct (confusion_loop A n B PA Hn PB x l LX LL LB (cells (size A) (size B)) (map (fun _ => 0) y0)) as (y & E & L & V).
  { intros c. apply cells_in. } { unfold glen. rewrite map_length. auto. }
  rewrite E. rewrite map_length in L. exists y, (fun pr => cls n B x (off (fst pr) A) (off (snd pr) B)). split; [auto|]. split; [auto|]. split.
  - intros p r P R. cbn [fst snd]. destruct (cls_ok A n B Hn x LX (off p A) (off r B)) as (C1 & C2 & C3); [apply off_bound; auto|apply off_bound; auto|].
    assert (Q : forall c, 0 <= c < n -> qelem x (A ++ n :: B) (p ++ c :: r) = sc n B x (off p A) (off r B) c).
    { intros c C. unfold qelem. rewrite at_score by auto. reflexivity. }
    split; [auto|]. split; [intros c C; rewrite !Q by auto; auto|]. intros c C. rewrite !Q by lia. auto.
  - intros a b Ha Hb. unfold elem at 1. cbn [position]. replace (0 * n + a) with a by lia. unfold gat in V at 1. rewrite V by auto.
    unfold gat. replace (nth (Z.to_nat (a * n + b)) (map (fun _ => 0) y0) 0) with 0.
    2:{ symmetry. apply (map_nth (fun _ => 0) y0 0). }
    rewrite Z.add_0_l. f_equal. rewrite cells_indices by (apply positive_nonneg; auto). rewrite filter_map_len. f_equal. apply filter_ext_in. intros [p r] H.
    rewrite in_prod_iff in H. destruct H as [P R]. apply indices_in in P, R. cbn [fst snd]. unfold elem. rewrite at_label by auto. reflexivity.
Qed.
