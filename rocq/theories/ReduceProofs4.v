(** Gradients of reductions. *)
From Coq Require Import List ZArith Lia Bool Permutation QArith Qcanon.
From Verif Require Import NdModel NdSpec NdProofs IdxModel IdxSpec IdxProofs1 IdxProofs2 IdxProofs3 IdxProofs5 IdxProofs6 JoinModel JoinSpec JoinProofs JoinProofs2 ScanModel ScanSpec ScanProofs1 ReduceModel ReduceSpec ReduceProofs1 ReduceProofs2 ReduceProofs3.
Import ListNotations.
Local Open Scope list_scope.
Local Open Scope Z_scope.

Lemma sum_row_qsum (f : Z -> Qc) n : sum_row (map f (upto (Z.of_nat n))) = qsum n f.
Proof. induction n as [|n IH]; [reflexivity|]. rewrite upto_S, map_app. unfold sum_row in *. rewrite fold_left_app, IH. reflexivity. Qed.
Lemma prod_row_qprod (f : Z -> Qc) n : prod_row (map f (upto (Z.of_nat n))) = qprod n f.
Proof. induction n as [|n IH]; [reflexivity|]. rewrite upto_S, map_app. unfold prod_row in *. rewrite fold_left_app, IH. reflexivity. Qed.
Lemma sum_row_upto (f : Z -> Qc) n : 0 <= n -> sum_row (map f (upto n)) = qsum (Z.to_nat n) f.
Proof. intros H. rewrite <- sum_row_qsum, Z2Nat.id; auto. Qed.
Lemma prod_row_upto (f : Z -> Qc) n : 0 <= n -> prod_row (map f (upto n)) = qprod (Z.to_nat n) f.
Proof. intros H. rewrite <- prod_row_qprod, Z2Nat.id; auto. Qed.
Lemma qprod_zero n f i : 0 <= i < Z.of_nat n -> f i = 0%Qc -> qprod n f = 0%Qc.
Proof.
  induction n as [|n IH]; intros H E; [lia|]. cbn [qprod]. destruct (Z.eq_dec i (Z.of_nat n)) as [->|]; [rewrite E; ring|]. rewrite IH by (auto; lia). ring.
Qed.
Lemma row_replaced x (n r o i : Z) t : qlen x = n * r -> 0 <= o < n -> 0 <= i < r ->
  row_of (replaced x (Z.to_nat (o * r + i)) t) o r = map (but i t (fun i => qat x (o * r + i))) (upto r).
Proof.
  intros L O I. unfold row_of. apply map_ext_in. intros k Hk. apply upto_in in Hk. rewrite replaced_qat by (unfold within; try rewrite L; nia). unfold but.
  destruct (Z.eqb_spec (o * r + k) (o * r + i)), (Z.eqb_spec k i); auto; lia.
Qed.
Lemma row_replaced_other x (n r o o' i : Z) t : qlen x = n * r -> 0 <= o < n -> 0 <= o' < n -> o' <> o -> 0 <= i < r ->
  row_of (replaced x (Z.to_nat (o * r + i)) t) o' r = row_of x o' r.
Proof.
  intros L O O' N I. unfold row_of. apply map_ext_in. intros k Hk. apply upto_in in Hk. rewrite replaced_qat by (unfold within; try rewrite L; nia).
  destruct (Z.eqb_spec (o' * r + k) (o * r + i)); auto. exfalso. apply N. nia.
Qed.

Section reduction.
Variables (mask : list bool) (shape : list Z).
Hypothesis LEN : length shape = length mask.
Hypothesis POS : positive shape.
Let A := select false mask shape.
Let B := select true mask shape.
Notation f := (the_reduction mask shape).
Notation spot := (ReduceProofs3.spot mask shape).
Notation arranged := (ReduceProofs3.arranged mask shape).
Let PA' : positive A := PA mask shape POS.
Let PB' : positive B := PB mask shape POS.
Let SAB' : size A * size B = size shape := SAB mask shape LEN.
Let SA' : 0 < size A := SA mask shape POS.
Let SB' : 0 < size B := SB mask shape POS.

(** Arranging an input with a replaced element. *)
Lemma arranged_replaced x xt idx t : qlen x = size shape -> arranged x = Some xt -> inside idx shape ->
  (forall idx, inside idx shape -> qat xt (spot idx) = qat x (off idx shape)) -> qlen xt = size shape ->
  arranged (replaced x (Z.to_nat (off idx shape)) t) = Some (replaced xt (Z.to_nat (spot idx)) t).
Proof.
  intros L E I V Lt. pose proof (off_bound _ _ I) as OB. pose proof (spot_within mask shape LEN idx I) as SW.
  assert (Lr : qlen (replaced x (Z.to_nat (off idx shape)) t) = size shape) by (unfold qlen in *; rewrite replaced_length; lia).
  destruct (arranged_ok mask shape LEN POS _ Lr) as (xt' & E' & L' & V'). rewrite E'. f_equal. unfold within in *.
  apply qat_ext; [unfold qlen in *; rewrite replaced_length; lia|]. intros p W. unfold within in W.
  destruct (place_row mask shape LEN POS p) as (o & i & O & Hi & ->); [unfold within in *; lia|].
  destruct (spot_onto mask shape LEN POS o i O Hi) as (j & J & SJ & _). fold A B in SJ. fold B in W |- *. rewrite <- SJ in *. rewrite V' by auto. pose proof (off_bound _ _ J).
  rewrite !replaced_qat by (unfold within; lia). rewrite V by auto.
  destruct (Z.eqb_spec (off j shape) (off idx shape)) as [Q|Q], (Z.eqb_spec (spot j) (spot idx)) as [R|R]; auto; exfalso.
  - apply R. f_equal. eapply off_inj; eauto. apply positive_nonneg. auto.
  - apply Q. f_equal. apply (spot_inj mask shape LEN POS); auto.
Qed.

(** If a row has a derivative, the reduction has. *)
Lemma slopes_rows (g : list Qc -> Qc) (sl : list Qc -> Z -> Z -> Qc) x xt dy d : qlen x = size shape -> qlen dy = size A -> qlen d = size shape ->
  arranged x = Some xt -> qlen xt = size shape -> (forall idx, inside idx shape -> qat xt (spot idx) = qat x (off idx shape)) ->
  (forall o i t, 0 <= o < size A -> 0 <= i < size B ->
     (g (row_of (replaced xt (Z.to_nat (o * size B + i)) t) o (size B)) - g (row_of xt o (size B)) = (t - qat xt (o * size B + i)) * sl xt o i)%Qc) ->
  (forall idx, inside idx shape -> qat d (off idx shape) = (qat dy (off (select false mask idx) A) * sl xt (off (select false mask idx) A) (off (select true mask idx) B))%Qc) ->
  slopes (size A) (red_forward (rows_forward g) f shape) x dy d.
Proof.
  intros Lx Ld LD E Lt V HG HD y0 Ly. rewrite (red_forward_ok mask shape LEN POS). rewrite E. cbn [obind]. fold A B.
  destruct (rows_forward_ok g (size A) (size B) xt y0) as (y & E1 & L1 & W1); [lia|rewrite SAB'; auto|auto|]. exists y. split; [auto|].
  intros q t Hq. destruct (off_exists mask shape LEN shape (Z.of_nat q) POS) as (idx & I & EQ); [unfold within, qlen in *; lia|].
  rewrite (red_forward_ok mask shape LEN POS). replace q with (Z.to_nat (off idx shape)) by lia. rewrite (arranged_replaced x xt) by auto. cbn [obind]. fold A B.
  pose proof (spot_within mask shape LEN idx I) as SW. unfold within in SW.
  destruct (rows_forward_ok g (size A) (size B) (replaced xt (Z.to_nat (spot idx)) t) y0) as (y' & E2 & L2 & W2); [lia|unfold qlen in *; rewrite replaced_length by lia; lia|auto|].
  exists y'. split; [auto|]. set (o := off (select false mask idx) A). set (i := off (select true mask idx) B).
  assert (O : 0 <= o < size A) by (apply off_bound, select_inside; auto). assert (Hi : 0 <= i < size B) by (apply off_bound, select_inside; auto).
  assert (SP : spot idx = o * size B + i) by reflexivity.
  rewrite (qinner_diff dy y y' 1 (fun _ => o)); [| congruence | intros; unfold within, qlen in *; lia | lia |].
  - cbn [qsum]. rewrite W1, W2 by auto. rewrite SP, HG by auto. fold (qat x (off idx shape)) (qat d (off idx shape)). rewrite HD by auto. fold o i. rewrite <- SP, V by auto. ring.
  - intros p Hp NP. specialize (NP 0 ltac:(lia)). destruct (Z_lt_ge_dec p (size A)) as [LT|GE].
    + rewrite W1, W2 by lia. f_equal. rewrite SP. apply (row_replaced_other xt (size A)); auto; try lia.
    + unfold qat. rewrite !nth_overflow; auto; unfold qlen in *; lia.
Qed.
Lemma slopes_sum x xt dy d : qlen x = size shape -> qlen dy = size A -> qlen d = size shape -> arranged x = Some xt -> qlen xt = size shape ->
  (forall idx, inside idx shape -> qat xt (spot idx) = qat x (off idx shape)) ->
  (forall idx, inside idx shape -> qat d (off idx shape) = qat dy (off (select false mask idx) A)) ->
  slopes (size A) (sum_forward f shape) x dy d.
Proof.
  intros. unfold sum_forward. apply (slopes_rows sum_row (fun _ _ _ => 1%Qc) x xt); auto.
  - intros o i t O I. rewrite (row_replaced xt (size A)) by (auto; lia). unfold row_of. rewrite !sum_row_upto by lia.
    rewrite (qsum_one _ (fun i => qat xt (o * size B + i)) _ i (t - qat xt (o * size B + i))%Qc); [ring|lia|]. intros k Hk. unfold but. destruct (Z.eqb_spec k i); [subst|]; ring.
  - intros. rewrite H5 by auto. ring.
Qed.
Lemma of_Z_nonzero r : 0 < r -> of_Z r <> 0%Qc.
Proof.
  unfold of_Z. intros H E. assert (Q : Qeq (inject_Z r) 0) by (apply Q2Qc_eq_iff; exact E). unfold Qeq in Q. cbn in Q. lia.
Qed.
Lemma slopes_mean x xt dy d : qlen x = size shape -> qlen dy = size A -> qlen d = size shape -> arranged x = Some xt -> qlen xt = size shape ->
  (forall idx, inside idx shape -> qat xt (spot idx) = qat x (off idx shape)) ->
  (forall idx, inside idx shape -> qat d (off idx shape) = (qat dy (off (select false mask idx) A) / of_Z (size B))%Qc) ->
  slopes (size A) (mean_forward f shape) x dy d.
Proof.
  intros. unfold mean_forward.
  assert (E : forall x y, red_forward (fun outer r => rows_forward (fun l => sum_row l / of_Z r)%Qc outer r) f shape x y = red_forward (rows_forward (fun l => sum_row l / of_Z (size B))%Qc) f shape x y).
  { intros. rewrite !(red_forward_ok mask shape LEN POS). reflexivity. }
  intros y0 Ly. rewrite E. destruct (slopes_rows (fun l => sum_row l / of_Z (size B))%Qc (fun _ _ _ => (1 / of_Z (size B))%Qc) x xt dy d) with (y0 := y0) as (y & E1 & G); auto.
  - pose proof (of_Z_nonzero _ SB'). intros o i t O I. rewrite (row_replaced xt (size A)) by (auto; lia). unfold row_of. rewrite !sum_row_upto by lia.
    rewrite (qsum_one _ (fun i => qat xt (o * size B + i)) _ i (t - qat xt (o * size B + i))%Qc); [field; auto|lia|]. intros k Hk. unfold but. destruct (Z.eqb_spec k i); [subst|]; ring.
  - intros. rewrite H5 by auto. field. apply of_Z_nonzero. auto.
  - exists y. split; [auto|]. intros q t Hq. destruct (G q t Hq) as (y' & E2 & D). exists y'. rewrite E. auto.
Qed.
Definition others (xt : list Qc) (o i : Z) : Qc := qprod (Z.to_nat (size B)) (but i 1 (fun i => qat xt (o * size B + i))).
Lemma prod_row_others xt o i : 0 <= i < size B -> prod_row (row_of xt o (size B)) = (qat xt (o * size B + i) * others xt o i)%Qc.
Proof.
  intros I. unfold row_of. rewrite prod_row_upto, (qprod_same _ _ i), qprod_but by lia. reflexivity.
Qed.
Lemma slopes_prod x xt dy d : qlen x = size shape -> qlen dy = size A -> qlen d = size shape -> arranged x = Some xt -> qlen xt = size shape ->
  (forall idx, inside idx shape -> qat xt (spot idx) = qat x (off idx shape)) ->
  (forall idx, inside idx shape -> qat d (off idx shape) = (qat dy (off (select false mask idx) A) * others xt (off (select false mask idx) A) (off (select true mask idx) B))%Qc) ->
  slopes (size A) (prod_forward f shape) x dy d.
Proof.
  intros. unfold prod_forward. apply (slopes_rows prod_row others x xt); auto.
  intros o i t O I. rewrite (row_replaced xt (size A)) by (auto; lia). rewrite (prod_row_others xt o i) by auto.
  rewrite prod_row_upto, qprod_but by lia. fold (others xt o i). ring.
Qed.

(** ** Backward passes *)
Lemma dy_get dy o : qlen dy = size A -> 0 <= o < size A -> get dy o = Some (qat dy o).
Proof. intros L O. apply get_ok. unfold within. lia. Qed.
Lemma sum_backward_ok (accum : bool) dy dx : qlen dy = size A -> qlen dx = size shape ->
  exists r, sum_backward f shape accum dy dx = Some r /\ length r = length dx /\
    forall idx, inside idx shape -> qelem r shape idx = ((if accum then qelem dx shape idx else 0) + qat dy (off (select false mask idx) A))%Qc.
Proof.
  intros Ly Lx. unfold sum_backward. destruct (back_rows_ok mask shape LEN POS (fun o _ => get dy o) (fun p => qat dy (p / size B)) accum dx Lx) as (r & E & L & V).
  - intros o i O I. rewrite dy_get by auto. destruct (row_place mask shape LEN POS o i _ I eq_refl) as (Q & _). fold B in Q |- *. rewrite Q. auto.
  - exists r. split; [auto|]. split; [auto|]. intros idx I. rewrite V by auto. destruct (spot_row mask shape LEN POS idx I) as (Q & _). fold A B in Q. rewrite Q. auto.
Qed.
Lemma mean_backward_ok (accum : bool) dy dx : qlen dy = size A -> qlen dx = size shape ->
  exists r, mean_backward f shape accum dy dx = Some r /\ length r = length dx /\
    forall idx, inside idx shape -> qelem r shape idx = ((if accum then qelem dx shape idx else 0) + qat dy (off (select false mask idx) A) / of_Z (size B))%Qc.
Proof.
  intros Ly Lx. unfold mean_backward.
  destruct (red_backward_ok mask shape LEN POS (fun outer r => rows_backward (fun o _ => obind (get dy o) (fun g => Some (g / of_Z r)%Qc)) outer r) (fun p => qat dy (p / size B) / of_Z (size B))%Qc accum dx Lx) as (r & E & L & V).
  - intros acc d Ld. fold A B.
    destruct (rows_backward_ok (fun o _ => obind (get dy o) (fun g => Some (g / of_Z (size B))%Qc)) (fun o i => qat dy o / of_Z (size B))%Qc (size A) (size B) acc d) as (r & E & L & V); [lia|lia|rewrite SAB'; auto| |].
    + intros o i O I. rewrite dy_get by auto. reflexivity.
    + exists r. split; [auto|]. split; [auto|]. intros p W. destruct (place_row mask shape LEN POS p W) as (o & i & O & I & ->). destruct (row_place mask shape LEN POS o i _ I eq_refl) as (Q & _). fold B in Q |- *. rewrite Q. auto.
  - exists r. split; [auto|]. split; [auto|]. intros idx I. unfold qelem. rewrite position_off by auto. cbn [Z.mul]. rewrite Z.add_0_l. fold (qat r (off idx shape)). rewrite V by auto.
    destruct (spot_row mask shape LEN POS idx I) as (Q & _). fold A B in Q. rewrite Q. auto.
Qed.
Lemma prod_backward_ok (accum : bool) x xt y dy dx : qlen x = size shape -> qlen y = size A -> qlen dy = size A -> qlen dx = size shape ->
  arranged x = Some xt -> qlen xt = size shape -> (forall idx, inside idx shape -> qat xt (spot idx) = qat x (off idx shape)) ->
  exists r, prod_backward f shape accum x y dy dx = Some r /\ length r = length dx /\
    forall idx, inside idx shape -> qelem r shape idx = ((if accum then qelem dx shape idx else 0) +
      (if Qc_eq_dec (qelem x shape idx) 0%Qc then 0 else qat dy (off (select false mask idx) A) * qat y (off (select false mask idx) A) / qelem x shape idx))%Qc.
Proof.
  intros Lx Lyy Ly Ld EA Lt V. unfold prod_backward. change (match r_transpose f with Some ta => transposed ta shape x | None => Some x end) with (arranged x). rewrite EA. cbn [obind].
  destruct (back_rows_ok mask shape LEN POS (prod_grad xt y dy) (fun p => if Qc_eq_dec (qat xt p) 0%Qc then 0%Qc else (qat dy (p / size B) * qat y (p / size B) / qat xt p)%Qc) accum dx Ld) as (r & E & L & W).
  - fold A B. intros o i O I. unfold prod_grad. rewrite get_ok by (unfold within; nia). cbn [obind]. rewrite !dy_get by auto. cbn [obind].
    destruct (row_place mask shape LEN POS o i _ I eq_refl) as (Q & _). fold B in Q |- *. rewrite Q. auto.
  - exists r. split; [auto|]. split; [auto|]. intros idx I. rewrite W by auto. destruct (spot_row mask shape LEN POS idx I) as (Q & _). fold A B in Q. rewrite Q, V by auto.
    unfold qelem. rewrite position_off by auto. cbn [Z.mul]. rewrite Z.add_0_l. reflexivity.
Qed.

(** Max and Min: the gradient goes to one element. *)
Lemma best_backward_ok (accum : bool) ind dy dx : qlen dy = size A -> qlen dx = size shape -> Z.of_nat (length ind) = size A -> Forall (fun i => 0 <= i < size B) ind ->
  exists r, best_backward f shape accum ind dy dx = Some r /\ length r = length dx /\
    forall idx, inside idx shape -> qelem r shape idx = ((if accum then qelem dx shape idx else 0) +
      (if off (select true mask idx) B =? nth (Z.to_nat (off (select false mask idx) A)) ind 0%Z then qat dy (off (select false mask idx) A) else 0))%Qc.
Proof.
  intros Ly Lx Li F. assert (FI : forall o, 0 <= o < size A -> 0 <= nth (Z.to_nat o) ind 0 < size B). { intros o O. rewrite Forall_forall in F. apply F, nth_In. lia. }
  unfold best_backward.
  destruct (red_backward_ok mask shape LEN POS (fun outer r accum dx =>
    loop (fun o dx => obind (get ind o) (fun i => obind (get dy o) (fun g =>
      obind (get dx (o * r + i)) (fun old => put dx (o * r + i) (old + g)%Qc))))
      (upto outer) (if accum then dx else map (fun _ => 0%Qc) dx)) (fun p => if p mod size B =? nth (Z.to_nat (p / size B)) ind 0 then qat dy (p / size B) else 0%Qc) accum dx Lx) as (r & E & L & V).
  - fold A B. intros acc d Ld. set (d0 := if acc then d else map (fun _ => 0%Qc) d). assert (L0 : length d0 = length d) by (unfold d0; destruct acc; [auto|apply map_length]).
    assert (G : forall m, Z.of_nat m <= size A -> exists r, loop (fun o dx => obind (get ind o) (fun i => obind (get dy o) (fun g => obind (get dx (o * size B + i)) (fun old => put dx (o * size B + i) (old + g)%Qc)))) (upto (Z.of_nat m)) d0 = Some r /\
      length r = length d /\ forall o i, 0 <= o < size A -> 0 <= i < size B -> qat r (o * size B + i) = (qat d0 (o * size B + i) + if (o <? Z.of_nat m) && (i =? nth (Z.to_nat o) ind 0%Z) then qat dy o else 0)%Qc).
    { induction m as [|m IH]; intros M.
      - exists d0. split; [reflexivity|]. split; [auto|]. intros o i O I. destruct (Z.ltb_spec o (Z.of_nat 0)); [lia|]. cbn [andb]. ring.
      - destruct IH as (r & E & L & V); [lia|]. rewrite upto_S, loop_app, E. cbn [obind loop]. rewrite (get_gen 0 ind) by lia. cbn [obind]. rewrite dy_get by (auto; lia). cbn [obind].
        pose proof (FI (Z.of_nat m) ltac:(lia)) as FM. set (j := nth (Z.to_nat (Z.of_nat m)) ind 0) in *.
        assert (W : within (qlen r) (Z.of_nat m * size B + j)) by (unfold within, qlen in *; rewrite L, Ld; nia).
        rewrite get_ok by auto. cbn [obind]. destruct (put_ok r _ (qat r (Z.of_nat m * size B + j) + qat dy (Z.of_nat m))%Qc W) as (r' & E' & L' & N & _). rewrite E'. cbn [obind].
        exists r'. split; [auto|]. split; [congruence|]. intros o i O I. rewrite N by nia. destruct (Z.eqb_spec (o * size B + i) (Z.of_nat m * size B + j)) as [Q|Q].
        + assert (QO : o = Z.of_nat m) by nia. assert (QI : i = j) by nia. subst o i. rewrite V by auto. fold j. rewrite Z.eqb_refl, Z.ltb_irrefl. cbn [andb].
          destruct (Z.ltb_spec (Z.of_nat m) (Z.of_nat (S m))); [|lia]. cbn [andb]. ring.
        + rewrite V by auto. destruct (Z.ltb_spec o (Z.of_nat m)), (Z.ltb_spec o (Z.of_nat (S m))); cbn [andb]; auto; try lia.
          assert (o = Z.of_nat m) by lia. subst o. fold j. destruct (Z.eqb_spec i j); [lia|auto]. }
    destruct (G (Z.to_nat (size A))) as (r & E & L & V); [lia|]. rewrite Z2Nat.id in E, V by lia. exists r. split; [auto|]. split; [auto|].
    intros p W. destruct (place_row mask shape LEN POS p W) as (o & i & O & I & EP). fold A in O. fold B in I, EP. destruct (row_place mask shape LEN POS o i p I EP) as (Q1 & Q2). fold B in Q1, Q2. rewrite Q1, Q2, EP, V by auto.
    destruct (Z.ltb_spec o (size A)); [|lia]. cbn [andb]. f_equal. unfold d0. destruct acc; [auto|].
    unfold qat. generalize (Z.to_nat (o * size B + i)). clear. induction d as [|a d IH]; intros [|n]; cbn; auto.
  - exists r. split; [auto|]. split; [auto|]. intros idx I. unfold qelem. rewrite position_off by auto. cbn [Z.mul]. rewrite Z.add_0_l. fold (qat r (off idx shape)). rewrite V by auto.
    destruct (spot_row mask shape LEN POS idx I) as (Q1 & Q2). fold A B in Q1, Q2. rewrite Q1, Q2. auto.
Qed.
End reduction.
