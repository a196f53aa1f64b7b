(** Loops that write or add element by element. *)
From Coq Require Import List ZArith Bool Lia QArith Qcanon.
From Verif Require SliceProofs.
From Verif Require Import NdSpec NdProofs IdxModel IdxProofs1 IdxProofs2 IdxProofs3 IdxProofs6 JoinModel JoinProofs ScanSpec ScanModel ScanProofs1 ReduceSpec ReduceModel ReduceProofs1 ConvSpec ConvModel ConvProofs3 ConvProofs6 MatSpec MatModel MatProofs2 MatProps ScatProofs1 BinSpec BinModel BinProofs1 BinProofs2.
Import ListNotations.
Local Open Scope list_scope.
Local Open Scope Z_scope.

(** Iteration [i] writes [V i] to element [i], if that still has its first value. *)
Lemma each_written (step : Z -> list Qc -> option (list Qc)) (V : Z -> Qc) n y0 : 0 <= n <= qlen y0 ->
  (forall i y, 0 <= i < n -> length y = length y0 -> (forall j, i <= j -> qat y j = qat y0 j) -> step i y = put y i (V i)) ->
  exists y, loop step (upto n) y0 = Some y /\ length y = length y0 /\ (forall i, 0 <= i < n -> qat y i = V i) /\ (forall i, n <= i -> qat y i = qat y0 i).
Proof.
  intros Hn ST. apply (loop_inv (fun k y => length y = length y0 /\ (forall i, 0 <= i < k -> qat y i = V i) /\ (forall i, k <= i -> qat y i = qat y0 i))); [lia | |].
  - intros i y Hi (L & V1 & V2). rewrite (ST i y Hi L V2). destruct (put_ok y i (V i)) as (y' & E & L' & V' & _); [unfold within, qlen in *; lia |]. exists y'. split; [exact E |]. split; [congruence |]. split.
    + intros j Hj. rewrite V' by lia. destruct (Z.eqb_spec j i) as [-> |]; [reflexivity | apply V1; lia].
    + intros j Hj. rewrite V' by lia. destruct (Z.eqb_spec j i) as [-> |]; [lia | apply V2; lia].
  - split; [reflexivity |]. split; [intros; lia | reflexivity].
Qed.
(** Iteration [i] adds [E i] to element [D i]. *)
Lemma each_added (step : Z -> list Qc -> option (list Qc)) (D : Z -> Z) (E : Z -> Qc) n d0 : 0 <= n -> (forall i, 0 <= i < n -> within (qlen d0) (D i)) ->
  (forall i d, 0 <= i < n -> length d = length d0 -> step i d = obind (get d (D i)) (fun old => put d (D i) (old + E i)%Qc)) ->
  exists d, loop step (upto n) d0 = Some d /\ length d = length d0 /\ forall p, 0 <= p -> qat d p = (qat d0 p + zsum n (fun i => if D i =? p then E i else 0))%Qc.
Proof.
  intros Hn HD ST. apply (loop_inv (fun k d => length d = length d0 /\ forall p, 0 <= p -> qat d p = (qat d0 p + zsum k (fun i => if D i =? p then E i else 0))%Qc)); [exact Hn | |].
  - intros i d Hi (L & V). rewrite (ST i d Hi L). assert (W : within (qlen d) (D i)) by (unfold qlen; rewrite L; apply HD; exact Hi). rewrite get_ok by exact W. cbn [obind].
    destruct (put_ok d (D i) (qat d (D i) + E i)%Qc W) as (d' & P & L' & V' & _). exists d'. split; [exact P |]. split; [congruence |]. intros p Hp. rewrite V' by exact Hp. rewrite zsum_S by lia. rewrite (Z.eqb_sym (D i) p).
    destruct (Z.eqb_spec p (D i)) as [-> |]; rewrite V by exact Hp; ring.
  - split; [reflexivity |]. intros p Hp. rewrite zsum_0. ring.
Qed.

(** A decidable choice of the index of a position. *)
Definition unoff (C : list Z) (q : Z) : list Z := nth (Z.to_nat q) (indices C) [].
Lemma unoff_ok C q : nonneg C -> 0 <= q < size C -> inside (unoff C q) C /\ off (unoff C q) C = q.
Proof.
  intros P H. destruct (off_onto C q P H) as (c & I & E). unfold unoff. pose proof (nth_indices (fun z => z) C c [] P I) as N. rewrite position_off, map_id in N by exact I. rewrite Z.mul_0_l, Z.add_0_l, E in N. rewrite N. auto.
Qed.
Lemma unoff_off C c : nonneg C -> inside c C -> unoff C (off c C) = c.
Proof.
  intros P I. unfold unoff. pose proof (nth_indices (fun z => z) C c [] P I) as N. rewrite position_off, map_id in N by exact I. rewrite Z.mul_0_l, Z.add_0_l in N. exact N.
Qed.
Lemma total_filter {X} (l : list X) (p : X -> bool) (f : X -> Qc) : total (filter p l) f = total l (fun x => if p x then f x else 0%Qc).
Proof. unfold total, lsum. induction l as [| x l IH]; [reflexivity |]. cbn [filter map fold_right]. destruct (p x); cbn [map fold_right]; rewrite IH; ring. Qed.

Section Fit.
Variables (A B C : list Z) (f : bin).
Hypothesis J : joined A B C.
Hypothesis SET : bin_setup A B = Some f.
Hypothesis PC : nonneg C.
Lemma fit_out : b_out f = C.
Proof using J SET.
  unfold bin_setup in SET. destruct (bin_out A B) as [o |] eqn:E; [| discriminate]. cbn [obind] in SET. injection SET as <-. cbn [b_out].
  pose proof (joined_bin_out A B C J (bin_out_unmixed _ _ _ E)) as E'. congruence.
Qed.
Lemma fit_index c : inside c C -> at_index f (off c C) = Some (off (picked A c) A, off (picked B c) B).
Proof using J SET. apply at_index_ok; assumption. Qed.
Lemma fit_in c : inside c C -> inside (picked A c) A /\ inside (picked B c) B.
Proof using J. intros I. destruct (joined_stretches _ _ _ J) as (F0 & F1). split; eapply picked_inside; eassumption. Qed.
Lemma fit_at q : 0 <= q < size C -> at_index f q = Some (off (picked A (unoff C q)) A, off (picked B (unoff C q)) B) /\ within (size A) (off (picked A (unoff C q)) A) /\ within (size B) (off (picked B (unoff C q)) B).
Proof using J SET PC.
  intros H. destruct (unoff_ok C q PC H) as (I & E). destruct (fit_in _ I) as (IA & IB). split; [rewrite <- E at 1; apply fit_index; exact I |]. split; apply off_bound; assumption.
Qed.

Lemma forward_ok op x0 x1 y0 : has_size x0 (size A) -> has_size x1 (size B) -> has_size y0 (size C) ->
  exists y, bin_forward op f x0 x1 y0 = Some y /\ length y = length y0 /\ pairwise op A B C x0 x1 y.
Proof using J SET PC.
  intros L0 L1 LY. unfold has_size in L0, L1, LY.
  destruct (each_written (fun idx y => obind (at_index f idx) (fun '(i0, i1) => obind (get x0 i0) (fun a => obind (get x1 i1) (fun b => put y idx (op a b)))))
    (fun q => op (qat x0 (off (picked A (unoff C q)) A)) (qat x1 (off (picked B (unoff C q)) B))) (size C) y0) as (y & E & L & V & _).
  - unfold qlen. pose proof (size_nonneg C PC). lia.
  - intros q y Hq L _. destruct (fit_at q Hq) as (-> & W0 & W1). cbn [obind]. rewrite get_ok by (unfold qlen; rewrite L0; exact W0). cbn [obind]. rewrite get_ok by (unfold qlen; rewrite L1; exact W1). reflexivity.
  - exists y. unfold bin_forward. rewrite fit_out, prod_size. split; [exact E |]. split; [exact L |]. intros c I. destruct (fit_in c I) as (IA & IB). rewrite (qelem_off y), (qelem_off x0), (qelem_off x1) by assumption.
    rewrite V by (apply off_bound; exact I). rewrite unoff_off by assumption. reflexivity.
Qed.
(** In place, where the output has the shape of the first input. *)
Lemma in_place_ok (same : bool) op x1 y0 : A = C -> (same = true -> B = C) -> has_size (if same then y0 else x1) (size B) -> has_size y0 (size C) ->
  exists y, in_place same op f x1 y0 = Some y /\ length y = length y0 /\ pairwise op A B C y0 (if same then y0 else x1) y.
Proof using J SET PC.
  intros EA EB L1 LY. unfold has_size in L1, LY.
  assert (SAME : forall D q, D = C -> 0 <= q < size C -> off (picked D (unoff C q)) D = q).
  { intros D q -> Hq. destruct (unoff_ok C q PC Hq) as (I & E). rewrite picked_same by exact I. exact E. }
  destruct (each_written (fun idx y => obind (at_index f idx) (fun '(i0, i1) => obind (get y i0) (fun a => obind (get (if same then y else x1) i1) (fun b => put y idx (op a b)))))
    (fun q => op (qat y0 (off (picked A (unoff C q)) A)) (qat (if same then y0 else x1) (off (picked B (unoff C q)) B))) (size C) y0) as (y & E & L & V & _).
  - unfold qlen. pose proof (size_nonneg C PC). lia.
  - intros q y Hq L U. destruct (fit_at q Hq) as (-> & W0 & W1). cbn [obind]. rewrite (SAME A q EA Hq) in W0 |- *. rewrite get_ok by (unfold within, qlen in *; lia). cbn [obind]. rewrite U by lia.
    destruct same.
    + rewrite (SAME B q (EB eq_refl) Hq) in W1 |- *. rewrite get_ok by (unfold within, qlen in *; lia). cbn [obind]. rewrite U by lia. reflexivity.
    + rewrite get_ok by (unfold qlen; rewrite L1; exact W1). reflexivity.
  - exists y. unfold in_place. rewrite fit_out, prod_size. split; [exact E |]. split; [exact L |]. intros c I. destruct (fit_in c I) as (IA & IB). rewrite (qelem_off y), (qelem_off y0), (qelem_off (if same then y0 else x1)) by assumption.
    rewrite V by (apply off_bound; exact I). rewrite unoff_off by assumption. reflexivity.
Qed.

(** The gradient of side [p]. *)
Lemma grad_ok (p : bool) g dy x0 x1 y d0 : has_size x0 (size A) -> has_size x1 (size B) -> has_size y (size C) -> has_size dy (size C) -> has_size d0 (size (if p then B else A)) ->
  exists d, bin_grad p g f dy x0 x1 y d0 = Some d /\ length d = length d0 /\
  (forall j, 0 <= j -> qat d j = (qat d0 j + zsum (size C) (fun q => if off (picked (if p then B else A) (unoff C q)) (if p then B else A) =? j then
    g (qat dy q) (qat x0 (off (picked A (unoff C q)) A)) (qat x1 (off (picked B (unoff C q)) B)) (qat y q) else 0))%Qc) /\
  forall a, inside a (if p then B else A) -> qelem d (if p then B else A) a = (qelem d0 (if p then B else A) a +
    total (used_at (if p then B else A) C a) (fun c => g (qelem dy C c) (qelem x0 A (picked A c)) (qelem x1 B (picked B c)) (qelem y C c)))%Qc.
Proof using J SET PC.
  intros L0 L1 LY LE LD. unfold has_size in *. set (X := if p then B else A) in *.
  assert (FX : forall q, 0 <= q < size C -> within (size X) (off (picked X (unoff C q)) X)) by (intros q Hq; destruct (fit_at q Hq) as (_ & W0 & W1); unfold X; destruct p; assumption).
  destruct (each_added (fun idx d => obind (at_index f idx) (fun '(i0, i1) => let i := if p then i1 else i0 in
    obind (get dy idx) (fun e => obind (get x0 i0) (fun a => obind (get x1 i1) (fun b => obind (get y idx) (fun v => obind (get d i) (fun old => put d i (old + g e a b v)%Qc)))))))
    (fun q => off (picked X (unoff C q)) X) (fun q => g (qat dy q) (qat x0 (off (picked A (unoff C q)) A)) (qat x1 (off (picked B (unoff C q)) B)) (qat y q)) (size C) d0) as (d & E & L & V).
  - apply size_nonneg. exact PC.
  - intros q Hq. unfold qlen. rewrite LD. apply FX. exact Hq.
  - intros q d Hq L. destruct (fit_at q Hq) as (-> & W0 & W1). cbn [obind]. cbv zeta. rewrite get_ok by (unfold within, qlen; lia). cbn [obind]. rewrite get_ok by (unfold qlen; rewrite L0; exact W0). cbn [obind].
    rewrite get_ok by (unfold qlen; rewrite L1; exact W1). cbn [obind]. rewrite get_ok by (unfold within, qlen; lia). cbn [obind]. unfold X. destruct p; reflexivity.
  - exists d. unfold bin_grad. rewrite fit_out, prod_size. split; [exact E |]. split; [exact L |]. split; [exact V |]. intros a Ia. rewrite (qelem_off d), (qelem_off d0) by exact Ia. rewrite V by (apply off_bound; exact Ia). f_equal.
    unfold used_at. rewrite total_filter. symmetry. apply total_indices; [exact PC |]. intros c I. destruct (fit_in c I) as (IA & IB). rewrite unoff_off by assumption.
    assert (IX : inside (picked X c) X) by (unfold X; destruct p; assumption).
    rewrite (qelem_off dy), (qelem_off x0), (qelem_off x1), (qelem_off y) by assumption.
    destruct (list_eq_dec Z.eq_dec (picked X c) a) as [-> | N]; [rewrite Z.eqb_refl; reflexivity |].
    destruct (Z.eqb_spec (off (picked X c) X) (off a X)) as [Q |]; [| reflexivity]. exfalso. apply N. apply (SliceProofs.off_inj X); assumption.
Qed.
End Fit.
