(** Keys with integer and boolean arrays. *)
From Coq Require Import List ZArith Bool Lia QArith Qcanon.
From Verif Require SliceModel SliceProofs SliceProps.
From Verif Require Import NdModel NdSpec NdProofs SliceSpec IdxModel IdxSpec IdxProofs1 IdxProofs2 IdxProofs3 IdxProofs6 JoinProofs ScanModel ScanSpec ScanProofs1 ConvModel ConvSpec PoolProofs1 MatModel MatSpec MatProofs2 MatProps MaskSpec MaskProofs1 ScatModel ScatSpec ScatProofs1 ScatProofs2 ScatProps KeyModel KeySpec KeyProofs1 KeyProofs2 KeyProofs3.
Import ListNotations.
Local Open Scope list_scope.
Local Open Scope Z_scope.

(** * New axes *)
Lemma anew_filter p : filter (fun k => negb (is_anew k)) (repeat ANew p) = [].
Proof. induction p as [| p IH]; [reflexivity | exact IH]. Qed.
Lemma anew_count p : length (filter is_anew (repeat ANew p)) = p.
Proof. induction p as [| p IH]; [reflexivity |]. cbn [repeat filter is_anew length]. rewrite IH. reflexivity. Qed.
Lemma around_indices p q keys : indices_of (around p q keys) = indices_of keys.
Proof. unfold indices_of, around. rewrite !filter_app, !anew_filter, app_nil_r. reflexivity. Qed.
Definition plain (keys : list akey) : Prop := keys <> [] /\ Forall (fun k => is_anew k = false) keys.
Lemma around_news p q keys : plain keys -> news (around p q keys) = (p + q)%nat.
Proof.
  intros (_ & F). unfold news, around. rewrite !filter_app, !app_length, !anew_count. assert (E : filter is_anew keys = []) by (induction F as [| k keys K F IH]; [reflexivity |]; cbn [filter]; rewrite K; exact IH). rewrite E. reflexivity.
Qed.
Lemma around_leading p q keys : plain keys -> leading (around p q keys) = p.
Proof.
  intros (N & F). unfold around. induction p as [| p IH]; cbn [repeat app leading]; [| rewrite IH; reflexivity]. destruct F as [| k keys K F]; [contradiction |]. cbn [app leading]. destruct k; try reflexivity. discriminate.
Qed.
Lemma size_ones p : size (ones p) = 1.
Proof. unfold ones. induction p as [| p IH]; [reflexivity |]. cbn [repeat size]. lia. Qed.
Lemma off_ones p i M : off (zeroes p ++ i) (ones p ++ M) = off i M.
Proof. unfold zeroes, ones. induction p as [| p IH]; cbn [repeat app off]; [reflexivity |]. rewrite IH. lia. Qed.
Lemma inside_ones p : inside (zeroes p) (ones p).
Proof. unfold zeroes, ones. induction p as [| p IH]; constructor; [lia | exact IH]. Qed.
Lemma off_spaced p q c rest b B : inside c rest -> inside b B -> off (zeroes p ++ c ++ zeroes q ++ b) (ones p ++ rest ++ ones q ++ B) = off (c ++ b) (rest ++ B).
Proof.
  intros Ic Ib. rewrite off_ones. rewrite (off_app c rest Ic (zeroes q ++ b) (ones q ++ B)) by (apply inside_app; [apply inside_ones | exact Ib]). rewrite (off_app c rest Ic b B Ib). rewrite size_app, size_ones, off_ones. ring.
Qed.
(** * Reading and writing with an array of indices *)
Section Access.
Variables (A B rest idx : list Z) (keys : list akey).
Hypothesis HA : A <> [].
Hypothesis HR : rest <> [].
Hypothesis PA : sizes A.
Hypothesis PB : sizes B.
Hypothesis PR : sizes rest.
Hypothesis LI : Z.of_nat (length idx) = size (Z.of_nat (length A) :: rest).
Hypothesis VAL : places_valid idx rest A.
Hypothesis HK : plain keys.
Hypothesis HI : indices_of keys = Some (Z.of_nat (length A) :: rest, idx).
Lemma gather_ok junk x p q : (p + q = 0)%nat \/ length rest = 1%nat -> has_size x (size (A ++ B)) ->
  exists y, agetitem junk (around p q keys) (A ++ B) x = Some (ones p ++ rest ++ ones q ++ B, y) /\ has_size y (size (ones p ++ rest ++ ones q ++ B)) /\
  forall c b, inside c rest -> inside b B -> qelem y (ones p ++ rest ++ ones q ++ B) (zeroes p ++ c ++ zeroes q ++ b) = qelem x (A ++ B) (place idx rest A c ++ b).
Proof using HA HR PA PB PR LI VAL HK HI.
  intros PQ LX. assert (PRB : sizes (rest ++ B)) by (apply Forall_app; auto). pose proof (size_nonneg (rest ++ B) PRB) as PN.
  assert (SZ : size (ones p ++ rest ++ ones q ++ B) = size (rest ++ B)) by (rewrite !size_app, !size_ones; ring).
  destruct (copy_src (dest A B rest idx) x (size (rest ++ B)) (fresh junk (rest ++ B)) PN) as (y & E & L & V).
  - intros j Hj. unfold within. change (qlen x) with (Z.of_nat (length x)). rewrite LX. apply (dest_in A B rest idx PB PR VAL). exact Hj.
  - unfold qlen, fresh. rewrite repeat_length, prod_size. lia.
  - exists y. split; [| split].
    + unfold agetitem. rewrite around_indices, HI. cbn [obind]. rewrite (gnd_shape_ok A B rest idx HR). cbn [obind]. rewrite (gnd_dest A B rest idx HA HR PA PB PR LI VAL). cbn [obind]. rewrite E. cbn [obind].
      rewrite around_news, around_leading by exact HK. destruct (Nat.ltb_spec 0 (p + q)) as [NZ | ZZ].
      * destruct PQ as [PQ | L1]; [lia |]. destruct rest as [| n [|]]; try discriminate. cbn [app]. unfold reshape. replace (p + q - p)%nat with q by lia. change (repeat 1 p) with (ones p). change (repeat 1 q) with (ones q).
        rewrite !prod_size. cbn [app] in SZ. rewrite SZ, Z.eqb_refl. reflexivity.
      * assert (p = O) by lia. assert (q = O) by lia. subst p q. reflexivity.
    + unfold has_size. rewrite SZ. exact L.
    + intros c b Ic Ib. pose proof (place_in A B rest idx VAL c Ic) as IP.
      rewrite (qelem_off y), (qelem_off x) by (first [apply inside_app; [exact IP | exact Ib] | apply inside_app; [apply inside_ones |]; apply inside_app; [exact Ic |]; apply inside_app; [apply inside_ones | exact Ib]]).
      rewrite off_spaced by assumption. rewrite V by (apply off_bound; apply inside_app; assumption). rewrite (dest_off A B rest idx PR VAL) by assumption. reflexivity.
Qed.
Lemma scatter_ok junk V v x : repeatable V (rest ++ B) -> (V = rest ++ B \/ (length (rest ++ B) <= 8)%nat) -> has_size v (size V) -> has_size x (size (A ++ B)) ->
  exists y, asetitem junk keys (A ++ B) V v x = Some y /\ has_size y (size (A ++ B)) /\
  (forall p c b, inside p A -> inside b B -> last_to idx rest A p c -> qelem y (A ++ B) (p ++ b) = qelem v V (under V (length (rest ++ B)) (c ++ b))) /\
  (forall p b, inside p A -> inside b B -> none_to idx rest A p -> qelem y (A ++ B) (p ++ b) = qelem x (A ++ B) (p ++ b)).
Proof using HA HR PA PB PR LI VAL HK HI.
  intros RV H8 LV LX. assert (PRB : sizes (rest ++ B)) by (apply Forall_app; auto). destruct (spread_ok junk V (rest ++ B) v PRB RV H8 LV) as (w & W1 & W2 & W3).
  destruct (C63_copy_values true A B rest idx w x HA HR PA PB PR LI VAL W2 LX) as (y & F1 & F2 & F3 & F4). exists y. split; [| split; [exact F2 | split; [| exact F4]]].
  - unfold asetitem. pose proof (around_news 0 0 keys HK) as N0. unfold around in N0. cbn [repeat app] in N0. rewrite app_nil_r in N0. rewrite N0. cbn [Nat.add Nat.ltb Nat.leb obind].
    rewrite HI. cbn [obind hd tl]. rewrite Nat2Z.id, rest_of. rewrite W1. cbn [obind]. rewrite (C63_setup A B rest HR). cbn [obind]. exact F1.
  - intros p c b Ip Ib LT. rewrite (F3 p c b Ip Ib LT). apply W3. apply inside_app; [apply LT | exact Ib].
Qed.
End Access.
Lemma around_set junk p q keys shape n Bv v x : plain keys -> (0 < p + q)%nat -> asetitem junk (around p q keys) shape (ones p ++ n :: ones q ++ Bv) v x = asetitem junk keys shape (n :: Bv) v x.
Proof.
  intros HK PQ. unfold asetitem. rewrite around_indices, around_news, around_leading by exact HK. pose proof (around_news 0 0 keys HK) as N0. unfold around in N0. cbn [repeat app] in N0. rewrite app_nil_r in N0. rewrite N0. cbn [Nat.add].
  destruct (Nat.ltb_spec 0 (p + q)); [| lia]. cbn [Nat.ltb Nat.leb]. assert (E : forall m (a b : list Z), length a = m -> skipn m (a ++ b) = b) by (intros m a b <-; induction a; [reflexivity | assumption]).
  assert (E1 : skipn p (ones p ++ n :: ones q ++ Bv) = n :: ones q ++ Bv) by (apply E; apply repeat_length).
  assert (E2 : skipn (p + q + 1) (ones p ++ n :: ones q ++ Bv) = Bv). { replace (ones p ++ n :: ones q ++ Bv) with ((ones p ++ n :: ones q) ++ Bv) by (rewrite <- app_assoc; reflexivity). apply E. rewrite app_length. unfold ones. cbn [length]. rewrite !repeat_length. lia. }
  rewrite E1, E2. cbn [firstn app]. unfold reshape. rewrite !prod_size. assert (S1 : size (ones p ++ n :: ones q ++ Bv) = size (n :: Bv)) by (rewrite size_app; cbn [size]; rewrite size_app, !size_ones; ring). rewrite S1, Z.eqb_refl. reflexivity.
Qed.
(** * Integer arrays *)
Lemma ints_plain rest vs : vs <> [] -> plain (map (AInt rest) vs).
Proof. intros N. split; [destruct vs; [contradiction | discriminate] |]. apply Forall_forall. intros k I. apply in_map_iff in I. destruct I as (v & <- & _). reflexivity. Qed.
Lemma np_array_ints rest vs : vs <> [] -> np_array (map (AInt rest) vs) = Some (rest, vs).
Proof.
  intros N. induction vs as [| v vs IH]; [contradiction |]. destruct vs as [| w vs]; [reflexivity |]. change (np_array (map (AInt rest) (v :: w :: vs))) with (obind (np_array (map (AInt rest) (w :: vs))) (fun '(sh', vs) => if same_shape rest sh' then Some (rest, v :: vs) else None)).
  rewrite IH by discriminate. cbn [obind]. rewrite same_shape_refl. reflexivity.
Qed.
Lemma ints_indices rest vs : vs <> [] -> indices_of (map (AInt rest) vs) = Some (Z.of_nat (length vs) :: rest, concat vs).
Proof.
  intros N. unfold indices_of. assert (E : filter (fun k => negb (is_anew k)) (map (AInt rest) vs) = map (AInt rest) vs) by (induction vs as [| v [|] IH]; [contradiction | reflexivity |]; cbn [map filter is_anew negb] in *; f_equal; apply IH; discriminate).
  rewrite E. destruct vs as [| v vs]; [contradiction |]. pose proof (np_array_ints rest (v :: vs) N) as H. cbn [map] in *. destruct vs as [| w vs]; cbn [map] in *; rewrite H; reflexivity.
Qed.
Lemma ints_elem rest vs m c : sizes rest -> Forall (fun v => Z.of_nat (length v) = size rest) vs -> (m < length vs)%nat -> inside c rest ->
  elem (concat vs) (Z.of_nat (length vs) :: rest) (Z.of_nat m :: c) = elem (nth m vs []) rest c.
Proof.
  intros PR F M I. rewrite !elem_at by (try (constructor; [lia |]); exact I). cbn [off]. unfold at_. pose proof (off_bound c rest I) as Bd. replace (Z.to_nat (Z.of_nat m * size rest + off c rest)) with (m * Z.to_nat (size rest) + Z.to_nat (off c rest))%nat by nia.
  apply nth_blocks; [| exact M | lia]. eapply Forall_impl; [| exact F]. cbv beta. lia.
Qed.
Lemma ints_facts vs rest A : arrays_valid vs rest A -> A <> [] -> sizes rest ->
  vs <> [] /\ indices_of (map (AInt rest) vs) = Some (Z.of_nat (length A) :: rest, concat vs) /\ Z.of_nat (length (concat vs)) = size (Z.of_nat (length A) :: rest) /\ places_valid (concat vs) rest A /\
  forall c, inside c rest -> place (concat vs) rest A c = chosen vs rest A c.
Proof.
  intros (L & F & R) NA PR. assert (NV : vs <> []) by (destruct vs; [destruct A; [contradiction | discriminate] | discriminate]). split; [exact NV |]. split; [rewrite ints_indices, L by exact NV; reflexivity |]. split; [| split].
  - rewrite (concat_length (Z.to_nat (size rest))) by (eapply Forall_impl; [| exact F]; cbv beta; lia). cbn [size]. rewrite L. pose proof (size_nonneg rest PR). lia.
  - intros c m I M. rewrite <- L, ints_elem by (assumption || lia). apply R; [exact M | exact I].
  - intros c I. unfold place, chosen. apply map_ext_in. intros m M. apply in_seq in M. rewrite <- L at 1. rewrite ints_elem by (assumption || lia). reflexivity.
Qed.
(** * Masks *)
Lemma skip_next {X} (b : list X) : forall s t r, skipn s b = t :: r -> skipn (S s) b = r.
Proof. induction b as [| x b IH]; intros [| s] t r E; try discriminate; [injection E as _ <-; reflexivity |]. exact (IH s t r E). Qed.
Lemma nonzero_marked A b : sizes A -> Z.of_nat (length b) = size A -> nonzero A b = marked b A.
Proof.
  intros PA LB. unfold nonzero, marked. rewrite all_indices_eq. pose proof (indices_length A PA) as LE.
  assert (P : forall (l : list (list Z)) (s : nat), (forall m, (m < length l)%nat -> position 0 (nth m l []) A = Z.of_nat (s + m)) -> (s + length l = length b)%nat ->
    map fst (filter snd (combine l (skipn s b))) = filter (fun c => nth (Z.to_nat (position 0 c A)) b false) l).
  { induction l as [| c l IH]; intros s HP LL; [reflexivity |]. cbn [length] in LL. pose proof (HP O ltac:(cbn; lia)) as H0. cbn [nth] in H0. rewrite Nat.add_0_r in H0.
    destruct (skipn s b) as [| t r] eqn:ES; [pose proof (skipn_length s b) as SL; rewrite ES in SL; cbn in SL; lia |]. assert (NT : nth s b false = t). { rewrite <- (firstn_skipn s b), ES, app_nth2; rewrite firstn_length_le by lia; [rewrite Nat.sub_diag; reflexivity | lia]. }
    assert (NR : skipn (S s) b = r). { eapply skip_next. exact ES. }
    cbn [combine filter snd]. rewrite H0, Nat2Z.id, NT. assert (IHs := IH (S s)). rewrite NR in IHs. assert (G : map fst (filter snd (combine l r)) = filter (fun c => nth (Z.to_nat (position 0 c A)) b false) l).
    { apply IHs; [intros m M; specialize (HP (S m) ltac:(cbn; lia)); cbn [nth] in HP; rewrite HP; f_equal; lia | lia]. }
    destruct t; cbn [map fst]; rewrite G; reflexivity. }
  specialize (P (indices A) O). cbn [skipn] in P. apply P; [| lia]. intros m M. cbn [Nat.add]. assert (I : inside (nth m (indices A) []) A) by (apply indices_in; apply nth_In; exact M). rewrite position_off by exact I. rewrite Z.mul_0_l, Z.add_0_l.
  pose proof (indices_off A PA) as IO. assert (N : nth m (map (fun x => off x A) (indices A)) (off [] A) = nth m (range 0 (Z.to_nat (size A))) (off [] A)) by (rewrite IO; reflexivity).
  rewrite (map_nth (fun x => off x A)) in N. rewrite N. rewrite range_nth by lia. lia.
Qed.

Lemma marked_inside b A c : In c (marked b A) -> inside c A.
Proof. unfold marked. rewrite filter_In, indices_in. tauto. Qed.
Lemma marked_nodup b A : sizes A -> NoDup (marked b A).
Proof. intros PA. apply NoDup_filter. apply SliceProofs.indices_nodup. exact PA. Qed.
Lemma mask_facts A b : A <> [] -> sizes A -> Z.of_nat (length b) = size A -> let l := marked b A in let rest := [Z.of_nat (length l)] in
  exists idx, plain [AMask A b] /\ indices_of [AMask A b] = Some (Z.of_nat (length A) :: rest, idx) /\ Z.of_nat (length idx) = size (Z.of_nat (length A) :: rest) /\ places_valid idx rest A /\
  forall j, (j < length l)%nat -> place idx rest A [Z.of_nat j] = nth j l [].
Proof.
  intros NA PA LB l rest. exists (concat (map (fun m => map (fun c => nth m c 0) l) (seq 0 (length A)))).
  assert (BL : Forall (fun v => length v = length l) (map (fun m => map (fun c => nth m c 0) l) (seq 0 (length A)))) by (apply Forall_forall; intros v I; apply in_map_iff in I; destruct I as (m & <- & _); apply map_length).
  assert (EL : forall m j, (m < length A)%nat -> (j < length l)%nat -> elem (concat (map (fun m => map (fun c => nth m c 0) l) (seq 0 (length A)))) (Z.of_nat (length A) :: rest) [Z.of_nat m; Z.of_nat j] = nth m (nth j l []) 0).
  { intros m j M J. rewrite elem_at by (constructor; [lia |]; constructor; [lia | constructor]). cbn [off size rest]. unfold at_. replace (Z.to_nat (Z.of_nat m * (Z.of_nat (length l) * 1) + (Z.of_nat j * 1 + 0))) with (m * length l + j)%nat by lia.
    rewrite (nth_blocks 0 (length l) _ m j BL) by (try rewrite map_length, seq_length; assumption). rewrite (nth_indep _ [] (map (fun c => nth O c 0) l)) by (rewrite map_length, seq_length; exact M).
    rewrite (map_nth (fun m => map (fun c => nth m c 0) l) (seq 0 (length A)) O m), seq_nth by exact M. cbn [Nat.add]. rewrite (nth_indep _ 0 (nth m [] 0)) by (rewrite map_length; exact J). apply (map_nth (fun c => nth m c 0)). }
  assert (IN : forall j, (j < length l)%nat -> inside (nth j l []) A) by (intros j J; eapply marked_inside; apply nth_In; exact J).
  split; [split; [discriminate | repeat constructor] |]. split; [| split; [| split]].
  - unfold indices_of. cbn [filter is_anew negb]. unfold stacked. rewrite (nonzero_marked A b PA LB). reflexivity.
  - rewrite (concat_length _ _ BL), map_length, seq_length. unfold rest. cbn [size]. lia.
  - intros c m I M. unfold rest in I. inversion I as [| i ? r ? Hi Hr]; subst. inversion Hr; subst. assert (EC := EL m (Z.to_nat i) M ltac:(lia)). rewrite Z2Nat.id in EC by lia. rewrite EC.
    destruct (proj1 (inside_nth A _) (IN (Z.to_nat i) ltac:(lia))) as (_ & Bd). specialize (Bd m M). lia.
  - intros j J. destruct (proj1 (inside_nth A _) (IN j J)) as (LJ & Bd). unfold place.
    assert (MS : map (fun m => nth m (nth j l []) 0) (seq 0 (length (nth j l []))) = nth j l []). { generalize (nth j l []). clear. intros s. induction s as [| a s IH]; [reflexivity |]. cbn [length seq map nth]. f_equal. rewrite <- seq_shift, map_map. exact IH. }
    etransitivity; [| exact MS]. rewrite LJ. apply map_ext_in. intros m M. apply in_seq in M. rewrite EL by lia. specialize (Bd m ltac:(lia)). unfold signed. destruct (Z.ltb_spec (nth m (nth j l []) 0) 0); [lia | reflexivity].
Qed.
