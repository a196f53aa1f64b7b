(** Broadcast and Pad. *)
From Coq Require Import List ZArith Lia Bool Permutation.
From Verif Require Import NdModel NdSpec NdProofs IdxModel IdxSpec IdxProofs1 IdxProofs2.
Import ListNotations.
Local Open Scope list_scope.
Local Open Scope Z_scope.

(** * Flip, from axes *)
Lemma refine_axes_ok n axes : Forall (fun a => - Z.of_nat n <= a < Z.of_nat n) axes ->
  refine_axes n axes = Some (map (fun a => if a <? 0 then Z.of_nat n + a else a) axes).
Proof.
  induction 1 as [|a axes Ha H IH]; cbn [refine_axes map]; [reflexivity|]. rewrite IH. unfold refine_axis.
  destruct (Z.ltb_spec a (Z.of_nat n)); [|lia]. destruct (Z.leb_spec (- Z.of_nat n) a); [|lia]. reflexivity.
Qed.
Definition flags (axes : list Z) (n : nat) : list bool :=
  map (fun d => existsb (Z.eqb d) (map (fun a => if a <? 0 then Z.of_nat n + a else a) axes)) (upto (Z.of_nat n)).
Lemma flags_length axes n : length (flags axes n) = n.
Proof. unfold flags. rewrite map_length, upto_range, range_length. lia. Qed.
Lemma flags_nth axes n k : Forall (fun a => - Z.of_nat n <= a < Z.of_nat n) axes -> (k < n)%nat -> nth_error (flags axes n) k = Some (among axes n k).
Proof.
  intros F H. unfold flags. rewrite upto_range, Nat2Z.id.
  assert (E : nth_error (range 0 n) k = Some (Z.of_nat k)).
  { rewrite (nth_error_nth' (range 0 n) 0) by (rewrite range_length; auto). rewrite range_nth by auto. f_equal. }
  rewrite (map_nth_error _ _ _ E). f_equal. unfold among. induction F as [|a axes Ha F IH]; [reflexivity|]. cbn [map existsb]. rewrite IH. f_equal.
  destruct (Z.ltb_spec a 0), (Z.eqb_spec a (Z.of_nat k)), (Z.eqb_spec (a + Z.of_nat n) (Z.of_nat k)); cbn [orb];
    first [apply Z.eqb_eq; lia|apply Z.eqb_neq; lia].
Qed.
Lemma flip_fs_nth flip shape k f : length flip = length shape -> nth_error flip k = Some f ->
  nth_error (flip_fs flip shape) k = Some (fun i => if f then nth k shape 0 - 1 - i else i).
Proof.
  revert shape k. induction flip as [|g flip IH]; intros [|n t] k L E; try discriminate; destruct k as [|k]; try discriminate; cbn [nth_error] in *.
  - inversion E; subst. reflexivity.
  - cbn in L. injection L as L. exact (IH t k L E).
Qed.

(** * Broadcast *)
Fixpoint bc_fs (es : list Z) : list (Z -> Z) :=
  match es with [] => [] | e :: es => (fun i => if e =? 1 then 0 else i) :: bc_fs es end.
Lemma strided_app i a : forall b n v s, length a = length b ->
  strided_rev i s (a ++ [n]) (b ++ [v]) = strided_rev i s a b + Z.rem (Z.quot i (s * size (rev a))) n * v.
Proof.
  induction a as [|m a IH]; intros [|w b] n v s L; try discriminate; cbn [app strided_rev rev].
  - cbn [size]. rewrite Z.mul_1_r. ring.
  - rewrite IH by (cbn in L; lia).
    assert (E : size (rev a ++ [m]) = m * size (rev a)).
    { generalize (rev a) as l. clear. induction l as [|x l IH]; cbn [size app]; [ring|]. rewrite IH. ring. }
    rewrite E. replace (s * m * size (rev a)) with (s * (m * size (rev a))) by ring. ring.
Qed.
Lemma strided_dot t : forall st idx c, inside idx t -> length st = length t -> 0 <= c ->
  strided_rev (c * size t + off idx t) 1 (rev t) (rev st) = dot idx st.
Proof.
  induction t as [|n t IH]; intros st idx c I L Hc; inversion I as [|i ? r ? Hi Hr]; subst.
  - destruct st; reflexivity.
  - destruct st as [|s st]; [discriminate|]. cbn [rev]. rewrite strided_app by (rewrite !rev_length; cbn in L; lia).
    rewrite rev_involutive. cbn [off size dot].
    pose proof (off_bound r t Hr) as B.
    replace (c * (n * size t) + (i * size t + off r t)) with ((c * n + i) * size t + off r t) by ring.
    assert (Hi' : 0 <= i < n) by exact Hi. assert (Q : 0 <= c * n) by (apply Z.mul_nonneg_nonneg; lia).
    rewrite IH; [|exact Hr|cbn in L; lia|lia].
    assert (Q' : 0 <= (c * n + i) * size t) by (apply Z.mul_nonneg_nonneg; lia).
    rewrite Z.mul_1_l. rewrite Z.quot_div_nonneg by lia.
    replace (((c * n + i) * size t + off r t) / size t) with (c * n + i).
    2:{ apply Z.div_unique with (off r t); [lia|ring]. }
    rewrite Z.rem_mod_nonneg by lia. rewrite (Z.add_comm (c * n)), Z.mod_add by lia. rewrite Z.mod_small by lia. ring.
Qed.
Lemma bc_fits es tg : Forall2 (fun e n => e = n \/ e = 1) es tg -> fits tg (bc_fs es) es.
Proof.
  induction 1 as [|e n es tg H F IH]; cbn [bc_fs]; constructor; auto. intros i Hi. unfold within in *. destruct (Z.eqb_spec e 1); lia.
Qed.
Lemma bc_strides_ok es tg : Forall2 (fun e n => e = n \/ e = 1) es tg -> forall est, length est = length es ->
  exists st, bc_strides es est tg = Some st /\ length st = length tg /\
  forall idx, inside idx tg -> dot idx st = dot (amap (bc_fs es) idx) est.
Proof.
  induction 1 as [|e n es tg H F IH]; intros est L; (destruct est as [|s est]; [try discriminate|try discriminate]).
  - exists []. split; [auto|]. split; [auto|]. intros idx I. inversion I; reflexivity.
  - destruct (IH est) as (st & E & Ls & D); [cbn in L; lia|]. cbn [bc_strides]. rewrite E.
    assert (C : (e =? n) || (e =? 1) = true).
    { destruct (Z.eqb_spec e n), (Z.eqb_spec e 1); auto; lia. }
    rewrite C. cbn [obind]. eexists. split; [reflexivity|]. split; [cbn; lia|].
    intros idx I. inversion I as [|i ? r ? Hi Hr]; subst. cbn [dot bc_fs amap]. rewrite (D r Hr). f_equal.
    destruct (Z.eqb_spec e n), (Z.eqb_spec e 1); try lia. subst. assert (i = 0) by lia. subst. reflexivity.
Qed.
Lemma bc_ok es tg : nonneg tg -> Forall2 (fun e n => e = n \/ e = 1) es tg -> exists st, bc_strides es (cstrides es) tg = Some st /\
  forall ps, ps = map (fun i => (i, strided_index i tg st)) (upto (prod tg)) ->
  computes es tg (fun x y0 => copy_loop ps x y0) (fun ex ey => forall idx, inside idx tg -> ey idx = ex (amap (bc_fs es) idx)) /\
  adjoint (size es) (size tg) (fun x y0 => copy_loop ps x y0)
    (fun (accum : bool) dy dx0 => add_loop (map swap ps) dy (if accum then dx0 else zeroed dx0)).
Proof.
  intros P F. destruct (bc_strides_ok es tg F (cstrides es) (cstrides_length es)) as (st & E & L & D). exists st. split; [auto|].
  intros ps Eps. pose proof (bc_fits _ _ F) as FT. apply pairs_desc; auto.
  rewrite (srcs_desc _ _ _ FT), Eps, upto_range, prod_size, <- (indices_off tg P), combine_map, !map_map.
  apply map_ext_in. intros idx Hi. apply indices_in in Hi. cbn [fst snd]. f_equal. f_equal.
  unfold strided_index. pose proof (strided_dot tg st idx 0 Hi L ltac:(lia)) as S. cbn [Z.mul] in S. rewrite Z.add_0_l in S. rewrite S, D by auto.
  apply dot_cstrides. eapply fits_inside; eauto.
Qed.
(** Leading axes of extent 1. *)
Lemma size_ones n t : size (repeat 1 n ++ t) = size t.
Proof. induction n as [|n IH]; cbn [repeat app size]; [auto|]. rewrite IH. ring. Qed.
Lemma elem_ones x n t a j : Forall (fun i => i = 0) a -> length a = n -> elem x (repeat 1 n ++ t) (a ++ j) = elem x t j.
Proof.
  intros F L. unfold elem. do 2 f_equal. subst n. induction F as [|i a Hi F IH]; cbn [length repeat app position]; [auto|].
  subst i. apply IH.
Qed.

(** * Pad *)
Definition pad_h (m : pad_mode) (n a b st : Z) (i : Z) : option Z :=
  match m with
  | PConstant => if (i <? a) || (n - b <=? i) then None else Some ((i - a) * st)
  | PReflect => Some (reflect_index (Z.abs (i - a)) (n - a - b - 1) * st)
  | PRepeat => Some (Z.min (n - a - b - 1) (Z.max 0 (i - a)) * st)
  end.
Fixpoint pad_desc (m : pad_mode) (ys : list Z) (padding : list (Z * Z)) (xst : list Z) : list (Z * (Z -> option Z)) :=
  match ys, padding, xst with
  | n :: ys, (a, b) :: padding, st :: xst => (n, pad_h m n a b st) :: pad_desc m ys padding xst
  | _, _, _ => []
  end.
Lemma pad_src_osum m ys : forall padding xst ndi, length padding = length ys -> length xst = length ys -> length ndi = length ys ->
  pad_src m ndi ys padding xst = osum (pad_desc m ys padding xst) ndi.
Proof.
  induction ys as [|n ys IH]; intros [|[a b] padding] [|st xst] [|i ndi] L1 L2 L3; try discriminate; [destruct m; reflexivity|].
  cbn [pad_desc osum]. rewrite <- IH by (cbn in *; lia). destruct m; cbn [pad_src const_src reflect_src repeat_src pad_h oadd]; auto.
  destruct ((i <? a) || (n - b <=? i)); cbn [oadd]; auto.
Qed.
Lemma pad_desc_fst m ys : forall padding xst, length padding = length ys -> length xst = length ys -> map fst (pad_desc m ys padding xst) = ys.
Proof.
  induction ys as [|n ys IH]; intros [|[a b] padding] [|st xst] L1 L2; try discriminate; [reflexivity|]. cbn. rewrite IH; auto.
Qed.

(** The identity on axes without padding. *)
Lemma pad_h_id m n st i : within n i -> pad_h m n 0 0 st i = Some (i * st).
Proof.
  unfold within, pad_h. intros H. destruct m.
  - destruct (Z.ltb_spec i 0); [lia|]. destruct (Z.leb_spec (n - 0) i); [lia|]. cbn [orb]. f_equal. ring.
  - f_equal. f_equal. rewrite !Z.sub_0_r, Z.abs_eq by lia. unfold reflect_index. destruct (Z.ltb_spec 0 (n - 1)); [|lia].
    destruct (Z.eq_dec i (n - 1)) as [->|N].
    + rewrite Z.quot_same, Z.rem_same by lia. change (Z.land 1 1) with 1. lia.
    + rewrite Z.quot_small, Z.rem_small by lia. change (Z.land 0 1) with 0. lia.
  - f_equal. f_equal. lia.
Qed.

(** Merging the leading axes. *)
Fixpoint id_desc (ns : list Z) (q : Z) : list (Z * (Z -> option Z)) :=
  match ns with [] => [] | n :: ns => (n, fun i => Some (i * (size ns * q))) :: id_desc ns q end.
Lemma srcs_id ns : forall q D, nonneg ns -> srcs (id_desc ns q ++ D) = srcs ((size ns, fun i => Some (i * q)) :: D).
Proof.
  induction ns as [|n ns IH]; intros q D P.
  - cbn [id_desc app size srcs]. change (Z.to_nat 1) with 1%nat. cbn [range flat_map]. rewrite app_nil_r, Z.mul_0_l, oadd_0. auto.
  - inversion P as [|? ? Hn P']; subst. cbn [id_desc app size].
    rewrite <- srcs_merge by (auto; apply size_nonneg; auto). cbn [srcs]. rewrite IH by auto. reflexivity.
Qed.

Lemma pad_desc_app m ns : forall rest padding xst, nonneg ns -> length padding = length rest -> length xst = length rest ->
  srcs (pad_desc m (ns ++ rest) (repeat (0, 0) (length ns) ++ padding) (firstn (length ns) (cstrides (ns ++ xst)) ++ cstrides xst)) =
  srcs (id_desc ns (size xst) ++ pad_desc m rest padding (cstrides xst)).
Proof.
  intros rest padding xst P L1 L2. apply srcs_ext. induction P as [|n ns Hn P IH].
  - cbn [app length repeat firstn id_desc].
    assert (G : forall D, Forall2 (fun a b : Z * (Z -> option Z) => fst a = fst b /\ (forall i, within (fst a) i -> snd a i = snd b i)) D D) by (induction D; constructor; auto).
    apply G.
  - cbn [app length repeat]. rewrite cstrides_cons. cbn [firstn app pad_desc id_desc]. constructor; [|exact IH].
    cbn [fst snd]. split; [auto|]. intros i Hi. rewrite pad_h_id by auto. do 2 f_equal.
    assert (E : size (ns ++ xst) = size ns * size xst).
    { clear. induction ns as [|x ns IH]; cbn [app size]; [ring|]. rewrite IH. ring. }
    rewrite E. ring.
Qed.
Lemma size_app a b : size (a ++ b) = size a * size b.
Proof. induction a as [|x a IH]; cbn [app size]; [ring|]. rewrite IH. ring. Qed.
Lemma cstrides_app a b : cstrides (a ++ b) = firstn (length a) (cstrides (a ++ b)) ++ cstrides b.
Proof.
  induction a as [|x a IH]; [reflexivity|]. cbn [app length]. rewrite cstrides_cons. cbn [firstn app]. f_equal. exact IH.
Qed.
Lemma skipn_cstrides k s : skipn k (cstrides s) = cstrides (skipn k s).
Proof.
  revert s. induction k as [|k IH]; intros [|n s]; auto. rewrite cstrides_cons. cbn [skipn]. apply IH.
Qed.
Lemma pad_shape_app ns : forall rest p, pad_shape (ns ++ rest) (repeat (0, 0) (length ns) ++ p) = ns ++ pad_shape rest p.
Proof. induction ns as [|n ns IH]; intros rest p; cbn; [auto|]. rewrite IH. f_equal. ring. Qed.
Lemma pad_shape_length s : forall p, length p = length s -> length (pad_shape s p) = length s.
Proof. induction s as [|n s IH]; intros [|[a b] p] L; try discriminate; cbn; auto. Qed.
Lemma pad_pairs_length w : Nat.even (length w) = true -> (2 * length (pad_pairs w) = length w)%nat.
Proof.
  enough (G : forall n w, (length w <= n)%nat -> Nat.even (length w) = true -> (2 * length (pad_pairs w) = length w)%nat) by (apply (G (length w)); auto).
  induction n as [|n IH]; intros [|a [|b v]] L E; cbn in *; try lia; try discriminate. specialize (IH v ltac:(lia) E). lia.
Qed.
Lemma pad_pairs_nonneg w : Forall (fun v => 0 <= v) w -> Forall (fun p => 0 <= fst p /\ 0 <= snd p) (pad_pairs w).
Proof.
  enough (G : forall n w, (length w <= n)%nat -> Forall (fun v => 0 <= v) w -> Forall (fun p => 0 <= fst p /\ 0 <= snd p) (pad_pairs w)) by (apply (G (length w)); auto).
  induction n as [|n IH]; intros [|a [|b v]] L F; cbn in *; try lia; constructor.
  - inversion F as [|? ? ? F']; subst. inversion F'; subst. cbn. auto.
  - apply IH; [lia|]. inversion F as [|? ? ? F']; subst. inversion F'; subst. auto.
Qed.

(** What pad_setup and the loop give, in terms of the whole shape. *)
Lemma visit_all shape : positive shape -> visit (S (Z.to_nat (prod shape))) (zeros shape) shape = Some (indices shape).
Proof.
  intros P. apply V_visit; [apply V_all; auto|apply zeros_len|].
  assert (N : nonneg shape) by (eapply Forall_impl; [|exact P]; cbn; lia). pose proof (indices_length shape N). rewrite prod_size. lia.
Qed.
Lemma flat2nd_zero st : flat2nd 0 st = map (fun _ => 0) st.
Proof. induction st as [|s st IH]; cbn [flat2nd map]; [auto|]. rewrite Zdiv_0_l. replace (0 - 0 * s) with 0 by ring. rewrite IH. auto. Qed.
Lemma zeros_map s : forall t : list Z, length s = length t -> map (fun _ : Z => 0) t = zeros s.
Proof. unfold zeros. induction s as [|x s IH]; intros [|y t] L; try discriminate; cbn; auto. f_equal. apply IH. auto. Qed.
Lemma positive_nonneg s : positive s -> nonneg s.
Proof. intros P. eapply Forall_impl; [|exact P]. cbn. lia. Qed.

Lemma pad_loop m ys padding xst : positive ys -> length padding = length ys -> length xst = length ys ->
  obind (visit (S (Z.to_nat (prod ys))) (flat2nd 0 (cstrides ys)) ys) (fun l =>
    Some (map (fun ndi => (dot ndi (cstrides ys), pad_src m ndi ys padding xst)) l)) =
  Some (combine (range 0 (Z.to_nat (size ys))) (srcs (pad_desc m ys padding xst))).
Proof.
  intros P L1 L2. rewrite flat2nd_zero, (zeros_map ys) by (rewrite cstrides_length; auto). rewrite visit_all by auto. cbn [obind]. f_equal.
  rewrite srcs_osum, pad_desc_fst by auto. rewrite <- (indices_off ys (positive_nonneg _ P)), combine_map. apply map_ext_in.
  intros idx Hi. apply indices_in in Hi. f_equal; [apply dot_cstrides; auto|]. apply pad_src_osum; auto. apply inside_length. auto.
Qed.

Lemma firstn_app_len {A} (a b : list A) n : n = length a -> firstn n (a ++ b) = a.
Proof. intros ->. rewrite firstn_app, firstn_all, Nat.sub_diag. cbn. apply app_nil_r. Qed.
Lemma skipn_app_len {A} (a b : list A) n : n = length a -> skipn n (a ++ b) = b.
Proof. intros ->. rewrite skipn_app, skipn_all, Nat.sub_diag. reflexivity. Qed.

Theorem pad_list_ok m shape w : positive shape -> shape <> [] ->
  Nat.even (length w) = true -> (length w <= 2 * length shape)%nat -> Forall (fun v => 0 <= v) w ->
  let padding := padding_of (length shape) w in let ys := pad_shape shape padding in
  length padding = length shape /\ positive ys /\
  pad_list m shape w = Some (combine (range 0 (Z.to_nat (size ys))) (srcs (pad_desc m ys padding (cstrides shape)))).
Proof.
  intros P NE Ev Le Nn padding ys. pose proof (pad_pairs_length w Ev) as LP. pose proof (pad_pairs_nonneg w Nn) as PN.
  assert (Lp : length padding = length shape).
  { unfold padding, padding_of. rewrite app_length, repeat_length. lia. }
  assert (Ly : length ys = length shape) by (apply pad_shape_length; auto).
  assert (Py : positive ys).
  { assert (PN' : Forall (fun p : Z * Z => 0 <= fst p /\ 0 <= snd p) padding).
    { apply Forall_app. split; [|auto]. apply Forall_forall. intros p Hp. apply repeat_spec in Hp. subst. cbn. lia. }
    clear - P PN' Lp. unfold ys. revert Lp PN'. generalize padding as p. revert P. generalize shape as s.
    induction 1 as [|n s Hn P IH]; intros [|[a b] p] L N; try discriminate; cbn; [constructor|].
    inversion N as [|? ? Hab N']; subst. cbn in Hab. constructor; [lia|]. apply IH; auto. }
  split; [auto|]. split; [auto|].
  unfold pad_list, pad_setup. rewrite Ev. cbn [andb].
  destruct (Nat.leb_spec (length w) (2 * length shape)); [|lia].
  assert (FB : forallb (fun v => 0 <=? v) w = true).
  { apply forallb_forall. intros v Hv. apply Z.leb_le. rewrite Forall_forall in Nn. auto. }
  rewrite FB. cbn [andb]. fold padding. fold ys.
  assert (D2 : Nat.div2 (length w) = length (pad_pairs w)).
  { rewrite <- LP. apply Nat.div2_double. }
  rewrite D2, Ly.
  destruct (Nat.ltb_spec (length (pad_pairs w) + 1) (length shape)) as [LT|GE]; cbn [obind p_padding p_xst p_yst p_yshape].
  2:{ apply pad_loop; [auto|congruence|rewrite cstrides_length; auto]. }
  set (k := (length shape - (length (pad_pairs w) + 1))%nat) in *.
  (* the axes in front of the padded ones *)
  set (ns := firstn (S k) shape). set (xs := skipn (S k) shape). set (pp := pad_pairs w).
  assert (Lns : length ns = S k) by (unfold ns; rewrite firstn_length; lia).
  assert (Es : shape = ns ++ xs) by (symmetry; apply firstn_skipn).
  assert (Ep : padding = repeat (0, 0) (length ns) ++ pp).
  { unfold padding, padding_of. fold pp. do 2 f_equal. unfold pp. lia. }
  assert (Lxs : length xs = length pp) by (unfold xs; rewrite skipn_length; unfold pp; lia).
  set (rs := pad_shape xs pp).
  assert (Ey : ys = ns ++ rs) by (unfold ys; rewrite Ep, Es; apply pad_shape_app).
  assert (Lrs : length rs = length xs) by (apply pad_shape_length; auto).
  clearbody padding ys. subst padding ys. clearbody ns xs k. subst shape.
  assert (Pns : positive ns). { unfold positive in P. apply Forall_app in P. exact (proj1 P). }
  assert (Prs : positive rs) by (unfold positive in Py; apply Forall_app in Py; exact (proj2 Py)).
  rewrite (firstn_app_len ns rs (S k)), (skipn_app_len ns rs (S k)) by lia.
  assert (SK : forall {A} (l : list A) (q : list A), length l = S k -> exists z, skipn k (l ++ q) = z :: q /\ skipn k l = [z]).
  { intros A l q Hl. revert Hl. generalize k as j. revert l. induction l as [|y l IH]; intros j Hl; [discriminate|]. destruct j as [|j].
    - destruct l; [|discriminate]. exists y. auto.
    - cbn [app skipn]. apply IH. cbn in Hl. lia. }
  assert (SKp : exists z, skipn k (repeat (0, 0) (length ns) ++ pp) = z :: pp /\ skipn k (repeat (0, 0) (length ns)) = [z]).
  { apply SK. rewrite repeat_length. auto. }
  destruct SKp as (z & E1 & E2).
  assert (z = (0, 0)). { apply (repeat_spec (length ns)). rewrite <- (firstn_skipn k (repeat (0,0) (length ns))), E2. apply in_or_app. right. left. auto. }
  subst z. rewrite E1.
  destruct (SK Z ns rs Lns) as (z & E3 & _). destruct (SK Z ns xs Lns) as (z' & E4 & _).
  rewrite !skipn_cstrides, E3, E4. rewrite !cstrides_cons. cbn [set_front]. rewrite !prod_size.
  assert (PY : positive (size ns :: rs)) by (constructor; auto; apply size_pos; auto).
  pose proof (pad_loop m (size ns :: rs) ((0, 0) :: pp) (size xs :: cstrides xs) PY) as PL.
  rewrite prod_size, cstrides_cons in PL. cbn [size] in PL |- *. rewrite PL; [|cbn; lia|cbn; rewrite cstrides_length; lia].
  f_equal. f_equal; [rewrite size_app; auto|].
  rewrite (cstrides_app ns xs), pad_desc_app by (auto using positive_nonneg; lia).
  rewrite srcs_id by (auto using positive_nonneg). apply srcs_ext. cbn [pad_desc]. constructor.
  - cbn [fst snd]. split; [auto|]. intros i Hi. apply pad_h_id. auto.
  - generalize (pad_desc m rs pp (cstrides xs)) as D. induction D; constructor; auto.
Qed.
