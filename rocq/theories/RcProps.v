(** Random choice: the properties. *)
From Coq Require Import List ZArith Lia Lqa Bool QArith Qcanon.
From Verif Require Import NdSpec IdxModel IdxProofs1 JoinModel JoinProofs ScanSpec ScanModel ScanProofs1 ReduceModel ConvModel ConvSpec ConvProofs3 ConvProofs5 ConvProofs7 ItpModel NmsProofs1 RcModel RcSpec RcProofs1 RcProofs2 RcProofs3.
Import ListNotations.
Local Open Scope list_scope.
Local Open Scope Qc_scope.

Definition q (z : Z) : Qc := Q2Qc (inject_Z z).
Definition tenth (z : Z) : Qc := Q2Qc (z # 10).
(** The populations of the documentation (functions.yaml:5951-5960). *)
Definition doc_x : list (list Qc) := [map q [11; 22; 33]%Z; map q [110; 220; 330]%Z].
Definition doc_w : list (list Qc) := [map q [10; 20; 70]%Z; map q [70; 20; 10]%Z].

(** * C118: sampling with replacement *)
(** Every sample uses one number of the generator, which picks it by the weights of its
    population; the output is the element there. *)
Theorem C118_with_replacement : forall inner xs ws r y idx r', length xs = length ws -> Forall unit_number r ->
  random_choice true inner xs ws r = Done (y, idx, r') ->
  exists ls used, length ls = length ws /\ length used = length ws /\ r = concat used ++ r' /\ idx = concat ls /\
  y = concat (map (fun '(x, l) => elements x l) (combine xs ls)) /\
  forall b, (b < length ws)%nat -> length (nth b used []) = inner /\ Forall2 (picks (nth b ws [])) (nth b used []) (nth b ls []).
Proof.
  intros inner xs ws r y idx r' L U H.
  apply (rows_some true inner (fun _ => True) (Forall unit_number) (fun w u l => length u = inner /\ Forall2 (picks w) u l)) with (xs := xs); auto.
  - intros a b. rewrite Forall_app. tauto.
  - intros w r0 l r1 _ U0 C. destruct (choose_with inner w r0 l r1 U0 C) as (used & E & L1 & F). exists used. auto.
  - apply Forall_forall. auto.
Qed.
(** A number picks exactly one place, and place [k] is picked by the numbers of an interval of
    length weight / sum of the weights. *)
Theorem C118_share : forall w, valid w ->
  (forall c, unit_number c -> exists! k, picks w c k) /\
  forall k, (k < length w)%nat -> exists lo hi, 0 <= lo /\ hi <= 1 /\ hi - lo = nth k w 0 / sum_of w /\ forall c, picks w c k <-> lo <= c /\ c < hi.
Proof.
  intros w V. split.
  - intros c U. destruct (above_found w c V U) as (k & E). exists k. split; [apply above_picks; [exact (proj1 V) | exact (proj1 U) | exact E] |]. intros j P. apply (picks_unique w c); [exact (proj1 V) | | exact P]. apply above_picks; [exact (proj1 V) | exact (proj1 U) | exact E].
  - intros k K. destruct V as [N S0]. exists (before w k / sum_of w), (before w (S k) / sum_of w).
    pose proof (before_mono w N 0 k ltac:(lia) ltac:(lia)) as B0. change (before w 0) with 0 in B0. pose proof (before_mono w N (S k) (length w) ltac:(lia) ltac:(lia)) as B1. rewrite before_all in B1.
    assert (NZ : sum_of w <> 0) by (intros E; rewrite E in S0; exact (Qclt_not_eq _ _ S0 eq_refl)).
    assert (EA : before w k = before w k / sum_of w * sum_of w) by (field; exact NZ). assert (EB : before w (S k) = before w (S k) / sum_of w * sum_of w) by (field; exact NZ).
    unfold picks. split; [| split; [| split]].
    + set (lo := before w k / sum_of w) in *. clearbody lo. rewrite EA in B0. set (s := sum_of w) in *. clearbody s. clear - B0 S0. qnra.
    + set (hi := before w (S k) / sum_of w) in *. clearbody hi. rewrite EB in B1. set (s := sum_of w) in *. clearbody s. clear - B1 S0. qnra.
    + rewrite before_S by exact K. field. exact NZ.
    + intros c. rewrite EA at 1. rewrite EB at 1. set (lo := before w k / sum_of w). set (hi := before w (S k) / sum_of w). set (s := sum_of w) in *. clearbody lo hi s. clear - K S0. split; [intros (_ & A & B) | intros (A & B); split; [exact K |]]; split; qnra.
Qed.
(** So what is chosen has a weight above 0. *)
Theorem C118_positive : forall w c k, picks w c k -> 0 < nth k w 0.
Proof. exact picks_positive. Qed.
(** The samples exist exactly if no weight is negative and the sum of each population is above 0;
    anything else is an error. *)
Theorem C118_accepted : forall inner xs ws r, length xs = length ws -> Forall unit_number r -> (length ws * inner <= length r)%nat ->
  (Forall valid ws <-> exists y idx r', random_choice true inner xs ws r = Done (y, idx, r')) /\
  (~ Forall valid ws -> random_choice true inner xs ws r = Refused).
Proof.
  intros inner xs ws r L U B.
  assert (TOT : Forall valid ws -> exists y idx r', random_choice true inner xs ws r = Done (y, idx, r')).
  { intros V. apply (rows_total true inner inner valid); auto. intros w r0 V0 U0 B0. destruct (choose_with_total inner w r0 B0 V0) as (l & r1 & E & L1). exists l, r1. split; [exact E |]. split; [lia |]. destruct (choose_suffix _ _ _ _ _ _ E) as (u & ->). apply Forall_app in U0. apply U0. }
  assert (REF : ~ Forall valid ws -> random_choice true inner xs ws r = Refused).
  { clear TOT. revert ws r L U B. induction xs as [| x xs IH]; intros ws r L U B V; destruct ws as [| w ws]; try discriminate L; [exfalso; apply V; constructor |]. cbn [random_choice].
    destruct (existsb (fun v => less v 0) w) eqn:EX; [unfold choose; rewrite EX; reflexivity |]. destruct (less 0 (sum_of w)) eqn:S0; [| unfold choose; rewrite EX, back_sum, S0; reflexivity].
    assert (VW : valid w) by (split; [apply no_negative_spec; exact EX | apply less_iff; exact S0]). cbn in B. destruct (choose_with_total inner w r ltac:(lia) VW) as (l & r1 & E & L1). rewrite E. cbn [andthen].
    rewrite (IH ws r1); [reflexivity | cbn in L; injection L as L; exact L | | lia | intros V'; apply V; constructor; assumption]. destruct (choose_suffix _ _ _ _ _ _ E) as (u & ->). apply Forall_app in U. apply U. }
  split; [| exact REF]. split; [exact TOT |]. intros (y & idx & r' & E).
  assert (D : forall l : list (list Qc), Forall valid l \/ ~ Forall valid l).
  { induction l as [| w l [IH | IH]]; [left; constructor | | right; intros F; inversion F; contradiction]. destruct (existsb (fun v => less v 0) w) eqn:EX.
    - right. intros F. inversion F as [| ? ? [N _] _]; subst. apply no_negative_spec in N. congruence.
    - destruct (less 0 (sum_of w)) eqn:S0; [left; constructor; [split; [apply no_negative_spec; exact EX | apply less_iff; exact S0] | exact IH] |]. right. intros F. inversion F as [| ? ? [_ N] _]; subst. apply less_iff in N. congruence. }
  destruct (D ws) as [V | V]; [exact V |]. rewrite (REF V) in E. discriminate.
Qed.
Example C118_example : random_choice true 3 doc_x doc_w (map tenth [0; 1; 3; 9; 8; 0; 5]%Z)
  = Done (map q [11; 22; 33; 330; 220; 110]%Z, [0; 1; 2; 2; 1; 0]%nat, [tenth 5]) /\
  random_choice true 1 [[q 1]; [q 2]] [[q 1]; [q (-1)]] [tenth 1; tenth 1] = Refused /\
  random_choice true 1 [[q 1]; [q 2]] [[q 1]; [q 0]] [tenth 1; tenth 1] = Refused.
Proof. repeat split; vm_compute; reflexivity. Qed.
(** uniform_real_distribution gives a double, which becomes a float: if that is rounded up to the
    sum of the weights, the last element is taken whatever its weight. *)
Theorem C118_positive_weights_refuted : exists xs ws r y idx r', length xs = length ws /\ Forall valid ws /\ Forall (fun c => 0 <= c /\ c <= 1) r /\
  random_choice true 1 xs ws r = Done (y, idx, r') /\ exists k, idx = [k] /\ nth k (nth 0 ws []) 0 = 0.
Proof.
  exists [[q 1; q 2]], [[q 1; 0]], [1], [q 2], [1%nat], []. split; [reflexivity |]. split; [constructor; [split; [constructor; [| constructor; [| constructor]] |] | constructor]; try (vm_compute; intros; discriminate); vm_compute; reflexivity |]. split; [constructor; [split; vm_compute; intros; discriminate | constructor] |]. split; [vm_compute; reflexivity |]. exists 1%nat. split; reflexivity.
Qed.

(** * C119: sampling without replacement *)
(** In each population the samples are at different places, whose weights are above 0. *)
Theorem C119_without_replacement : forall inner xs ws r y idx r', length xs = length ws ->
  random_choice false inner xs ws r = Done (y, idx, r') ->
  exists ls, length ls = length ws /\ idx = concat ls /\ y = concat (map (fun '(x, l) => elements x l) (combine xs ls)) /\
  forall b, (b < length ws)%nat -> length (nth b ls []) = inner /\ NoDup (nth b ls []) /\ forall k, In k (nth b ls []) -> (k < length (nth b ws []))%nat /\ 0 < nth k (nth b ws []) 0.
Proof.
  intros inner xs ws r y idx r' L H.
  destruct (rows_some false inner (fun _ => True) (fun _ => True) (fun w u l => length l = inner /\ NoDup l /\ forall k, In k l -> (k < length w)%nat /\ 0 < nth k w 0)) with (xs := xs) (ws := ws) (r := r) (y := y) (idx := idx) (r' := r') as (ls & used & L1 & _ & _ & E & Y & F); auto.
  - intros w r0 l r1 _ _ C. pose proof (choose_bound _ _ _ _ _ _ C) as [_ B]. apply choose_without in C as (used & E & L1 & D & P & _). exists used. split; [exact E |]. split; [exact L1 |]. split; [exact D |]. intros k K. split; [exact (proj1 (Forall_forall _ _) B k K) | apply P; exact K].
  - apply Forall_forall. auto.
  - exists ls. auto.
Qed.
(** If no weight is negative, every sample was picked by a number, by the weights that were left
    when some (maybe not all) of the samples before it had been taken; the first sample of every
    population is picked by the first number that is used for it. *)
Theorem C119_picked : forall inner xs ws r y idx r', length xs = length ws -> Forall unit_number r -> Forall no_negative ws ->
  random_choice false inner xs ws r = Done (y, idx, r') ->
  exists ls used, length ls = length ws /\ length used = length ws /\ r = concat used ++ r' /\ idx = concat ls /\
  y = concat (map (fun '(x, l) => elements x l) (combine xs ls)) /\
  forall b, (b < length ws)%nat -> let w := nth b ws [] in let l := nth b ls [] in
  (forall j, (j < inner)%nat -> exists t c, (t <= j)%nat /\ In c (nth b used []) /\ picks (left_over w (firstn t l)) c (nth j l 0%nat)) /\
  ((0 < inner)%nat -> picks w (nth 0 (nth b used []) 0) (nth 0 l 0%nat)).
Proof.
  intros inner xs ws r y idx r' L U N H.
  apply (rows_some false inner no_negative (Forall unit_number) (fun w u l => (forall j, (j < inner)%nat -> exists t c, (t <= j)%nat /\ In c u /\ picks (left_over w (firstn t l)) c (nth j l 0%nat)) /\
    ((0 < inner)%nat -> picks w (nth 0 u 0) (nth 0 l 0%nat)))) with (xs := xs); auto.
  - intros a b. rewrite Forall_app. tauto.
  - intros w r0 l r1 N0 U0 C. destruct (choose_without inner w r0 l r1 C) as (used & E & L1 & D & P & J). exists used. split; [exact E |]. split.
    + intros j B. destruct (J j B) as (t & c & T & I & F). exists t, c. split; [exact T |]. split; [exact I |]. unfold finds in F. rewrite back_sum in F. apply above_picks; [| | exact F].
      * rewrite <- taken_left_over. apply taken_nonneg. exact N0.
      * rewrite E in U0. apply Forall_app in U0 as [U0 _]. exact (proj1 (proj1 (Forall_forall _ _) U0 c I)).
    + intros I. destruct inner as [| n]; [lia |]. destruct (J 0%nat I) as (_ & c0 & _ & IC & _). destruct used as [| c used]; [destruct IC |]. cbn [nth]. subst r0. cbn in U0. inversion U0; subst. exact (choose_first n w c (used ++ r1) l r1 N0 ltac:(assumption) C).
Qed.
(** It ends: if no weight is negative and enough are above 0, 1 + 2 + ... + inner numbers are
    enough for each population. *)
Theorem C119_ends : forall inner xs ws r, length xs = length ws -> Forall unit_number r ->
  Forall (fun w => no_negative w /\ (inner <= positives w)%nat) ws -> (length ws * steps inner <= length r)%nat ->
  exists y idx r', random_choice false inner xs ws r = Done (y, idx, r').
Proof.
  intros inner xs ws r L U V B. apply (rows_total false inner (steps inner) (fun w => no_negative w /\ (inner <= positives w)%nat)); auto.
  intros w r0 [N P] U0 B0. destruct (choose_without_total inner w r0 N P U0 B0) as (l & r1 & E & L1). exists l, r1. split; [exact E |]. split; [exact L1 |]. destruct (choose_suffix _ _ _ _ _ _ E) as (u & ->). apply Forall_app in U0. apply U0.
Qed.
(** Fewer weights above 0 than samples are an error. *)
Theorem C119_refused : forall inner x xs w ws r, (positives w < inner)%nat -> random_choice false inner (x :: xs) (w :: ws) r = Refused.
Proof. intros inner x xs w ws r P. cbn [random_choice]. rewrite (proj2 (choose_without_refused inner w r) P). reflexivity. Qed.
(** In the example the second and third numbers pick what is taken already. *)
Example C119_example : random_choice false 3 [map q [11; 22; 33]%Z] [map q [10; 20; 70]%Z] (map tenth [5; 5; 6; 5; 6; 7; 8]%Z)
  = Done (map q [33; 22; 11]%Z, [2; 1; 0]%nat, [tenth 8]) /\
  random_choice false 3 [map q [11; 22; 33]%Z] [map q [10; 20; 70]%Z] (map tenth [0; 1; 9; 5]%Z) = Done (map q [11; 22; 33]%Z, [0; 1; 2]%nat, [tenth 5]) /\
  random_choice false 3 [map q [11; 22; 33]%Z] [map q [10; 0; 70]%Z] (map tenth [0; 1; 9; 5]%Z) = Refused.
Proof. repeat split; vm_compute; reflexivity. Qed.
(** The documentation says that it is verified that no weight is negative (functions.yaml:5962-5966).
    That is done with replacement only: here an element is chosen by weights that are an error with
    replacement. *)
Theorem C119_negative_weights_refuted : exists x w r y idx r', Forall unit_number r /\ Exists (fun v => v < 0) w /\ random_choice false 1 [x] [w] r = Done (y, idx, r') /\
  random_choice true 1 [x] [w] r = Refused.
Proof.
  exists [q 1; q 2], [q 2; q (-1)], [tenth 1], [q 1], [0%nat], []. split; [constructor; [split; [vm_compute; intros; discriminate | vm_compute; reflexivity] | constructor] |]. split; [right; left; vm_compute; reflexivity |]. split; vm_compute; reflexivity.
Qed.
(** And then the loop may never end: the sum of these weights is 0, so every number is 0 and the
    second element is never found. *)
Theorem C119_ends_refuted : exists w, positives w = 1%nat /\ Exists (fun v => v < 0) w /\ forall x r, Forall unit_number r -> random_choice false 1 [x] [w] r = More.
Proof.
  exists [q (-1); q 1]. split; [reflexivity |]. split; [left; vm_compute; reflexivity |]. intros x r U.
  assert (S : forall c, unit_number c -> first_above (c * back (partial_sum 0 [q (-1); q 1])) (partial_sum 0 [q (-1); q 1]) = None).
  { intros c _. cbn [partial_sum first_above back last]. assert (E : 0 + q (-1) + q 1 = 0) by (apply Qc_is_canon; reflexivity). assert (F : 0 + q (-1) = - (1)) by (apply Qc_is_canon; reflexivity).
    rewrite E, F. assert (E1 : less (c * 0) (- (1)) = false) by (apply less_not; qlra). assert (E2 : less (c * 0) 0 = false) by (apply less_not; qlra).
    rewrite E1, E2. reflexivity. }
  assert (W : forall fuel r, Forall unit_number r -> without_replacement fuel 1 [q (-1); q 1] r = More).
  { induction fuel as [| fuel IH]; intros r0 U0; [reflexivity |]. cbn [without_replacement]. destruct r0 as [| c r0]; [reflexivity |]. inversion U0; subst. cbn [one_round]. rewrite S by assumption. replace (match r0 with [] => Done ([], [q (-1); q 1], r0) | _ => Done ([], [q (-1); q 1], r0) end) with (@Done (list nat * list Qc * list Qc) ([], [q (-1); q 1], r0)) by (destruct r0; reflexivity). cbn [andthen length Nat.sub]. rewrite IH by assumption. reflexivity. }
  cbn [random_choice]. unfold choose. replace (Nat.ltb (length (filter (fun v => less 0 v) [q (-1); q 1])) 1) with false by reflexivity. rewrite W by exact U. reflexivity.
Qed.

(** * C120: gradient, recomputation and shapes *)
(** The gradient of the population is the adjoint of taking the samples: it is added up where the
    samples were taken.  [u] is any change of the population. *)
Theorem C120_gradient : forall replace n k inner x w r y idx r' gy g, length x = (k * n)%nat -> length w = (k * n)%nat -> length gy = (k * inner)%nat ->
  match g with Some (_, d0) => length d0 = (k * n)%nat | None => True end ->
  random_choice replace inner (populations n k x) (populations n k w) r = Done (y, idx, r') ->
  exists d, choice_backward (Z.of_nat n) (Z.of_nat k) (Z.of_nat inner) idx gy g None = Some (d, None) /\
  adjoint g d gy (fun u => match random_choice replace inner (populations n k u) (populations n k w) r with Done (v, _, _) => Some v | _ => None end).
Proof.
  intros replace n k inner x w r y idx r' gy g LX LW LG LD H. unfold choice_backward. destruct g as [[accum d0] |]; cbn [start on_grad obind]; [| exists None; split; reflexivity].
  destruct (rows_at _ _ _ _ _ _ _ _ ltac:(rewrite !populations_length; reflexivity) H) as (LI & _ & AT). rewrite populations_length in LI, AT.
  destruct (add_rows_ok n k inner idx gy (cleared accum d0)) as (a & E & LA & Q); auto.
  { destruct accum; cbn [cleared]; rewrite ?map_length; exact LD. }
  { intros b i B I. destruct (AT b i B I) as [A _]. rewrite populations_size in A by lia. exact A. }
  rewrite E. cbn [obind]. exists (Some a). split; [reflexivity |]. split; [rewrite LA; destruct accum; cbn [cleared]; rewrite ?map_length; reflexivity |].
  intros u v LU F. destruct (rows_same replace inner (populations n k x) (populations n k u) (populations n k w) r y idx r' ltac:(rewrite !populations_length; reflexivity) H) as (v' & E'). rewrite E' in F. injection F as <-.
  destruct (rows_at _ _ _ _ _ _ _ _ ltac:(rewrite !populations_length; reflexivity) E') as (_ & LV & AV). rewrite populations_length in LV, AV.
  rewrite Q, cleared_qinner. f_equal. rewrite qinner_zsum by congruence. unfold qlen. rewrite LV, Nat2Z.inj_mul, zsum_mul by lia. apply zsum_ext. intros b B. apply zsum_ext. intros i I.
  set (p := (b * Z.of_nat inner + i)%Z). assert (EP : Z.to_nat p = (Z.to_nat b * inner + Z.to_nat i)%nat) by (unfold p; nia). destruct (AT (Z.to_nat b) (Z.to_nat i) ltac:(lia) ltac:(lia)) as [BI _]. rewrite populations_size in BI by lia.
  destruct (AV (Z.to_nat b) (Z.to_nat i) ltac:(lia) ltac:(lia)) as [_ AE]. rewrite populations_nth in AE by lia. unfold qat at 1 4. rewrite EP, AE. replace (Z.to_nat (b * Z.of_nat n + Z.of_nat (nth (Z.to_nat b * inner + Z.to_nat i) idx 0%nat))) with (Z.to_nat b * n + nth (Z.to_nat b * inner + Z.to_nat i) idx 0)%nat by nia. apply Qcmult_comm.
Qed.
(** The weights get the same gradient as the population. *)
Theorem C120_weights_gradient : forall n k inner idx gy gx gw dx dw, choice_backward n k inner idx gy gx gw = Some (dx, dw) -> gx = gw -> dx = dw.
Proof. intros n k inner idx gy gx gw dx dw H <-. unfold choice_backward in H. destruct (on_grad _ _) as [d |]; cbn [obind] in H; [| discriminate]. injection H as <- <-. reflexivity. Qed.
(** Recomputation after setup_recompute gives the output and the places of forward again, however
    far the generators are by then, and it does not move them. *)
Theorem C120_recompute : forall f inner s global xs ws y s1 global1, save_rng s = true ->
  choice_forward f inner s global xs ws = Done (y, s1, global1) ->
  forall o l, exists s3, choice_recompute f inner (State o (save_rng s1) (saved s1) l) xs ws = Done (y, s3) /\ idxbuf s3 = idxbuf s1 /\ own s3 = o.
Proof.
  intros f inner s global xs ws y s1 global1 SV H o l. unfold choice_forward in H. rewrite SV in H. unfold choice_recompute. cbn [saved own save_rng].
  destruct (random_choice (a_replace f) inner xs ws (if (a_seed f =? -1)%Z then global else own s)) as [[[y0 idx] r] | |] eqn:E; cbn [andthen] in H; try discriminate. injection H as <- <- <-. cbn [saved idxbuf own save_rng]. rewrite E. cbn [andthen]. eexists. split; [reflexivity |]. split; reflexivity.
Qed.
(** A function with a seed uses its own generator only; one without uses the global one only. *)
Theorem C120_generators : forall f inner s global xs ws y s1 global1, choice_forward f inner s global xs ws = Done (y, s1, global1) ->
  (a_seed f <> -1)%Z /\ global1 = global /\ (exists used, own s = used ++ own s1) \/ a_seed f = (-1)%Z /\ own s1 = own s /\ exists used, global = used ++ global1.
Proof.
  intros f inner s global xs ws y s1 global1 H. unfold choice_forward in H. 
  assert (SUF : forall r xs ws y idx r', random_choice (a_replace f) inner xs ws r = Done (y, idx, r') -> exists used, r = used ++ r').
  { clear. intros r xs. revert r. induction xs as [| x xs IH]; intros r ws y idx r' H; [destruct ws; injection H as <- <- <-; exists []; reflexivity |]. destruct ws as [| w ws]; [injection H as <- <- <-; exists []; reflexivity |]. cbn [random_choice] in H.
    destruct (choose (a_replace f) inner w r) as [[l r1] | |] eqn:C; cbn [andthen] in H; try discriminate. destruct (random_choice (a_replace f) inner xs ws r1) as [[[y1 i1] r2] | |] eqn:E; cbn [andthen] in H; try discriminate. injection H as _ _ <-.
    destruct (choose_suffix _ _ _ _ _ _ C) as (u & ->). destruct (IH _ _ _ _ _ E) as (u2 & ->). exists (u ++ u2). rewrite app_assoc. reflexivity. }
  destruct (Z.eqb_spec (a_seed f) (-1)) as [S | S].
  all: match type of H with context [random_choice ?a ?b ?c ?d ?e] => destruct (random_choice a b c d e) as [[[y0 idx] r] | |] eqn:E end; cbn [andthen] in H; try discriminate; injection H as <- <- <-; apply SUF in E.
  - right. split; [exact S |]. split; [reflexivity | exact E].
  - left. split; [exact S |]. split; [reflexivity |]. exact E.
Qed.
(** The shapes: the last axis is replaced by the shape of the samples. *)
Theorem C120_shape : forall f xshape wshape oshape outer inner, choice_setup f xshape wshape = Some (oshape, outer, inner) <->
  wshape = xshape /\ exists lead n, xshape = lead ++ [n] /\ let s := match a_shape f with [] => [1%Z] | s => s end in
  oshape = lead ++ s /\ outer = prod lead /\ inner = prod s /\ (a_replace f = true \/ (inner <= n)%Z).
Proof.
  intros f xshape wshape oshape outer inner. unfold choice_setup. destruct (list_eq_dec Z.eq_dec xshape wshape) as [<- | NE]; cbn [negb].
  2: split; [discriminate | intros (E & _); exfalso; apply NE; symmetry; exact E].
  set (s := match a_shape f with [] => [1%Z] | s => s end). clearbody s. destruct xshape as [| a xs] eqn:EX.
  { split; [discriminate |]. intros (_ & lead & n & E & _). destruct lead; discriminate. }
  rewrite <- EX. assert (NN : xshape <> []) by (rewrite EX; discriminate). clear EX a xs. destruct (exists_last NN) as (lead & n & ->). rewrite removelast_last, last_last, app_length. cbn [length]. rewrite Nat.add_sub, firstn_app, firstn_all, Nat.sub_diag, firstn_O, app_nil_r, skipn_app, skipn_all, Nat.sub_diag, skipn_O. cbn [app].
  destruct (a_replace f); cbn [negb andb].
  - split.
    + intros H. injection H as <- <- <-. split; [reflexivity |]. exists lead, n. split; [reflexivity |]. do 3 (split; [reflexivity |]). left. reflexivity.
    + intros (_ & lead' & n' & E & -> & -> & -> & _). apply app_inj_tail in E as [<- <-]. reflexivity.
  - destruct (Z.ltb_spec n (prod s)) as [B | B].
    + split; [discriminate |]. intros (_ & lead' & n' & E & -> & -> & -> & [D | D]); [discriminate |]. apply app_inj_tail in E as [<- <-]. lia.
    + split.
      * intros H. injection H as <- <- <-. split; [reflexivity |]. exists lead, n. split; [reflexivity |]. do 3 (split; [reflexivity |]). right. exact B.
      * intros (_ & lead' & n' & E & -> & -> & -> & _). apply app_inj_tail in E as [<- <-]. reflexivity.
Qed.
Definition doc_f : arguments := Arguments_of [3%Z; 4%Z] true (-1)%Z.
Example C120_example : choice_setup doc_f [2; 3]%Z [2; 3]%Z = Some ([2; 3; 4]%Z, 2%Z, 12%Z) /\ choice_setup (Arguments_of [] true 0%Z) [2; 3]%Z [2; 3]%Z = Some ([2; 1]%Z, 2%Z, 1%Z) /\
  choice_setup (Arguments_of [2; 2]%Z false 0%Z) [2; 3]%Z [2; 3]%Z = None /\ choice_setup doc_f [2; 3]%Z [3]%Z = None /\
  choice_backward 3 2 2 [0; 0; 2; 1]%nat (map q [1; 2; 3; 4]%Z) (Some (true, repeat 1 6)) (Some (false, repeat 1 6))
  = Some (Some (map q [4; 1; 1; 1; 5; 4]%Z), Some (map q [3; 0; 0; 0; 4; 3]%Z)) /\
  populations 3 2 (map q [11; 22; 33; 110; 220; 330]%Z) = doc_x.
Proof. repeat split; vm_compute; reflexivity. Qed.
(** Without setup_recompute the recomputation does not use the generator of forward. *)
Example C120_recompute_example :
  choice_forward (Arguments_of [] true 7%Z) 1 (setup_recompute (seeded (fun z => [tenth z; tenth 1]) (Arguments_of [] true 7%Z) (State [] false [tenth 3] []))) [tenth 9] doc_x doc_w
  = Done (map q [33; 110]%Z, State [] true [tenth 7; tenth 1] [2; 0]%nat, [tenth 9]) /\
  choice_recompute (Arguments_of [] true 7%Z) 1 (State [] true [tenth 7; tenth 1] []) doc_x doc_w = Done (map q [33; 110]%Z, State [] true [tenth 7; tenth 1] [2; 0]%nat).
Proof. split; vm_compute; reflexivity. Qed.

Print Assumptions C118_with_replacement.
Print Assumptions C118_share.
Print Assumptions C118_accepted.
Print Assumptions C119_picked.
Print Assumptions C119_ends.
Print Assumptions C120_gradient.
Print Assumptions C120_shape.
