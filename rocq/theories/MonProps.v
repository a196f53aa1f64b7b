(** Properties of the monitors of series and of times. *)
From Coq Require Import List ZArith Lia Bool QArith Qcanon.
From Verif Require Import ReduceModel QuantSpec QuantProofs1 ItpProofs1 MonModel MonSpec.
Import ListNotations.
Local Open Scope list_scope.
Local Open Scope Z_scope.

Definition q1 : Qc := 1%Qc.
(** * C128: series *)
Lemma fold_sum l a : fold_left Qcplus l a = (a + sum l)%Qc.
Proof. revert a. induction l as [| v l IH]; intros a; cbn [fold_left sum]; [ring | rewrite IH; ring]. Qed.
Lemma sum_app a b : sum (a ++ b) = (sum a + sum b)%Qc.
Proof. induction a as [| v a IH]; cbn [app sum]; [ring | rewrite IH; ring]. Qed.
Lemma mean_ok l : l <> [] -> (np_mean l * whole_number (Z.of_nat (length l)) = sum l)%Qc.
Proof.
  intros NE. unfold np_mean. rewrite fold_sum. change (of_Z (Z.of_nat (length l))) with (whole_number (Z.of_nat (length l))). replace (0 + sum l)%Qc with (sum l) by ring. apply div_mul. apply W_pos. destruct l; [contradiction | cbn [length]; lia].
Qed.
(** Starting with some values that were not written yet. *)
Lemma add_groups interval : forall adds held s, buf s = map snd held -> Forall (fun a => fst a < flush_at s + interval) held ->
  exists groups rest, held ++ adds = concat groups ++ rest /\ cut interval (flush_at s) groups rest /\ buf (add_all interval adds s) = map snd rest /\
  exists new, lines (add_all interval adds s) = lines s ++ new /\ Forall2 mean_line groups new.
Proof.
  induction adds as [| [i v] adds IH]; intros held s B H.
  - exists [], held. split; [apply app_nil_r |]. split; [constructor; exact H |]. split; [exact B |]. exists []. split; [symmetry; apply app_nil_r | constructor].
  - change (add_all interval ((i, v) :: adds) s) with (add_all interval adds (add interval s i v)). unfold add. cbv zeta. destruct (Z.ltb_spec (i - flush_at s) interval) as [L | L].
    + destruct (IH (held ++ [(i, v)]) {| flush_at := flush_at s; buf := buf s ++ [v]; lines := lines s |}) as (gs & rest & E & K & R & new & N1 & N2); [cbn [buf]; rewrite B, map_app; reflexivity | cbn [flush_at]; apply Forall_app; split; [exact H | constructor; [cbn [fst]; lia | constructor]] |].
      exists gs, rest. rewrite <- app_assoc in E. split; [exact E |]. split; [exact K |]. split; [exact R |]. exists new. split; [exact N1 | exact N2].
    + destruct (IH [] {| flush_at := i; buf := []; lines := lines s ++ [(i, np_mean (buf s ++ [v]))] |}) as (gs & rest & E & K & R & new & N1 & N2); [reflexivity | constructor |].
      exists ((held ++ [(i, v)]) :: gs), rest. split; [cbn [concat app] in *; rewrite E, <- !app_assoc; reflexivity |]. split; [constructor; [exact H | lia | exact K] |]. split; [exact R |].
      exists ((i, np_mean (buf s ++ [v])) :: new). split; [rewrite N1; cbn [lines]; rewrite <- app_assoc; reflexivity |]. constructor; [| exact N2]. split; [exists held, v; reflexivity |]. cbn [snd].
      rewrite map_app, <- B. cbn [map snd]. rewrite <- mean_ok by (intros N; apply app_eq_nil in N; destruct N; discriminate). rewrite !app_length, B, map_length. reflexivity.
Qed.
(** All values are cut into groups; a line is written for each group, with its mean; the values of
    the rest are kept for the next line. *)
Theorem C128_groups : forall interval adds, exists groups rest, adds = concat groups ++ rest /\ cut interval (-1) groups rest /\
  Forall2 mean_line groups (lines (add_all interval adds new_series)) /\ buf (add_all interval adds new_series) = map snd rest.
Proof.
  intros interval adds. destruct (add_groups interval adds [] new_series eq_refl (Forall_nil _)) as (gs & rest & E & K & R & new & N1 & N2). exists gs, rest. split; [exact E |]. split; [exact K |]. split; [rewrite N1; exact N2 | exact R].
Qed.
(** The cut is determined by the indices. *)
Lemma cut_unique {A} interval : forall gs gs' prev (rest rest' : list (Z * A)), cut interval prev gs rest -> cut interval prev gs' rest' -> concat gs ++ rest = concat gs' ++ rest' -> gs = gs' /\ rest = rest'.
Proof.
  assert (NO : forall prev (rest g : list (Z * A)) i v t, Forall (fun a => fst a < prev + interval) rest -> prev + interval <= i -> rest = (g ++ [(i, v)]) ++ t -> False).
  { intros prev rest g i v t F L E. rewrite E in F. apply Forall_app in F. destruct F as (F & _). apply Forall_app in F. destruct F as (_ & F). inversion F; subst. cbn [fst] in *. lia. }
  assert (HD : forall prev (g g' t t' : list (Z * A)) i i' v v', Forall (fun a => fst a < prev + interval) g -> Forall (fun a => fst a < prev + interval) g' -> prev + interval <= i -> prev + interval <= i' -> g ++ (i, v) :: t = g' ++ (i', v') :: t' -> g = g' /\ i = i' /\ v = v' /\ t = t').
  { intros prev. induction g as [| a g IH]; intros [| a' g'] t t' i i' v v' F F' L L' E; cbn [app] in E.
    - inversion E; subst. auto.
    - inversion E; subst. inversion F'; subst. cbn [fst] in *. lia.
    - inversion E; subst. inversion F; subst. cbn [fst] in *. lia.
    - inversion E; subst. inversion F; subst. inversion F'; subst. edestruct (IH g' t t' i i' v v') as (-> & -> & -> & ->); auto. }
  induction gs as [| g gs IH]; intros [| g' gs'] prev rest rest' K K' E; cbn [concat] in E.
  - split; [reflexivity | exact E].
  - exfalso. inversion K; subst. inversion K'; subst. cbn [app] in E. rewrite <- app_assoc in E. refine (NO prev _ _ _ _ _ _ _ E); assumption.
  - exfalso. inversion K; subst. inversion K'; subst. cbn [app] in E. rewrite <- app_assoc in E. refine (NO prev _ _ _ _ _ _ _ (eq_sym E)); assumption.
  - inversion K as [| p g0 i v gs0 r F L K1]; subst. inversion K' as [| p' g0' i' v' gs0' r' F' L' K1']; subst. rewrite <- !app_assoc in E. cbn [app] in E. destruct (HD _ _ _ _ _ _ _ _ _ F F' L L' E) as (-> & -> & -> & ET). destruct (IH gs' i' rest rest' K1 K1' ET) as (-> & ->). split; reflexivity.
Qed.
Theorem C128_cut_unique : forall interval prev (gs gs' : list (list (Z * Qc))) rest rest', cut interval prev gs rest -> cut interval prev gs' rest' -> concat gs ++ rest = concat gs' ++ rest' -> gs = gs' /\ rest = rest'.
Proof. intros. eapply cut_unique; eassumption. Qed.
(** Indices one after the other: every line is for [interval] values, and fewer than that wait. *)
Lemma chunks interval : 0 < interval -> forall gs prev (rest : list (Z * Qc)), cut interval prev gs rest -> (forall j a, nth_error (concat gs ++ rest) j = Some a -> fst a = prev + 1 + Z.of_nat j) ->
  Forall (fun g => Z.of_nat (length g) = interval) gs /\ Z.of_nat (length rest) < interval.
Proof.
  intros P gs prev rest K. induction K as [prev rest F | prev g i v gs rest F L K IH]; intros N.
  - split; [constructor |]. cbn [concat app] in N.
    destruct (nth_error rest (length rest - 1)) as [a |] eqn:A; [| destruct rest; [cbn [length]; lia | apply nth_error_None in A; cbn [length] in A; lia]].
    pose proof (nth_error_In _ _ A) as IA. rewrite Forall_forall in F. specialize (F a IA). specialize (N _ _ A). destruct rest; [cbn [length]; lia |]. cbn [length] in *. lia.
  - cbn [concat] in N. rewrite <- !app_assoc in N. cbn [app] in N.
    assert (I : i = prev + 1 + Z.of_nat (length g)). { specialize (N (length g) (i, v)). cbn [fst] in N. apply N. rewrite nth_error_app2 by lia. rewrite Nat.sub_diag. reflexivity. }
    assert (G : Z.of_nat (length g) < interval). { destruct g as [| a g0]; [cbn [length]; lia |]. destruct (nth_error (a :: g0) (length g0)) as [b |] eqn:A; [| apply nth_error_None in A; cbn [length] in A; lia].
      pose proof (nth_error_In _ _ A) as IA. rewrite Forall_forall in F. specialize (F b IA). assert (NB : fst b = prev + 1 + Z.of_nat (length g0)) by (apply N; rewrite nth_error_app1; [exact A | cbn [length]; lia]). cbn [length]. lia. }
    destruct IH as (H1 & H2). { intros j a A. specialize (N (length g + S j)%nat a). rewrite nth_error_app2 in N by lia. replace (length g + S j - length g)%nat with (S j) in N by lia. cbn [nth_error] in N. specialize (N A). lia. }
    split; [constructor; [rewrite app_length; cbn [length]; lia | exact H1] | exact H2].
Qed.
Theorem C128_consecutive : forall interval adds, 0 < interval -> (forall j a, nth_error adds j = Some a -> fst a = Z.of_nat j) ->
  exists groups rest, adds = concat groups ++ rest /\ Forall (fun g => Z.of_nat (length g) = interval) groups /\ Z.of_nat (length rest) < interval /\
  Forall2 mean_line groups (lines (add_all interval adds new_series)) /\ buf (add_all interval adds new_series) = map snd rest.
Proof.
  intros interval adds P N. destruct (C128_groups interval adds) as (gs & rest & E & K & L & R). exists gs, rest. split; [exact E |].
  destruct (chunks interval P gs (-1) rest K) as (H1 & H2); [rewrite <- E; intros j a A; rewrite (N _ _ A); lia |]. split; [exact H1 |]. split; [exact H2 |]. split; assumption.
Qed.
(** Refuted: not every value is written in the end. *)
Theorem C128_all_written_refuted : lines (add_all 2 [(0, q1); (1, q1); (2, q1)] new_series) = [(1, np_mean [q1; q1])] /\ buf (add_all 2 [(0, q1); (1, q1); (2, q1)] new_series) = [q1].
Proof. split; reflexivity. Qed.
(** If the indices start again from 0, as in a new epoch, nothing is written until they pass the last
    written index by the interval. *)
Theorem C128_waits : forall interval s adds, Forall (fun a => fst a < flush_at s + interval) adds -> lines (add_all interval adds s) = lines s /\ length (buf (add_all interval adds s)) = (length (buf s) + length adds)%nat.
Proof.
  intros interval s adds. revert s. induction adds as [| [i v] adds IH]; intros s F; [split; [reflexivity | change (add_all interval [] s) with s; cbn [length]; lia] |]. inversion F; subst. cbn [fst] in *.
  change (add_all interval ((i, v) :: adds) s) with (add_all interval adds (add interval s i v)). unfold add. cbv zeta. destruct (Z.ltb_spec (i - flush_at s) interval); [| lia].
  match goal with |- context [add_all interval adds ?t] => destruct (IH t) as (E1 & E2); [assumption |] end. rewrite E1, E2. cbn [lines buf length]. rewrite app_length. cbn [length]. split; [reflexivity | lia].
Qed.
(** So it is refuted that with indices that start again lines come after every interval. *)
Theorem C128_restart_refuted : let epoch := map (fun i => (i, q1)) [0; 1; 2; 3] in
  map fst (lines (add_all 2 epoch new_series)) = [1; 3] /\ map fst (lines (add_all 2 (epoch ++ epoch) new_series)) = [1; 3] /\ length (buf (add_all 2 (epoch ++ epoch) new_series)) = 4%nat.
Proof. repeat split; reflexivity. Qed.

(** * C129: times *)
Definition l_index (l : Z * Qc * Z * Qc) : Z := fst (fst (fst l)).
Definition l_elapsed (l : Z * Qc * Z * Qc) : Qc := snd (fst (fst l)).
Definition l_it (l : Z * Qc * Z * Qc) : Z := snd (fst l).
Definition l_total (l : Z * Qc * Z * Qc) : Qc := snd l.
Fixpoint zsum_of (l : list Z) : Z := match l with [] => 0 | v :: l => v + zsum_of l end.
(** The lines are written at the ends of groups of calls, cut as for series; each has the index and,
    as total, the time since the start; the laps and the numbers of iterations add up to the total
    and to the number of the iteration. *)
Definition ends (g : list (Z * Qc)) (start : Qc) (line : Z * Qc * Z * Qc) : Prop := exists g0 now, g = g0 ++ [(l_index line, now)] /\ l_total line = (now - start)%Qc.
Lemma tick_groups interval : forall ticks held s, Forall (fun a => fst a < t_flush_at s + interval) held ->
  exists groups rest new, held ++ ticks = concat groups ++ rest /\ cut interval (t_flush_at s) groups rest /\ t_lines (tick_all interval ticks s) = t_lines s ++ new /\
  Forall2 (fun g => ends g (t_start s)) groups new /\
  forall a l b, new = a ++ l :: b -> (sum (map l_elapsed (a ++ [l])) = l_total l - (t_lap s - t_start s))%Qc /\ zsum_of (map l_it (a ++ [l])) = l_index l - t_flush_at s.
Proof.
  induction ticks as [| [i now] ticks IH]; intros held s H.
  - exists [], held, []. split; [apply app_nil_r |]. split; [constructor; exact H |]. split; [symmetry; apply app_nil_r |]. split; [constructor |]. intros a l b E. destruct a; discriminate.
  - change (tick_all interval ((i, now) :: ticks) s) with (tick_all interval ticks (tick interval s i now)). unfold tick. destruct (Z.ltb_spec (i - t_flush_at s) interval) as [L | L].
    + destruct (IH (held ++ [(i, now)]) s) as (gs & rest & new & E & R); [apply Forall_app; split; [exact H | constructor; [cbn [fst]; lia | constructor]] |]. exists gs, rest, new. rewrite <- app_assoc in E. split; [exact E | exact R].
    + match goal with |- context [tick_all interval ticks ?t] => destruct (IH [] t (Forall_nil _)) as (gs & rest & new & E & K & N & F & S) end. cbn [t_flush_at t_start t_lap t_lines] in *.
      exists ((held ++ [(i, now)]) :: gs), rest, ((i, (now - t_lap s)%Qc, i - t_flush_at s, (now - t_start s)%Qc) :: new). split; [cbn [concat app] in *; rewrite E, <- !app_assoc; reflexivity |]. split; [constructor; [exact H | lia | exact K] |].
      split; [rewrite N, <- app_assoc; reflexivity |]. split; [constructor; [exists held, now; split; reflexivity | exact F] |].
      intros a l b EN. destruct a as [| a0 a]; cbn [app] in EN; inversion EN; subst.
      * cbn [app map sum zsum_of]. unfold l_elapsed, l_it, l_index, l_total. cbn [fst snd]. split; [ring | lia].
      * destruct (S a l b eq_refl) as (S1 & S2). cbn [app map sum zsum_of]. rewrite S1, S2. unfold l_elapsed at 1, l_it at 1. cbn [fst snd]. split; [ring | lia].
Qed.
Theorem C129_times : forall interval start ticks, exists groups rest, ticks = concat groups ++ rest /\ cut interval (-1) groups rest /\
  Forall2 (fun g => ends g start) groups (t_lines (tick_all interval ticks (new_timer start))) /\
  forall a l b, t_lines (tick_all interval ticks (new_timer start)) = a ++ l :: b -> sum (map l_elapsed (a ++ [l])) = l_total l /\ zsum_of (map l_it (a ++ [l])) = l_index l + 1.
Proof.
  intros interval start ticks. destruct (tick_groups interval ticks [] (new_timer start) (Forall_nil _)) as (gs & rest & new & E & K & N & F & S). exists gs, rest. split; [exact E |]. split; [exact K |]. cbn [new_timer t_lines t_start t_lap t_flush_at app] in *. rewrite N.
  split; [exact F |]. intros a l b EN. destruct (S a l b EN) as (S1 & S2). rewrite S1, S2. split; [ring | lia].
Qed.
(** Images are written at index 0 and at the last index of every interval. *)
Theorem C129_images : forall interval index, 0 < interval -> image_due interval index = true <-> index = 0 \/ exists k, index + 1 = k * interval.
Proof.
  intros interval index P. unfold image_due. rewrite negb_true_iff, andb_false_iff, !negb_false_iff, !Z.eqb_eq. split; (intros [H | H]; [left; exact H | right]).
  - exists ((index + 1) / interval). rewrite (Z.div_mod (index + 1) interval) at 1 by lia. lia.
  - destruct H as (k & ->). apply Z.mod_mul. lia.
Qed.

(** * Examples *)
Example series_works : map fst (lines (add_all 3 (map (fun i => (i, q1)) [0; 1; 2; 3; 4; 5; 6]) new_series)) = [2; 5] /\ length (buf (add_all 3 (map (fun i => (i, q1)) [0; 1; 2; 3; 4; 5; 6]) new_series)) = 1%nat.
Proof. split; reflexivity. Qed.
Example mean_works : map (fun l => (fst l, this (snd l))) (lines (add_all 2 [(0, of_Z 1); (1, of_Z 3)] new_series)) = [(1, (2 # 1)%Q)].
Proof. vm_compute. reflexivity. Qed.
Example times_work : map (fun l => (l_index l, l_it l)) (t_lines (tick_all 2 [(0, q1); (1, q1); (5, q1); (6, q1); (7, q1)] (new_timer 0%Qc))) = [(1, 2); (5, 4); (7, 2)].
Proof. reflexivity. Qed.
Example images_work : map (image_due 3) [0; 1; 2; 3; 4; 5] = [true; false; true; false; false; true].
Proof. reflexivity. Qed.
Print Assumptions C128_groups.
Print Assumptions C128_consecutive.
Print Assumptions C129_times.
Print Assumptions C129_images.
