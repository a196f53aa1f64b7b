(** Properties of dropout. *)
From Coq Require Import List ZArith Lia Bool QArith Qcanon Field.
From Verif Require Import ReduceModel FindProofs1 DropModel DropSpec.
Import ListNotations.
Local Open Scope list_scope.
Local Open Scope Qc_scope.

(** The next [n] numbers of a generator. *)
Definition drawn (mt : numbers) (g : generator) (n : nat) : list Qc := map (fun i => mt (g_seed g) (g_pos g + i)%nat) (seq 0 n).
Definition advanced (g : generator) (n : nat) : generator := Generator (g_seed g) (g_pos g + n).
Definition used (f : dropout) (w : world) : generator := if Z.eq_dec (seed f) (-1) then global w else rgen f.
(** What setup makes of a function, and what stays so. *)
Definition is_set_up (f : dropout) : Prop := 0 <= p f /\ p f < 1 /\ scale f = 1 / (1 - p f) /\ keep f = 1 - p f.

Lemma one_less q : q < 1 -> 1 - q <> 0.
Proof. intros L E. apply (Qclt_not_eq _ _ L). replace q with (1 - (1 - q)) by ring. rewrite E. ring. Qed.
Lemma drawn_S mt g n : drawn mt g (S n) = mt (g_seed g) (g_pos g) :: drawn mt (Generator (g_seed g) (S (g_pos g))) n.
Proof. unfold drawn. cbn [seq map g_seed g_pos]. rewrite Nat.add_0_r. f_equal. rewrite <- seq_shift, map_map. apply map_ext. intros i. f_equal. lia. Qed.
Lemma advanced_S g n : advanced (Generator (g_seed g) (S (g_pos g))) n = advanced g (S n).
Proof. unfold advanced. cbn [g_seed g_pos]. f_equal. lia. Qed.

(** The masks that belong to drawn numbers. *)
Definition mask_for (q : Qc) (us : list Qc) : list Qc := map (fun u => if less u (1 - q) then 1 else 0) us.
Lemma factor_mask q u : (if less u (1 - q) then 1 else 0) * (1 / (1 - q)) = factor q u.
Proof. unfold factor, less. destruct (Qclt_le_dec u (1 - q)); ring. Qed.
Lemma drop_ok mt q : forall xs g, exists ys, drop mt (1 - q) (1 / (1 - q)) xs g = (mask_for q (drawn mt g (length xs)), ys, advanced g (length xs)) /\ dropped q (drawn mt g (length xs)) xs ys.
Proof.
  induction xs as [| x xs IH]; intros g; cbn [drop length].
  - exists []. split; [| constructor]. unfold advanced. rewrite Nat.add_0_r. destruct g; reflexivity.
  - destruct (IH (Generator (g_seed g) (S (g_pos g)))) as (ys & E & D). rewrite E, drawn_S, advanced_S. eexists. split; [reflexivity |]. rewrite <- Qcmult_assoc, factor_mask, Qcmult_comm. constructor. exact D.
Qed.

(** * C130: values *)
Theorem C130_setup : forall d x f w f1 w1, setup d x f w = Some (f1, w1) -> p f1 = p f /\ seed f1 = seed f /\ is_set_up f1 /\ (seed f <> (-1)%Z -> rgen f1 = Generator (seed f) 0) /\ global w1 = global w.
Proof.
  intros d x f w f1 w1 E. unfold setup in E. destruct (less (p f) 0 || negb (less (p f) 1)) eqn:B; [discriminate |]. apply orb_false_iff in B. destruct B as (B1 & B2). apply less_false in B1. apply negb_false_iff, less_true in B2.
  injection E as <- <-. cbn. repeat split; auto. intros N. destruct (Z.eqb_spec (seed f) (-1)); [contradiction | reflexivity].
Qed.
Theorem C130_refused : forall d x f w, setup d x f w = None <-> p f < 0 \/ 1 <= p f.
Proof.
  intros d x f w. unfold setup. destruct (less (p f) 0 || negb (less (p f) 1)) eqn:B.
  - split; [intros _ | reflexivity]. apply orb_true_iff in B. rewrite negb_true_iff, less_true, less_false in B. exact B.
  - split; [discriminate |]. apply orb_false_iff in B. rewrite negb_false_iff, less_true, less_false in B. destruct B as (B1 & B2). intros [H | H]; exfalso; [exact (Qclt_not_le _ _ H B1) | exact (Qclt_not_le _ _ B2 H)].
Qed.
(** Forward draws a number for each element, from its own generator if there is a seed and from the
    global one otherwise. *)
Theorem C130_values : forall mt xs f w ys f' w', is_set_up f -> forward mt xs f w = (ys, f', w') ->
  dropped (p f) (drawn mt (used f w) (length xs)) xs ys /\
  used f' w' = advanced (used f w) (length xs) /\ (seed f = (-1)%Z -> rgen f' = rgen f) /\ (seed f <> (-1)%Z -> global w' = global w) /\
  p f' = p f /\ seed f' = seed f /\ mask f' = mask f /\ is_set_up f' /\ mask_of w' = mask_of w /\ forall k, k <> mask f -> contents w' k = contents w k.
Proof.
  intros mt xs f w ys f' w' (P0 & P1 & SC & KE) E. unfold forward in E. rewrite SC, KE in E.
  set (g := if (seed f =? -1)%Z then global w else rgen f) in *. assert (G : used f w = g) by (unfold used, g; destruct (Z.eq_dec (seed f) (-1)), (Z.eqb_spec (seed f) (-1)); congruence).
  destruct (drop_ok mt (p f) xs g) as (ys0 & D & Y). rewrite D in E. injection E as <- <- <-. rewrite G. split; [exact Y |]. unfold used. cbn [seed global rgen p mask contents mask_of with_mask].
  destruct (Z.eq_dec (seed f) (-1)) as [S | S]; destruct (Z.eqb_spec (seed f) (-1)); try contradiction; repeat split; cbn [p scale keep]; auto; try contradiction; intros k N; unfold put; destruct (Nat.eqb_spec k (mask f)); congruence.
Qed.
(** If numbers are uniform between 0 and 1, an element is kept with probability 1 - p, and its
    expected value does not change. *)
Theorem C130_expected : forall q, 0 <= q -> q < 1 -> (forall u, u < 1 - q -> factor q u = 1 / (1 - q)) /\ (forall u, 1 - q <= u -> factor q u = 0) /\
  0 < 1 - q /\ 1 - q <= 1 /\ forall x, (1 - q) * (1 / (1 - q) * x) + (1 - (1 - q)) * (0 * x) = x.
Proof.
  intros q L0 L1. repeat split.
  - intros u H. unfold factor. destruct (Qclt_le_dec u (1 - q)) as [| N]; [reflexivity | exfalso; exact (Qclt_not_le _ _ H N)].
  - intros u H. unfold factor. destruct (Qclt_le_dec u (1 - q)) as [N |]; [exfalso; exact (Qclt_not_le _ _ N H) | reflexivity].
  - apply Qclt_minus_iff in L1. exact L1.
  - apply Qcle_minus_iff. replace (1 + - (1 - q)) with q by ring. exact L0.
  - intros x. field. apply one_less. exact L1.
Qed.
(** With a seed the values after setup depend only on p, the seed and the input. *)
Theorem C130_seeded : forall mt xs d x f w f1 w1 d' x' f' w' f1' w1', setup d x f w = Some (f1, w1) -> setup d' x' f' w' = Some (f1', w1') -> p f = p f' -> seed f = seed f' -> seed f <> (-1)%Z ->
  forall v v', fst (fst (forward mt xs f1 v)) = fst (fst (forward mt xs f1' v')).
Proof.
  intros mt xs d x f w f1 w1 d' x' f' w' f1' w1' S S' P Q N v v'. destruct (C130_setup _ _ _ _ _ _ S) as (A1 & A2 & (_ & _ & A3 & A4) & A5 & _). destruct (C130_setup _ _ _ _ _ _ S') as (B1 & B2 & (_ & _ & B3 & B4) & B5 & _).
  unfold forward. rewrite A2, B2, <- Q. destruct (Z.eqb_spec (seed f) (-1)); [contradiction |]. rewrite A3, A4, B3, B4, A1, B1, <- P, A5 by exact N. rewrite B5 by congruence. rewrite <- Q.
  destruct (drop mt (1 - p f) (1 / (1 - p f)) xs (Generator (seed f) 0)) as ((ms & ys) & g). reflexivity.
Qed.
(** Recomputation gives the same values and the same mask, whatever was drawn in the meantime, and
    takes no numbers from other generators. *)
Theorem C130_recompute : forall mt xs f w ys f' w' w2, forward mt xs (setup_recompute f) w = (ys, f', w') ->
  fst (recompute mt xs f' w2) = ys /\ contents (snd (recompute mt xs f' w2)) (mask f') = contents w' (mask f') /\ global (snd (recompute mt xs f' w2)) = global w2.
Proof.
  intros mt xs f w ys f' w' w2 E. unfold forward in E. cbn [save_rng setup_recompute seed keep scale mask p rgen kept] in E.
  destruct (drop mt (keep f) (scale f) xs (if (seed f =? -1)%Z then global w else rgen f)) as ((ms & ys0) & g) eqn:D. injection E as <- <- <-.
  unfold recompute. cbn [keep scale kept mask]. rewrite D. cbn [fst snd with_mask contents global]. unfold put. rewrite Nat.eqb_refl. auto.
Qed.
(** Recomputation can be repeated, and forward that follows it continues as if there was none. *)
Theorem C130_recompute_again : forall mt xs f w w2 k, fst (recompute mt xs f w) = fst (recompute mt xs f w2) /\ (k <> mask f -> contents (snd (recompute mt xs f w)) k = contents w k) /\ mask_of (snd (recompute mt xs f w)) = mask_of w.
Proof.
  intros mt xs f w w2 k. unfold recompute. destruct (drop mt (keep f) (scale f) xs (kept f)) as ((ms & ys) & g). cbn [fst snd with_mask contents mask_of]. split; [reflexivity |]. split; [| reflexivity]. intros N. unfold put. destruct (Nat.eqb_spec k (mask f)); congruence.
Qed.

(** * C131: gradients and masks *)
Lemma forward_mask mt xs f w ys f' w' : is_set_up f -> forward mt xs f w = (ys, f', w') -> contents w' (mask f') = Some (mask_for (p f) (drawn mt (used f w) (length xs))) /\ scale f' = 1 / (1 - p f).
Proof.
  intros (P0 & P1 & SC & KE) E. unfold forward in E. rewrite SC, KE in E.
  set (g := if (seed f =? -1)%Z then global w else rgen f) in *. assert (G : used f w = g) by (unfold used, g; destruct (Z.eq_dec (seed f) (-1)), (Z.eqb_spec (seed f) (-1)); congruence).
  destruct (drop_ok mt (p f) xs g) as (ys0 & D & Y). rewrite D in E. injection E as <- <- <-. cbn [contents with_mask mask scale]. unfold put. rewrite Nat.eqb_refl, G. split; reflexivity.
Qed.
Lemma drawn_length mt g n : length (drawn mt g n) = n.
Proof. unfold drawn. rewrite map_length, seq_length. reflexivity. Qed.
Definition before (accum : bool) (dxs : list Qc) : list Qc := if accum then dxs else map (fun _ => 0) dxs.
Lemma grads_ok accum q : forall us dxs dys, length dxs = length us -> length dys = length us -> added q us (before accum dxs) dys (grads accum (1 / (1 - q)) dxs dys (mask_for q us)).
Proof.
  induction us as [| u us IH]; intros [| dx dxs] [| dy dys] L1 L2; try discriminate; [destruct accum; constructor |].
  cbn [mask_for map grads]. rewrite <- Qcmult_assoc, factor_mask, Qcmult_comm.
  replace (before accum (dx :: dxs)) with ((if accum then dx else 0) :: before accum dxs) by (destruct accum; reflexivity). constructor. apply IH; [injection L1; auto | injection L2; auto].
Qed.
(** Backward multiplies gradients by the same factors as forward the values; the mask is gone then. *)
Theorem C131_gradient : forall mt xs f w ys f' w' w2 accum dxs dys, is_set_up f -> forward mt xs f w = (ys, f', w') -> contents w2 (mask f') = contents w' (mask f') ->
  length dxs = length xs -> length dys = length xs ->
  exists ds w3, backward true accum dxs dys f' w2 = Some (ds, w3) /\ added (p f) (drawn mt (used f w) (length xs)) (if accum then dxs else map (fun _ => 0) dxs) dys ds /\
  global w3 = global w2 /\ contents w3 (mask f') = None /\ forall k, k <> mask f' -> contents w3 k = contents w2 k.
Proof.
  intros mt xs f w ys f' w' w2 accum dxs dys SU E C L1 L2. destruct (forward_mask _ _ _ _ _ _ _ SU E) as (M & SC). rewrite M in C. unfold backward. cbn [negb]. rewrite C, SC. eexists. eexists. split; [reflexivity |].
  split; [apply (grads_ok accum); rewrite drawn_length; assumption |]. cbn [with_mask global contents]. unfold put. split; [reflexivity |]. split; [rewrite Nat.eqb_refl; reflexivity |]. intros k N. destruct (Nat.eqb_spec k (mask f')); congruence.
Qed.
Theorem C131_not_wanted : forall accum dxs dys f w, backward false accum dxs dys f w = Some (dxs, w).
Proof. reflexivity. Qed.
(** Refuted: backward cannot be repeated without another forward (or recomputation), as the mask is
    cleared. *)
Theorem C131_repeat_refuted : forall accum dxs dys f w ds w' accum' dxs' dys', backward true accum dxs dys f w = Some (ds, w') -> backward true accum' dxs' dys' f w' = None.
Proof.
  intros accum dxs dys f w ds w' accum' dxs' dys' E. unfold backward in *. cbn [negb] in *. destruct (contents w (mask f)); [| discriminate]. injection E as <- <-. cbn [with_mask contents]. unfold put. rewrite Nat.eqb_refl. reflexivity.
Qed.
(** The derivative as a graph finds the mask of the last setup with this input, and then computes
    the same as backward. *)
Theorem C131_graph : forall mt d x f w f1 w1 xs v ys f' w' w2 k dys, setup d x f w = Some (f1, w1) -> find_mask x w1 = Some k ->
  forward mt xs f1 v = (ys, f', w') -> contents w2 k = contents w' k -> length dys = length xs ->
  exists ds, graph_gradient (p f) k dys w2 = Some ds /\ added (p f) (drawn mt (used f1 v) (length xs)) (map (fun _ => 0) dys) dys ds.
Proof.
  intros mt d x f w f1 w1 xs v ys f' w' w2 k dys S F E C L. destruct (C130_setup _ _ _ _ _ _ S) as (P & Q & SU & _).
  assert (K : k = mask f1). { unfold setup in S. destruct (less (p f) 0 || negb (less (p f) 1)); [discriminate |]. injection S as <- <-. unfold find_mask in F. cbn [mask_of mask] in *. unfold put in F. rewrite Nat.eqb_refl in F. congruence. }
  destruct (forward_mask _ _ _ _ _ _ _ SU E) as (M & _). destruct (C130_values _ _ _ _ _ _ _ SU E) as (_ & _ & _ & _ & _ & _ & MK & _). rewrite MK, <- K in M. rewrite M in C. unfold graph_gradient. rewrite C. cbn [option_map]. eexists. split; [reflexivity |].
  rewrite P. assert (LL : length dys = length (drawn mt (used f1 v) (length xs))) by (rewrite drawn_length; exact L). revert LL. generalize (drawn mt (used f1 v) (length xs)). clear - SU. intros us. revert dys. induction us as [| u us IH]; intros [| dy dys] LL; try discriminate; [constructor |].
  cbn [mask_for map combine].
  replace (dy * (if less u (1 - p f) then 1 else 0) / (1 - p f)) with (0 + factor (p f) u * dy) by (rewrite <- factor_mask; unfold Qcdiv; ring). constructor. apply IH. injection LL. auto.
Qed.
Theorem C131_found : forall d x f w f1 w1, setup d x f w = Some (f1, w1) -> find_mask x w1 = Some (mask f1) /\ (forall x', x' <> x -> find_mask x' w1 = find_mask x' w) /\ mask f1 = fresh w /\ (fresh w < fresh w1)%nat.
Proof.
  intros d x f w f1 w1 S. unfold setup in S. destruct (less (p f) 0 || negb (less (p f) 1)); [discriminate |]. injection S as <- <-. unfold find_mask. cbn [mask_of mask fresh]. unfold put. rewrite Nat.eqb_refl. split; [reflexivity |]. split; [| split; [reflexivity | lia]]. intros x' N. destruct (Nat.eqb_spec x' x); congruence.
Qed.
(** Refuted: the derivative as a graph is that of the function.  If a variable is the input of two
    functions, the derivative of the first takes the mask of the second. *)
Definition tenths (z : Z) : Qc := Q2Qc (z # 10).
Definition example_numbers : numbers := fun s i => if (s =? 1)%Z then tenths 2 else tenths 7.
Definition start : world := World (Generator 0 0) (fun _ => None) (fun _ => None) 0.
Definition case {A} (o : option (dropout * world)) (d : A) (f : dropout -> world -> A) : A := match o with Some (a, w) => f a w | None => d end.
Definition two_functions : option (list Qc) * option (list Qc) :=
  case (setup 0 0 (make (tenths 5) 1) start) (None, None) (fun a w =>
  case (setup 0 0 (make (tenths 5) 2) w) (None, None) (fun b w =>
  let '(_, a, w) := forward example_numbers [1] a w in
  let '(_, b, w) := forward example_numbers [1] b w in
  (match find_mask 0 w with Some k => graph_gradient (p a) k [1] w | None => None end, option_map fst (backward true false [0] [1] a w)))).
Theorem C131_two_functions_refuted : two_functions = (Some [0], Some [1 + 1]).
Proof. vm_compute. f_equal; f_equal; f_equal; apply Qc_is_canon; reflexivity. Qed.

(** * Examples *)
Definition example_run (s : Z) : list Q :=
  case (setup 0 0 (make (tenths 5) s) start) [] (fun a w => map this (fst (fst (forward (fun _ i => tenths (3 * Z.of_nat i)) [1; 1; 1; 1] a w)))).
Example values_work : example_run 1 = [2 # 1; 2 # 1; 0; 0]%Q /\ example_run (-1) = example_run 1.
Proof. split; vm_compute; reflexivity. Qed.
Example gradient_works : case (setup 0 0 (make (tenths 5) 1) start) None (fun a w => let '(_, a, w) := forward (fun _ i => tenths (3 * Z.of_nat i)) [1; 1; 1] a w in
  option_map (fun r => map this (fst r)) (backward true true [1; 1; 1] [1; 1; 1] a w)) = Some [3 # 1; 3 # 1; 1]%Q.
Proof. vm_compute. reflexivity. Qed.
Print Assumptions C130_values.
Print Assumptions C130_seeded.
Print Assumptions C130_recompute.
Print Assumptions C131_gradient.
Print Assumptions C131_graph.
