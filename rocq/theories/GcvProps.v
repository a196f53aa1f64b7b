(** Properties of graph converters: C106-C109. *)
From Coq Require Import String List Arith ZArith Bool Lia.
From Verif Require Import IdxModel GcvModel GcvSpec GcvProofs1 GcvProofs2 GcvProofs3 GcvProofs4 GcvProofs5 GcvProofs6 GcvProofs7 GcvProofs8 GcvProofs9.
Import ListNotations.
Local Open Scope list_scope.

(** * Small networks of numbers, for examples *)

(** The arguments of a batch normalization: 0 for the running statistics, 1 for those of the batch
    (of one number), 2 for giving the statistics as well. *)
Definition zsem (o : op) (xs : list Z) : option (list Z) :=
  let n := op_type o in
  if String.eqb n "Affine" then match xs with [x; w] => Some [x * w]%Z | [x; w; b] => Some [x * w + b]%Z | _ => None end
  else if String.eqb n "BatchNormalization" then
    match xs, op_args o with
    | [x; beta; gamma; mean; _], [0] => Some [gamma * (x - mean) + beta]%Z
    | [x; beta; gamma; mean; _], [1] => Some [beta]
    | [x; beta; gamma; mean; var], [2] => Some [beta; mean; var]
    | _, _ => None
    end
  else if String.eqb n "ReLU" then match xs with [x] => Some [Z.max 0 x] | _ => None end
  else if String.eqb n "Dropout" then match xs with [x] => Some [x] | _ => None end
  else if String.eqb n "Add2" then match xs with [x; y] => Some [x + y]%Z | _ => None end
  else if String.eqb n "Mul2" then match xs with [x; y] => Some [x * y]%Z | _ => None end
  else if String.eqb n "Split" then match xs with [x] => Some [x; x + 1]%Z | _ => None end
  else if String.eqb n "Randn" then match xs with [] => Some [7]%Z | _ => None end
  else None.
Definition zmin (o : op) (n : nat) : option nat := if String.eqb (op_type o) "Split" then Some 2 else Some 1.
Definition zfold (f b : op) (w : Z) (c : option Z) (ps : list Z) : option (Z * Z) :=
  match c, ps with Some c, [beta; gamma; mean; _] => Some (w * gamma, gamma * (c - mean) + beta)%Z | _, _ => None end.
Definition zscale (b : op) (ps : list Z) : option (Z * Z) := match ps with [beta; gamma; mean; _] => Some (gamma, beta - gamma * mean)%Z | _ => None end.
Definition shown (r : option (graph Z * list nat)) : option (list (option Z)) := obind r (fun '(g, outs) => Some (map (eval zsem 20 g) outs)).
Definition lf (d : nat) : var := Var d None.
Definition ov (d f : nat) : var := Var d (Some f).
Definition bn0 : op := Op "BatchNormalization" [0].
Definition affine : op := Op "Affine" [].
Definition relu : op := Op "ReLU" [].
Definition weight (scope name : string) (grad : bool) (d : nat) : param := Param scope name 0 grad d.

(** The variable of number n has buffer n; the values of a list. *)
Definition vals (l : list Z) (v : nat) : Z := nth v l 0%Z.

(** Going through lists that are written out. *)
Ltac nths := repeat (cbn [g_vars g_fns g_store g_params] in *; match goal with
  | H : nth_error _ _ = Some _ |- _ => progress (cbn [nth_error] in H)
  | H : nth_error _ ?f = Some _ |- _ => is_var f; destruct f as [|f]
  | H : Some _ = Some _ |- _ => injection H; clear H; intros; subst
  | H : None = Some _ |- _ => discriminate H
  | H : Some _ = None |- _ => discriminate H
  end).
Ltac ins := cbn [f_in f_out In] in *; repeat match goal with H : _ \/ _ |- _ => destruct H as [H|H] | H : False |- _ => destruct H | H : _ = ?x |- _ => is_var x; subst x | H : ?x = _ |- _ => is_var x; subst x end.
Ltac is_built :=
  split; [intros f y v Hf Hv; cbn in Hf; nths; ins; eexists; (split; [reflexivity|]); cbn; intros p; intros [= <-]; lia || (intros; discriminate)
         |intros f y v Hf Hv; cbn in Hf; nths; ins; eexists; reflexivity
         |intros v x p Hv Hp; cbn in Hv; nths; cbn in Hp; try discriminate; injection Hp as <-; eexists; (split; [reflexivity|]); cbn; tauto
         |intros v x Hv; cbn in Hv; nths; cbn; lia
         |intros f y Hf; cbn in Hf; nths; repeat constructor; cbn; lia].

(** Every function is given, and every value is written out. *)
Ltac is_convertible := split;
  [is_built|discriminate|intros v Hv; ins; eexists; reflexivity|intros h y _ Hy; cbn in Hy; nths; discriminate|intros h y _ Hy; cbn in Hy; nths; reflexivity
  |intros h y _ Hy; cbn in Hy; nths; intros i j a b Hij Ha Hb _; cbn in Ha, Hb; nths; lia|reflexivity].
Ltac is_valuation := split;
  [intros v d _ Hv; cbn in Hv; nths; reflexivity|intros h y _ Hy; cbn in Hy; nths; reflexivity
  |intros v w a b _ _ Ha Hb Hp Hd; cbn in Ha, Hb; nths; cbn in Hp, Hd; try discriminate Hd; try congruence; reflexivity].
Ltac is_own := intros v w a b _ _ Ha Hb Hp Hd; cbn in Ha, Hb; nths; cbn in Hp, Hd; try discriminate Hd; try congruence; reflexivity.

Lemma convert_one {V} (blank : V) mo (m : modifier V) g outs r : convert1 blank mo m g outs = Some r -> convert blank mo [m] g outs = Some r.
Proof. intros H. cbn [convert]. rewrite H. destruct r. reflexivity. Qed.

(** relu(bn(affine(x))) *)
Definition net1 : graph Z := Graph
  [lf 0; lf 1; lf 2; ov 3 0; lf 4; lf 5; lf 6; lf 7; ov 8 1; ov 9 2; lf 10]
  [Fn affine [0; 1; 2] [3]; Fn bn0 [3; 4; 5; 6; 7] [8]; Fn relu [8] [9]]
  [2; 3; 1; 0; 10; 5; 4; 1; 0; 0; 6]%Z [weight "fc" "W" true 1; weight "fc" "b" true 2].
Definition val1 : nat -> Z := vals [2; 3; 1; 7; 10; 5; 4; 1; 25; 25; 6]%Z.
Lemma net1_ok : convertible zmin net1 [9; 8].
Proof. is_convertible. Qed.
Lemma net1_val : valuation zsem net1 [9; 8] val1.
Proof. is_valuation. Qed.
Lemma net1_own : own_buffers net1 [9; 8].
Proof. is_own. Qed.

(** * C106: what converting leaves as it is *)

Theorem C106_value : forall (V : Type) (sem : op -> list V -> option (list V)) (g : graph V), built g -> forall v x y, computes sem g v x -> computes sem g v y -> x = y.
Proof. intros V sem g B v x y Hx Hy. exact (computes_fun sem g (built_nodup g B) v x Hx y Hy). Qed.
Example C106_value_works : built net1 /\ computes zsem net1 9 25%Z.
Proof. split; [exact (conv_built _ _ _ net1_ok)|]. apply (eval_computes zsem 9). reflexivity. Qed.

(** Converting a network without changing it gives a new network that computes the same. *)
Theorem C106_same_partial : forall (V : Type) (sem : op -> list V -> option (list V)) (blank : V) min_outputs g outs val,
  convertible min_outputs g outs -> valuation sem g outs val ->
  exists g' outs', convert blank min_outputs [identity blank min_outputs []] g outs = Some (g', outs') /\ extends g g' /\
    Forall2 (fun o v => computes sem g' v (val o)) outs outs'.
Proof.
  intros V sem blank mo g outs val C Hv. destruct (identity_ok sem blank mo g outs C val Hv) as (g' & outs' & H1 & H2 & H3). exists g', outs'.
  split; [exact (convert_one _ _ _ _ _ _ H1)|]. split; [exact (ext_extends blank g outs g' H2)|exact H3].
Qed.
(** Several modifiers work one after the other, each on what the ones before it made. *)
Theorem C106_in_turn : forall (V : Type) (blank : V) min_outputs ms ms' g outs,
  convert blank min_outputs (ms ++ ms') g outs = obind (convert blank min_outputs ms g outs) (fun '(g', outs') => convert blank min_outputs ms' g' outs') /\
  convert blank min_outputs [] g outs = Some (g, outs).
Proof.
  intros V blank mo ms ms' g outs. split; [| reflexivity]. revert g outs. induction ms as [| m ms IH]; intros g outs; [reflexivity |]. cbn [app convert].
  destruct (convert1 blank mo m g outs) as [[g1 outs1] |]; [cbn [obind]; apply IH | reflexivity].
Qed.
Example C106_same_works : convertible zmin net1 [9; 8] /\ valuation zsem net1 [9; 8] val1 /\ shown (convert 0%Z zmin [identity 0%Z zmin []] net1 [9; 8]) = Some [Some 25; Some 25]%Z.
Proof. split; [exact net1_ok|]. split; [exact net1_val|]. vm_compute. reflexivity. Qed.

(** With a dictionary, first inputs are replaced. *)
Definition replacement {V} (g : graph V) (repl : list (nat * nat)) (v r : nat) : Prop :=
  exists k d a, In (k, r) repl /\ nth_error (g_vars g) k = Some a /\ nth_error (g_vars g) v = Some (Var d None) /\ v_data a = d.
Theorem C106_replace_partial : forall (V : Type) (sem : op -> list V -> option (list V)) (blank : V) min_outputs g outs repl val,
  convertible min_outputs g outs -> own_buffers g outs ->
  (forall k r, In (k, r) repl -> exists a e, nth_error (g_vars g) k = Some a /\ nth_error (g_vars g) r = Some (Var e None)) ->
  (forall v r r', replacement g repl v r -> replacement g repl v r' -> r = r') ->
  (forall h y i v r, below g outs h -> nth_error (g_fns g) h = Some y -> nth_error (f_in y) i = Some v -> replacement g repl v r -> i = 0 /\ exists o, f_out y = [o]) ->
  (forall v r, In v outs -> ~ replacement g repl v r) ->
  (forall h y, below g outs h -> nth_error (g_fns g) h = Some y -> sem (f_op y) (map val (f_in y)) = Some (map val (f_out y))) ->
  (forall v d, relevant g outs v -> nth_error (g_vars g) v = Some (Var d None) -> (forall r, ~ replacement g repl v r) -> nth_error (g_store g) d = Some (val v)) ->
  (forall v r e, relevant g outs v -> replacement g repl v r -> nth_error (g_vars g) r = Some (Var e None) -> nth_error (g_store g) e = Some (val v)) ->
  exists g' outs', convert blank min_outputs [identity blank min_outputs repl] g outs = Some (g', outs') /\ extends g g' /\
    Forall2 (fun o v => computes sem g' v (val o)) outs outs'.
Proof.
  intros V sem blank mo g outs repl val C Hown Hk Hu Hp Ho Hfn Hl Hr.
  assert (S1 : forall v d, nth_error (g_vars g) v = Some (Var d None) -> forall r, swapped g repl v = Some r -> replacement g repl v r).
  { intros v d Hv r H. unfold swapped in H. destruct (find _ repl) as [(k, r0)|] eqn:E; [|discriminate]. cbn in H. injection H as <-. apply find_some in E. destruct E as (E1 & E2).
    destruct (Hk k r0 E1) as (a & e & Ha & _). exists k, d, a. unfold same, data, var_of in E2. rewrite Ha, Hv in E2. apply Nat.eqb_eq in E2. auto. }
  assert (S2 : forall v, swapped g repl v = None -> forall r, ~ replacement g repl v r).
  { intros v H r (k & d & a & H1 & H2 & H3 & H4). unfold swapped in H. destruct (find _ repl) eqn:E; [discriminate|]. pose proof (List.find_none _ _ E _ H1) as K. cbn beta iota in K.
    unfold same, data, var_of in K. rewrite H2, H3 in K. cbn [v_data] in K. apply Nat.eqb_neq in K. congruence. }
  destruct (identity_replace sem blank mo g outs C repl val Hown Hfn) as (g' & outs' & A1 & A2 & A3).
  - intros v d Hrel Hv. destruct (swapped g repl v) as [r|] eqn:Es.
    + pose proof (S1 v d Hv r Es) as HR. pose proof HR as (k & ? & ? & H1 & _). destruct (Hk k r H1) as (a & e & _ & He). exists e. split; [exact He|exact (Hr v r e Hrel HR He)].
    + exact (Hl v d Hrel Hv (S2 v Es)).
  - intros k r H. destruct (Hk k r H) as (a & e & Ha & _). eauto.
  - intros h y i v Hh Hy Hi (d & Hd) Hs. destruct (swapped g repl v) as [r|] eqn:Es; [|congruence]. exact (Hp h y i v r Hh Hy Hi (S1 v d Hd r Es)).
  - intros v Hv (d & Hd). destruct (swapped g repl v) as [r|] eqn:Es; [|reflexivity]. destruct (Ho v r Hv (S1 v d Hd r Es)).
  - exists g', outs'. split; [exact (convert_one _ _ _ _ _ _ A1)|]. split; [exact (ext_extends blank g outs g' A2)|exact A3].
Qed.
Definition val1r : nat -> Z := vals [6; 3; 1; 19; 10; 5; 4; 1; 85; 85; 6]%Z.
Example C106_replace_works : shown (convert 0%Z zmin [identity 0%Z zmin [(0, 10)]] net1 [9; 8]) = Some [Some 85; Some 85]%Z /\
  exists g' outs', convert 0%Z zmin [identity 0%Z zmin [(0, 10)]] net1 [9; 8] = Some (g', outs') /\ extends net1 g' /\ Forall2 (fun o v => computes zsem g' v (val1r o)) [9; 8] outs'.
Proof.
  split; [vm_compute; reflexivity|]. assert (K : forall v r, replacement net1 [(0, 10)] v r -> v = 0 /\ r = 10).
  { intros v r (k & d & a & [[= <- <-]|[]] & Ha & Hv & Hd). cbn in Ha. injection Ha as <-. cbn in Hd. subst d. split; [|reflexivity]. cbn in Hv. nths; try discriminate; reflexivity. }
  apply C106_replace_partial.
  - exact net1_ok.
  - exact net1_own.
  - intros k r [[= <- <-]|[]]. eexists _, _. split; reflexivity.
  - intros v r r' H H'. destruct (K _ _ H), (K _ _ H'). congruence.
  - intros h y i v r _ Hy Hi H. destruct (K _ _ H) as (-> & _). clear H. destruct h as [|[|[|h]]]; cbn in Hy; [injection Hy as <-|injection Hy as <-|injection Hy as <-|destruct h; discriminate]; cbn [f_in] in Hi; nths; try discriminate. split; [reflexivity|exists 3; reflexivity].
  - intros v r Hv H. destruct (K _ _ H) as (-> & _). cbn in Hv. intuition discriminate.
  - intros h y _ Hy. cbn in Hy. nths; reflexivity.
  - intros v d _ Hv Hn. cbn in Hv. nths; try reflexivity. exfalso. apply (Hn 10). exists 0, 0, (lf 0). repeat split. left. reflexivity.
  - intros v r e _ H He. destruct (K _ _ H) as (-> & ->). cbn in He. injection He as <-. reflexivity.
Qed.

(** What is asked of the graphs is needed.  A function without inputs cannot be converted; when the
    first output of a function is not used, the users of its other outputs keep the old inputs or
    get none; a function that was called with more outputs than it must have gets fewer. *)
Definition whole {V} (min_outputs : op -> nat -> option nat) (g : graph V) (outs : list nat) : Prop :=
  built g /\ outs <> [] /\ (forall v, In v outs -> exists x, nth_error (g_vars g) v = Some x) /\ min_outputs sink (length outs) = Some 1.
Definition takes_something {V} (g : graph V) (outs : list nat) : Prop := forall h y, below g outs h -> nth_error (g_fns g) h = Some y -> f_in y <> [].
Definition called_again {V} (min_outputs : op -> nat -> option nat) (g : graph V) (outs : list nat) : Prop :=
  forall h y, below g outs h -> nth_error (g_fns g) h = Some y -> min_outputs (f_op y) (length (f_in y)) = Some (length (f_out y)).
Definition all_in_order {V} (g : graph V) (outs : list nat) : Prop := forall h y, below g outs h -> nth_error (g_fns g) h = Some y -> used_in_order g outs y.
Definition C106_statement (Q : (op -> nat -> option nat) -> graph Z -> list nat -> Prop) : Prop := forall sem min_outputs g outs val,
  whole min_outputs g outs -> Q min_outputs g outs -> own_buffers g outs -> valuation sem g outs val ->
  exists g' outs', convert 0%Z min_outputs [identity 0%Z min_outputs []] g outs = Some (g', outs') /\ Forall2 (fun o v => computes sem g' v (val o)) outs outs'.
Lemma C106_all : C106_statement (fun mo g outs => takes_something g outs /\ called_again mo g outs /\ all_in_order g outs).
Proof.
  intros sem mo g outs val (W1 & W2 & W3 & W4) (A1 & A2 & A3) _ Hv. destruct (C106_same_partial Z sem 0%Z mo g outs val) as (g' & outs' & H1 & _ & H2); [split; assumption|exact Hv|eauto].
Qed.

Ltac is_whole := split; [is_built|split; [discriminate|split; [intros v Hv; ins; eexists; reflexivity|reflexivity]]].
Definition net_random : graph Z := Graph [ov 0 0; ov 1 1] [Fn (Op "Randn" []) [] [0]; Fn relu [0] [1]] [0; 0]%Z [].
Theorem C106_no_inputs_refuted : ~ C106_statement (fun mo g outs => called_again mo g outs /\ all_in_order g outs).
Proof.
  intros H. destruct (H zsem zmin net_random [1] (vals [7; 7]%Z)) as (g' & outs' & E & _).
  - is_whole.
  - split; [intros h y _ Hy; cbn in Hy; nths; reflexivity|intros h y _ Hy; cbn in Hy; nths; intros i j a b Hij Ha Hb _; cbn in Ha, Hb; nths; lia].
  - is_own.
  - is_valuation.
  - vm_compute in E. discriminate.
Qed.
Definition net_split : graph Z := Graph [lf 0; ov 1 0; ov 2 0; ov 3 1] [Fn (Op "Split" []) [0] [1; 2]; Fn relu [2] [3]] [5; 0; 0; 0]%Z [].
Theorem C106_first_unused_refuted : ~ C106_statement (fun mo g outs => takes_something g outs /\ called_again mo g outs).
Proof.
  intros H. destruct (H zsem zmin net_split [3] (vals [5; 5; 6; 6]%Z)) as (g' & outs' & E & _).
  - is_whole.
  - split; [intros h y _ Hy; cbn in Hy; nths; discriminate|intros h y _ Hy; cbn in Hy; nths; reflexivity].
  - is_own.
  - is_valuation.
  - vm_compute in E. discriminate.
Qed.
Definition net_stat : graph Z := Graph [lf 0; lf 1; lf 2; lf 3; lf 4; ov 5 0; ov 6 0; ov 7 0; ov 8 1] [Fn (Op "BatchNormalization" [2]) [0; 1; 2; 3; 4] [5; 6; 7]; Fn (Op "Add2" []) [5; 6] [8]] [2; 10; 5; 4; 1; 0; 0; 0; 0]%Z [].
(** The lost output keeps its old variable, with its old function. *)
Example C106_lost_output : option_map (fun '(g, outs) => map (fun v => option_map f_in (obind (parent g v) (fn_of g))) outs) (convert 0%Z zmin [identity 0%Z zmin []] net_stat [8]) = Some [Some [15; 6]] /\ parent net_stat 6 = Some 0.
Proof. vm_compute. split; reflexivity. Qed.
(** A variable that is not the first input is not replaced. *)
Definition net_second : graph Z := Graph [lf 0; lf 1; ov 2 0; lf 3] [Fn (Op "Mul2" []) [1; 0] [2]] [2; 3; 0; 10]%Z [].
Definition C106_replace_statement : Prop := forall sem min_outputs g k r e v o y x,
  convertible min_outputs g [o] -> own_buffers g [o] -> leaf g k -> nth_error (g_vars g) r = Some (Var e None) -> nth_error (g_store g) e = Some x ->
  (** a function of two inputs without parents, of which the second is replaced *)
  g_fns g = [Fn y [v; k] [o]] -> leaf g v -> data g v <> data g k ->
  exists g' o', convert 0%Z min_outputs [identity 0%Z min_outputs [(k, r)]] g [o] = Some (g', [o']) /\
    forall xv z, computes sem g v xv -> sem y [xv; x] = Some [z] -> computes sem g' o' z.
Theorem C106_second_input_refuted : ~ C106_replace_statement.
Proof.
  intros H. destruct (H zsem zmin net_second 0 3 3 1 2 (Op "Mul2" []) 10%Z) as (g' & o' & E & K).
  - is_convertible.
  - is_own.
  - eexists; reflexivity.
  - reflexivity.
  - reflexivity.
  - reflexivity.
  - eexists; reflexivity.
  - discriminate.
  - specialize (K 3%Z 30%Z). vm_compute in E. injection E as <- <-. specialize (K (computes_leaf zsem net_second 1 1 3%Z eq_refl eq_refl) eq_refl).
    match type of K with computes _ ?g ?v _ => assert (K' : computes zsem g v 6%Z) by (apply (eval_computes zsem 5); reflexivity); assert (B : built g) by is_built; pose proof (C106_value Z zsem g B v _ _ K K') end. discriminate.
Qed.

(** * C107: networks with functions removed, without batch statistics and without parameters *)

(** Functions of some types are taken out: what they would compute is replaced by their first input. *)
Theorem C107_remove_partial : forall (V : Type) (sem : op -> list V -> option (list V)) (blank : V) min_outputs g outs names val,
  convertible min_outputs g outs -> ~ In "Sink"%string names ->
  (forall v d, relevant g outs v -> nth_error (g_vars g) v = Some (Var d None) -> nth_error (g_store g) d = Some (val v)) ->
  (forall v w a b, relevant g outs v -> relevant g outs w -> nth_error (g_vars g) v = Some a -> nth_error (g_vars g) w = Some b -> v_parent a <> None -> v_data a = v_data b -> val v = val w) ->
  (forall f x, below g outs f -> nth_error (g_fns g) f = Some x -> ~ In (op_type (f_op x)) names -> sem (f_op x) (map val (f_in x)) = Some (map val (f_out x))) ->
  (forall f x i o, below g outs f -> nth_error (g_fns g) f = Some x -> In (op_type (f_op x)) names -> nth_error (f_in x) 0 = Some i -> nth_error (f_out x) 0 = Some o -> val o = val i) ->
  (forall f x k o, below g outs f -> nth_error (g_fns g) f = Some x -> In (op_type (f_op x)) names -> nth_error (f_out x) (S k) = Some o -> ~ used g outs o) ->
  exists g' outs', convert blank min_outputs [remove names] g outs = Some (g', outs') /\ extends g g' /\ Forall2 (fun o v => computes sem g' v (val o)) outs outs'.
Proof.
  intros V sem blank mo g outs names val C Hs H1 H2 H3 H4 H5. destruct (remove_ok sem blank mo g outs C names val H1 H2 H3 H4 H5 Hs) as (g' & outs' & A1 & A2 & A3). exists g', outs'.
  split; [exact (convert_one _ _ _ _ _ _ A1)|]. split; [exact (ext_extends blank g outs g' A2)|exact A3].
Qed.
Definition val1m : nat -> Z := vals [2; 3; 1; 7; 10; 5; 4; 1; 7; 7; 6]%Z.
Example C107_remove_works : shown (convert 0%Z zmin [remove ["BatchNormalization"%string]] net1 [9; 8]) = Some [Some 7; Some 7]%Z /\
  exists g' outs', convert 0%Z zmin [remove ["BatchNormalization"%string]] net1 [9; 8] = Some (g', outs') /\ extends net1 g' /\ Forall2 (fun o v => computes zsem g' v (val1m o)) [9; 8] outs'.
Proof.
  split; [vm_compute; reflexivity|]. apply C107_remove_partial.
  - exact net1_ok.
  - intros [H|[]]. discriminate.
  - intros v d _ Hv. cbn in Hv. nths; reflexivity.
  - intros v w a b _ _ Ha Hb Hp Hd. cbn in Ha, Hb. nths; cbn in Hp, Hd; try discriminate Hd; try congruence; reflexivity.
  - intros f x _ Hx Hn. cbn in Hx. nths; try reflexivity. exfalso. apply Hn. left. reflexivity.
  - intros f x i o _ Hx Hn Hi Ho. destruct f as [|[|[|f]]]; cbn in Hx; [injection Hx as <-|injection Hx as <-|injection Hx as <-|destruct f; discriminate]; cbn in Hn, Hi, Ho; try (destruct Hn as [Hn|[]]; discriminate). injection Hi as <-. injection Ho as <-. reflexivity.
  - intros f x k o _ Hx Hn Ho. destruct f as [|[|[|f]]]; cbn in Hx; [injection Hx as <-|injection Hx as <-|injection Hx as <-|destruct f; discriminate]; destruct k; discriminate.
Qed.

(** All batch normalizations use the running statistics: [off] sets the argument batch_stat. *)
Theorem C107_batch_stat_partial : forall (V : Type) (sem : op -> list V -> option (list V)) (blank : V) min_outputs g outs off val,
  let norms := ["BatchNormalization"; "FusedBatchNormalization"; "SyncBatchNormalization"]%string in
  convertible min_outputs g outs ->
  (forall v d, relevant g outs v -> nth_error (g_vars g) v = Some (Var d None) -> nth_error (g_store g) d = Some (val v)) ->
  (forall v w a b, relevant g outs v -> relevant g outs w -> nth_error (g_vars g) v = Some a -> nth_error (g_vars g) w = Some b -> v_parent a <> None -> v_data a = v_data b -> val v = val w) ->
  (forall f x, below g outs f -> nth_error (g_fns g) f = Some x -> ~ In (op_type (f_op x)) norms -> sem (f_op x) (map val (f_in x)) = Some (map val (f_out x))) ->
  (forall f x, below g outs f -> nth_error (g_fns g) f = Some x -> In (op_type (f_op x)) norms ->
     exists o, f_out x = [o] /\ sem (Op (op_type (f_op x)) (off (op_args (f_op x)))) (map val (f_in x)) = Some [val o] /\
       min_outputs (Op (op_type (f_op x)) (off (op_args (f_op x)))) (length (f_in x)) = Some 1) ->
  exists g' outs', convert blank min_outputs [batch_stat blank min_outputs off] g outs = Some (g', outs') /\ extends g g' /\ Forall2 (fun o v => computes sem g' v (val o)) outs outs'.
Proof.
  intros V sem blank mo g outs off val norms C H1 H2 H3 H4.
  assert (Hex : forall n, existsb (String.eqb n) batch_norms = true <-> In n norms).
  { intros n. rewrite existsb_exists. split; [intros (y & Hy & He); apply String.eqb_eq in He; subst; exact Hy|]. intros H. exists n. split; [exact H|apply String.eqb_refl]. }
  destruct (batch_stat_ok sem blank mo g outs C off val H1 H2) as (g' & outs' & A1 & A2 & A3).
  - intros f x Hf Hx. unfold stat_op. destruct (existsb (String.eqb (op_type (f_op x))) batch_norms) eqn:E.
    + destruct (H4 f x Hf Hx (proj1 (Hex _) E)) as (o & -> & Hs & _). exact Hs.
    + apply (H3 f x Hf Hx). intros H. apply Hex in H. congruence.
  - intros f x Hf Hx Hn. destruct (H4 f x Hf Hx Hn) as (o & -> & _ & Hm). split; [reflexivity|]. unfold stat_op. rewrite (proj2 (Hex _) Hn). exact Hm.
  - exists g', outs'. split; [exact (convert_one _ _ _ _ _ _ A1)|]. split; [exact (ext_extends blank g outs g' A2)|exact A3].
Qed.
Definition net2 : graph Z := Graph
  [lf 0; lf 1; ov 2 0; lf 3; lf 4; lf 5; lf 6; ov 7 1]
  [Fn affine [0; 1] [2]; Fn (Op "BatchNormalization" [1]) [2; 3; 4; 5; 6] [7]]
  [2; 3; 0; 10; 5; 4; 1; 0]%Z [weight "fc" "W" true 1].
Definition val2 : nat -> Z := vals [2; 3; 6; 10; 5; 4; 1; 20]%Z.
Lemma net2_ok : convertible zmin net2 [7].
Proof. is_convertible. Qed.
Example C107_batch_stat_works : shown (Some (net2, [7])) = Some [Some 10]%Z /\ shown (convert 0%Z zmin [batch_stat 0%Z zmin (fun _ => [0])] net2 [7]) = Some [Some 20]%Z /\
  exists g' outs', convert 0%Z zmin [batch_stat 0%Z zmin (fun _ => [0])] net2 [7] = Some (g', outs') /\ extends net2 g' /\ Forall2 (fun o v => computes zsem g' v (val2 o)) [7] outs'.
Proof.
  split; [vm_compute; reflexivity|]. split; [vm_compute; reflexivity|]. apply C107_batch_stat_partial.
  - exact net2_ok.
  - intros v d _ Hv. cbn in Hv. nths; reflexivity.
  - intros v w a b _ _ Ha Hb Hp Hd. cbn in Ha, Hb. nths; cbn in Hp, Hd; try discriminate Hd; try congruence; reflexivity.
  - intros f x _ Hx Hn. cbn in Hx. nths; try reflexivity. exfalso. apply Hn. left. reflexivity.
  - intros f x _ Hx Hn. destruct f as [|[|f]]; cbn in Hx; [injection Hx as <-|injection Hx as <-|destruct f; discriminate]; cbn in Hn; [intuition discriminate|]. exists 7. split; [reflexivity|]. split; reflexivity.
Qed.

(** A network of functions with one output without parameters. *)
Theorem C107_no_grad_partial : forall (V : Type) (sem : op -> list V -> option (list V)) (blank : V) min_outputs g outs val,
  convertible min_outputs g outs -> valuation sem g outs val -> own_buffers g outs ->
  (forall h y, below g outs h -> nth_error (g_fns g) h = Some y -> exists o, f_out y = [o]) -> (forall p, In p (g_params g) -> p_data p < length (g_store g)) ->
  exists g' outs', convert blank min_outputs [no_grad blank min_outputs] g outs = Some (g', outs') /\ extends g g' /\ Forall2 (fun o v => computes sem g' v (val o)) outs outs'.
Proof.
  intros V sem blank mo g outs val C Hv Ho H1 H2. destruct (no_grad_ok sem blank mo g outs C val Hv Ho H1 H2) as (g' & outs' & A1 & A2 & A3). exists g', outs'.
  split; [exact (convert_one _ _ _ _ _ _ A1)|]. split; [exact (ext_extends blank g outs g' A2)|exact A3].
Qed.
Example C107_no_grad_works : shown (convert 0%Z zmin [no_grad 0%Z zmin] net1 [9; 8]) = Some [Some 25; Some 25]%Z /\
  (forall h y, below net1 [9; 8] h -> nth_error (g_fns net1) h = Some y -> exists o, f_out y = [o]) /\ (forall p, In p (g_params net1) -> p_data p < length (g_store net1)).
Proof. split; [vm_compute; reflexivity|]. split; [intros h y _ Hy; cbn in Hy; nths; eexists; reflexivity|intros p Hp; destruct Hp as [<-|[<-|[]]]; cbn; lia]. Qed.
(** A function with two outputs is refused. *)
Definition net_two : graph Z := Graph [lf 0; ov 1 0; ov 2 0; ov 3 1] [Fn (Op "Split" []) [0] [1; 2]; Fn (Op "Add2" []) [1; 2] [3]] [5; 0; 0; 0]%Z [].
Definition C107_no_grad_statement : Prop := forall sem min_outputs (g : graph Z) outs val,
  convertible min_outputs g outs -> valuation sem g outs val -> own_buffers g outs -> (forall p, In p (g_params g) -> p_data p < length (g_store g)) ->
  exists g' outs', convert 0%Z min_outputs [no_grad 0%Z min_outputs] g outs = Some (g', outs') /\ Forall2 (fun o v => computes sem g' v (val o)) outs outs'.
Theorem C107_no_grad_outputs_refuted : ~ C107_no_grad_statement.
Proof.
  intros H. destruct (H zsem zmin net_two [3] (vals [5; 5; 6; 11]%Z)) as (g' & outs' & E & _).
  - split; [is_built|discriminate|intros v Hv; ins; eexists; reflexivity|intros h y _ Hy; cbn in Hy; nths; discriminate|intros h y _ Hy; cbn in Hy; nths; reflexivity| |reflexivity].
    intros h y _ Hy i j a b Hij Ha Hb _. right. exists 1, (Fn (Op "Add2" []) [1; 2] [3]). split; [reflexivity|]. destruct h as [|[|h]]; cbn in Hy; [injection Hy as <-|injection Hy as <-|destruct h; discriminate].
    + destruct i as [|[|i]]; cbn in Ha; [| |destruct i; discriminate]; injection Ha as <-; cbn; auto.
    + cbn in Ha, Hb. destruct j as [|j]; [lia|]. destruct j; discriminate.
  - is_valuation.
  - is_own.
  - intros p [].
  - vm_compute in E. discriminate.
Qed.

(** * C108: folding batch normalizations into the functions before them *)

(** Every batch normalization follows an inner product that nothing else follows, or a function that
    is neither; then the folded network computes the same, if folding is right for the functions. *)
Theorem C108_folding_partial : forall (V : Type) (sem : op -> list V -> option (list V)) (blank : V) min_outputs need_grad fold g outs val,
  convertible min_outputs g outs -> valuation sem g outs val -> own_buffers g outs ->
  (forall b y, below g outs b -> nth_error (g_fns g) b = Some y -> batch_normalization (f_op y) ->
     exists o d p x, nth_error (f_in y) 0 = Some o /\ nth_error (g_vars g) o = Some (Var d (Some p)) /\ nth_error (g_fns g) p = Some x /\
       ((exists i w c z ps, folds g outs p x b y i w c o z ps) \/ ~ inner_product (f_op x) /\ ~ batch_normalization (f_op x))) ->
  (forall f x o h y, below g outs f -> nth_error (g_fns g) f = Some x -> inner_product (f_op x) -> nth_error (f_out x) 0 = Some o ->
     nth_error (g_fns g) h = Some y -> In o (f_in y) -> batch_normalization (f_op y) -> exists i w c z ps, folds g outs f x h y i w c o z ps) ->
  (forall f x b y i w c o z ps, folds g outs f x b y i w c o z ps -> exists wn bn,
     fold (f_op x) (f_op y) (val w) (Some (val c)) (map val (firstn 4 ps)) = Some (wn, bn) /\ sem (f_op x) [val i; wn; bn] = Some [val z]) ->
  (forall f x b y i w c o z ps, folds g outs f x b y i w c o z ps -> exists s, in_scope g w s /\ no_name g s "w-folded" /\ no_name g s "b-folded" /\
     (forall f' x' b' y' i' w' c' o' z' ps', folds g outs f' x' b' y' i' w' c' o' z' ps' -> in_scope g w' s -> f' = f)) ->
  exists g' outs', convert blank min_outputs [fold_bn blank min_outputs need_grad fold] g outs = Some (g', outs') /\ extends g g' /\ Forall2 (fun o v => computes sem g' v (val o)) outs outs'.
Proof.
  intros V sem blank mo ng fold g outs val C Hv Hown Hb Hi Hl Hs. destruct (fold_bn_ok sem blank mo g outs C ng fold val Hv Hown) as (g' & outs' & A1 & A2 & A3).
  - intros b y H1 H2 H3. destruct (Hb b y H1 H2 H3) as (o & d & p & x & K1 & K2 & K3 & K4). exists o, d, p, x. split; [exact K1|]. split; [exact K2|]. split; [exact K3|]. split.
    + intros H. destruct K4 as [K4|(K4 & _)]; [exact K4|]. destruct K4. apply ip_spec. exact H.
    + intros f xf i w c o' z ps F. pose proof (folds_bn _ _ _ _ _ _ _ _ _ _ _ _ F) as Fb. destruct K4 as [(i' & w' & c' & z' & ps' & F')|(_ & K4)]; [|exact (K4 Fb)].
      pose proof (folds_ip _ _ _ _ _ _ _ _ _ _ _ _ F') as H. rewrite Fb in H. discriminate.
  - intros f x o h y H1 H2 H3. apply (Hi f x o h y H1 H2). apply ip_spec. exact H3.
  - intros f x b y i w c o z ps F. destruct (Hl _ _ _ _ _ _ _ _ _ _ F) as (wn & bn & L1 & L2). destruct (Hs _ _ _ _ _ _ _ _ _ _ F) as (s & S1 & S2 & S3 & _). exists wn, bn. rewrite (scope_in _ _ _ S1). auto using @holds_none.
  - intros f x b y i w c o z ps f' x' b' y' i' w' c' o' z' ps' F F' Heq. destruct (Hs _ _ _ _ _ _ _ _ _ _ F) as (s & S1 & _ & _ & S4). destruct (Hs _ _ _ _ _ _ _ _ _ _ F') as (s' & S1' & _).
    rewrite (scope_in _ _ _ S1), (scope_in _ _ _ S1') in Heq. subst s'. pose proof (S4 _ _ _ _ _ _ _ _ _ _ F' S1') as ->.
    pose proof (folds_fn _ _ _ _ _ _ _ _ _ _ _ _ F) as X. pose proof (folds_fn _ _ _ _ _ _ _ _ _ _ _ _ F') as X'. rewrite X in X'. injection X' as <-.
    pose proof (folds_out _ _ _ _ _ _ _ _ _ _ _ _ F) as O. pose proof (folds_out _ _ _ _ _ _ _ _ _ _ _ _ F') as O'. rewrite O in O'. injection O' as <-.
    pose proof (folds_in _ _ _ _ _ _ _ _ _ _ _ _ F) as I. pose proof (folds_in _ _ _ _ _ _ _ _ _ _ _ _ F') as I'. rewrite I in I'. injection I' as <- <- <-.
    destruct (folds_same mo g outs C _ _ _ _ _ _ _ _ _ _ _ _ _ _ _ _ _ _ _ F F') as (_ & _ & _ & <- & _).
    pose proof (folds_bn_in _ _ _ _ _ _ _ _ _ _ _ _ F) as B. pose proof (folds_bn_in _ _ _ _ _ _ _ _ _ _ _ _ F') as B'. rewrite B in B'. injection B' as <-. reflexivity.
  - exists g', outs'. split; [exact (convert_one _ _ _ _ _ _ A1)|]. split; [exact (ext_extends blank g outs g' A2)|exact A3].
Qed.
Lemma net1_folds : folds net1 [9] 0 (Fn affine [0; 1; 2] [3]) 1 (Fn bn0 [3; 4; 5; 6; 7] [8]) 0 1 2 3 8 [4; 5; 6; 7].
Proof.
  split; try reflexivity.
  - apply (below_in _ _ 1 (Fn bn0 [3; 4; 5; 6; 7] [8]) 3 (ov 3 0)); try reflexivity; [|left; reflexivity]. apply (below_in _ _ 2 (Fn relu [8] [9]) 8 (ov 8 1)); try reflexivity; [|left; reflexivity].
    apply (below_out _ _ 9 (ov 9 2)); try reflexivity. left. reflexivity.
  - left. reflexivity.
  - intros h hy Hh Hi. destruct h as [|[|[|h]]]; cbn in Hh; [injection Hh as <-|injection Hh as <-|injection Hh as <-|destruct h; discriminate]; cbn in Hi; intuition discriminate.
  - intros [H|[]]. discriminate.
  - eexists; reflexivity.
  - eexists; reflexivity.
  - intros v Hv. cbn in Hv. destruct Hv as [<-|[<-|[<-|[<-|[]]]]]; eexists; reflexivity.
Qed.
Lemma net1_folds_only f x b y i w c o z ps : folds net1 [9] f x b y i w c o z ps ->
  f = 0 /\ x = Fn affine [0; 1; 2] [3] /\ b = 1 /\ y = Fn bn0 [3; 4; 5; 6; 7] [8] /\ i = 0 /\ w = 1 /\ c = 2 /\ o = 3 /\ z = 8 /\ ps = [4; 5; 6; 7].
Proof.
  intros [_ F1 F2 F3 F4 F5 F6 F7 F8 _ _ _ _ _]. destruct f as [|[|[|f]]]; cbn in F1; [injection F1 as <-|injection F1 as <-|injection F1 as <-|destruct f; discriminate]; try (unfold inner_product in F2; cbn in F2; intuition discriminate).
  destruct b as [|[|[|b]]]; cbn in F3; [injection F3 as <-|injection F3 as <-|injection F3 as <-|destruct b; discriminate]; cbn in F4; try discriminate.
  cbn in F5, F6, F7, F8. injection F5 as <- <- <-. injection F6 as <-. injection F7 as <-. injection F8 as <-. repeat split.
Qed.
Lemma net1_ok9 : convertible zmin net1 [9].
Proof. is_convertible. Qed.
Example C108_folding_works : shown (convert 0%Z zmin [fold_bn 0%Z zmin (fun _ => true) zfold] net1 [9]) = Some [Some 25]%Z /\
  option_map (fun '(g, outs) => map (fun v => obind (parent g v) (type_of g)) outs) (convert 0%Z zmin [remove ["ReLU"%string]; fold_bn 0%Z zmin (fun _ => true) zfold] net1 [9]) = Some [Some "Affine"%string] /\
  exists g' outs', convert 0%Z zmin [fold_bn 0%Z zmin (fun _ => true) zfold] net1 [9] = Some (g', outs') /\ extends net1 g' /\ Forall2 (fun o v => computes zsem g' v (val1 o)) [9] outs'.
Proof.
  split; [vm_compute; reflexivity|]. split; [vm_compute; reflexivity|]. apply C108_folding_partial.
  - exact net1_ok9.
  - is_valuation.
  - is_own.
  - intros b y _ Hy Hb. destruct b as [|[|[|b]]]; cbn in Hy; [injection Hy as <-|injection Hy as <-|injection Hy as <-|destruct b; discriminate]; try discriminate Hb.
    exists 3, 3, 0, (Fn affine [0; 1; 2] [3]). split; [reflexivity|]. split; [reflexivity|]. split; [reflexivity|]. left. eexists _, _, _, _, _. exact net1_folds.
  - intros f x o h y _ Hx Hi Ho Hy Hin Hb. destruct f as [|[|[|f]]]; cbn in Hx; [injection Hx as <-|injection Hx as <-|injection Hx as <-|destruct f; discriminate]; try (unfold inner_product in Hi; cbn in Hi; intuition discriminate).
    cbn in Ho. injection Ho as <-. destruct h as [|[|[|h]]]; cbn in Hy; [injection Hy as <-|injection Hy as <-|injection Hy as <-|destruct h; discriminate]; try discriminate Hb. eexists _, _, _, _, _. exact net1_folds.
  - intros f x b y i w c o z ps F. destruct (net1_folds_only _ _ _ _ _ _ _ _ _ _ F) as (-> & -> & -> & -> & -> & -> & -> & -> & -> & ->). eexists _, _. split; reflexivity.
  - intros f x b y i w c o z ps F. destruct (net1_folds_only _ _ _ _ _ _ _ _ _ _ F) as (-> & -> & -> & -> & -> & -> & -> & -> & -> & ->). exists "fc"%string. split; [|split; [|split]].
    + exists (lf 1). split; [reflexivity|]. split; [exists (weight "fc" "W" true 1); split; [left; reflexivity|split; reflexivity]|]. intros p [<-|[<-|[]]] _ H; [reflexivity|discriminate].
    + intros p [<-|[<-|[]]] _; discriminate.
    + intros p [<-|[<-|[]]] _; discriminate.
    + intros f' x' b' y' i' w' c' o' z' ps' F' _. destruct (net1_folds_only _ _ _ _ _ _ _ _ _ _ F') as (-> & _). reflexivity.
Qed.

(** Without these conditions a network that is folded computes something else, or cannot be folded. *)
Definition fold_law (sem : op -> list Z -> option (list Z)) (fold : op -> op -> Z -> option Z -> list Z -> option (Z * Z)) (g : graph Z) (outs : list nat) (val : nat -> Z) : Prop :=
  forall f x b y i w c o z ps, below g outs f -> nth_error (g_fns g) f = Some x -> inner_product (f_op x) -> below g outs b -> nth_error (g_fns g) b = Some y -> batch_normalization (f_op y) ->
    f_in x = [i; w; c] -> f_out x = [o] -> f_in y = o :: ps -> f_out y = [z] -> exists wn bn,
    fold (f_op x) (f_op y) (val w) (Some (val c)) (map val (firstn 4 ps)) = Some (wn, bn) /\ sem (f_op x) [val i; wn; bn] = Some [val z].
(** The law holds for all networks of affine functions and batch normalizations of numbers. *)
Lemma zfold_law (g : graph Z) outs val : valuation zsem g outs val -> (forall f x, nth_error (g_fns g) f = Some x -> inner_product (f_op x) -> f_op x = affine) ->
  (forall b y, nth_error (g_fns g) b = Some y -> batch_normalization (f_op y) -> f_op y = bn0) -> fold_law zsem zfold g outs val.
Proof.
  intros Hv Ha Hb f x b y i w c o z ps B1 X1 X2 B2 Y1 Y2 E1 E2 E3 E4. pose proof (val_fn _ _ _ _ Hv f x B1 X1) as Hx. pose proof (val_fn _ _ _ _ Hv b y B2 Y1) as Hy.
  rewrite (Ha f x X1 X2), E1, E2 in *. rewrite (Hb b y Y1 Y2), E3, E4 in *. cbn in Hx. injection Hx as Hx.
  destruct ps as [|p1 [|p2 [|p3 [|p4 [|]]]]]; cbn in Hy; try discriminate. injection Hy as Hy. eexists _, _. split; [reflexivity|]. cbn. rewrite <- Hx in Hy. rewrite <- Hy. do 2 f_equal. ring.
Qed.
Definition C108_statement (Q : graph Z -> Prop) : Prop := forall sem min_outputs fold g outs val,
  Q g -> convertible min_outputs g outs -> valuation sem g outs val -> own_buffers g outs -> fold_law sem fold g outs val ->
  exists g' outs', convert 0%Z min_outputs [fold_bn 0%Z min_outputs (fun _ => true) fold] g outs = Some (g', outs') /\ Forall2 (fun o v => computes sem g' v (val o)) outs outs'.
Ltac law := apply zfold_law; [is_valuation|intros f x Hx Hi; cbn in Hx; nths; try reflexivity; unfold inner_product in Hi; cbn in Hi; intuition discriminate
  |intros b y Hy Hb; cbn in Hy; nths; try reflexivity; discriminate Hb].
Ltac wrong E H := vm_compute in E; injection E as <- <-; inversion H as [|? ? ? ? K _]; subst;
  match type of K with computes _ ?g ?v ?x =>
    let y := eval vm_compute in (match eval zsem 20 g v with Some y => y | None => 0%Z end) in
    assert (K' : computes zsem g v y) by (apply (eval_computes zsem 20); reflexivity); assert (B : built g) by is_built; pose proof (C106_value Z zsem g B v _ _ K K'); discriminate end.
(** The output of the inner product is used elsewhere as well: the batch normalization is dropped. *)
Definition net_fork : graph Z := Graph
  [lf 0; lf 1; lf 2; ov 3 0; lf 4; lf 5; lf 6; lf 7; ov 8 1; ov 9 2]
  [Fn affine [0; 1; 2] [3]; Fn bn0 [3; 4; 5; 6; 7] [8]; Fn (Op "Add2" []) [3; 8] [9]]
  [2; 3; 1; 0; 10; 5; 4; 1; 0; 0]%Z [weight "fc" "W" true 1; weight "fc" "b" true 2].
Theorem C108_fork_refuted : ~ C108_statement (fun g => forall b y, nth_error (g_fns g) b = Some y -> batch_normalization (f_op y) -> exists o d p x, nth_error (f_in y) 0 = Some o /\ nth_error (g_vars g) o = Some (Var d (Some p)) /\ nth_error (g_fns g) p = Some x /\ inner_product (f_op x)).
Proof.
  intros H. destruct (H zsem zmin zfold net_fork [9] (vals [2; 3; 1; 7; 10; 5; 4; 1; 25; 32]%Z)) as (g' & outs' & E & K0).
  - intros b y Hy Hb. cbn in Hy. nths; try discriminate Hb. eexists _, _, _, _. split; [reflexivity|]. split; [reflexivity|]. split; [reflexivity|]. left. reflexivity.
  - is_convertible.
  - is_valuation.
  - is_own.
  - law.
  - wrong E K0.
Qed.
(** No output of an inner product is used twice. *)
Definition no_fork (g : graph Z) : Prop := forall f x h y h' y' o, nth_error (g_fns g) f = Some x -> inner_product (f_op x) -> In o (f_out x) ->
  nth_error (g_fns g) h = Some y -> nth_error (g_fns g) h' = Some y' -> In o (f_in y) -> In o (f_in y') -> h = h'.
Definition takes_it (g : graph Z) (o h : nat) : bool := match nth_error (g_fns g) h with Some y => existsb (Nat.eqb o) (f_in y) | None => false end.
Lemma no_fork_check g : forallb (fun x => negb (is_ip (op_type (f_op x))) || forallb (fun o => forallb (fun h => forallb (fun h' => negb (takes_it g o h && takes_it g o h') || (h =? h')) (seq 0 (length (g_fns g)))) (seq 0 (length (g_fns g)))) (f_out x)) (g_fns g) = true -> no_fork g.
Proof.
  intros H f x h y h' y' o Hx Hi Ho Hy Hy' H1 H2. rewrite forallb_forall in H. specialize (H x (nth_error_In _ _ Hx)). apply ip_spec in Hi. rewrite Hi in H. cbn [negb orb] in H.
  rewrite forallb_forall in H. specialize (H o Ho). rewrite forallb_forall in H. specialize (H h ltac:(apply in_seq; split; [lia|]; cbn; apply nth_error_Some; congruence)). rewrite forallb_forall in H. specialize (H h' ltac:(apply in_seq; split; [lia|]; cbn; apply nth_error_Some; congruence)).
  assert (T : forall k z, nth_error (g_fns g) k = Some z -> In o (f_in z) -> takes_it g o k = true).
  { intros k z Hk Hz. unfold takes_it. rewrite Hk. apply existsb_exists. exists o. split; [exact Hz|apply Nat.eqb_refl]. }
  rewrite (T h y Hy H1), (T h' y' Hy' H2) in H. cbn [andb negb orb] in H. apply Nat.eqb_eq in H. exact H.
Qed.
Ltac is_no_fork := apply no_fork_check; reflexivity.
(** A batch normalization of an input. *)
Definition net_first : graph Z := Graph [lf 0; lf 1; lf 2; lf 3; lf 4; ov 5 0] [Fn bn0 [0; 1; 2; 3; 4] [5]] [2; 10; 5; 4; 1; 0]%Z [].
Theorem C108_input_refuted : ~ C108_statement (fun g => forall f x, nth_error (g_fns g) f = Some x -> ~ inner_product (f_op x)).
Proof.
  intros H. destruct (H zsem zmin zfold net_first [5] (vals [2; 10; 5; 4; 1; 0]%Z)) as (g' & outs' & E & K0).
  - intros f x Hx Hi. cbn in Hx. nths. unfold inner_product in Hi. cbn in Hi. intuition discriminate.
  - is_convertible.
  - is_valuation.
  - is_own.
  - law.
  - vm_compute in E. discriminate.
Qed.
(** A second batch normalization after the first: it is dropped. *)
Definition net_twice : graph Z := Graph
  [lf 0; lf 1; lf 2; ov 3 0; lf 4; lf 5; lf 6; lf 7; ov 8 1; ov 9 2]
  [Fn affine [0; 1; 2] [3]; Fn bn0 [3; 4; 5; 6; 7] [8]; Fn bn0 [8; 4; 5; 6; 7] [9]]
  [2; 3; 1; 0; 10; 5; 4; 1; 0; 0]%Z [weight "fc" "W" true 1; weight "fc" "b" true 2].
Theorem C108_twice_refuted : ~ C108_statement no_fork.
Proof.
  intros H. destruct (H zsem zmin zfold net_twice [9] (vals [2; 3; 1; 7; 10; 5; 4; 1; 25; 115]%Z)) as (g' & outs' & E & K0).
  - is_no_fork.
  - is_convertible.
  - is_valuation.
  - is_own.
  - law.
  - wrong E K0.
Qed.
(** Every batch normalization follows an inner product of its own. *)
Definition paired (g : graph Z) : Prop := no_fork g /\ forall b y, nth_error (g_fns g) b = Some y -> batch_normalization (f_op y) ->
  exists o d p x, nth_error (f_in y) 0 = Some o /\ nth_error (g_vars g) o = Some (Var d (Some p)) /\ nth_error (g_fns g) p = Some x /\ inner_product (f_op x).
Ltac is_paired := split; [is_no_fork|intros b y Hy Hb; cbn in Hy; nths; try discriminate Hb; eexists _, _, _, _; (split; [reflexivity|]); (split; [reflexivity|]); (split; [reflexivity|]); left; reflexivity].
(** Two functions share a weight: the second gets the weight that was folded for the first. *)
Definition net_tied : graph Z := Graph
  [lf 0; lf 1; lf 2; ov 3 0; lf 4; lf 5; lf 6; lf 7; ov 8 1; ov 9 2; lf 10; ov 11 3]
  [Fn affine [0; 1; 2] [3]; Fn bn0 [3; 4; 5; 6; 7] [8]; Fn affine [8; 1; 2] [9]; Fn bn0 [9; 4; 10; 6; 7] [11]]
  [2; 3; 1; 0; 10; 5; 4; 1; 0; 0; 2; 0]%Z [weight "fc" "W" true 1; weight "fc" "b" true 2].
Theorem C108_shared_weight_refuted : ~ C108_statement (fun g => paired g /\ forall f x w, nth_error (g_fns g) f = Some x -> inner_product (f_op x) -> nth_error (f_in x) 1 = Some w -> exists s, in_scope g w s).
Proof.
  intros H. destruct (H zsem zmin zfold net_tied [11] (vals [2; 3; 1; 7; 10; 5; 4; 1; 25; 76; 2; 154]%Z)) as (g' & outs' & E & K0).
  - split; [is_paired|]. intros f x w Hx Hi Hw. exists "fc"%string. destruct f as [|[|[|[|f]]]]; cbn in Hx; [injection Hx as <-|injection Hx as <-|injection Hx as <-|injection Hx as <-|destruct f; discriminate];
      try (unfold inner_product in Hi; cbn in Hi; intuition discriminate); cbn in Hw; injection Hw as <-.
    all: exists (lf 1); split; [reflexivity|]; split; [exists (weight "fc" "W" true 1); split; [left; reflexivity|split; reflexivity]|]; intros p [<-|[<-|[]]] _ H1; [reflexivity|discriminate].
  - is_convertible.
  - is_valuation.
  - is_own.
  - law.
  - wrong E K0.
Qed.
(** No buffer is the weight of two inner products, and weights are parameters in scopes of their own. *)
Definition own_weights (g : graph Z) : Prop := forall f x f' x' w w' p p', nth_error (g_fns g) f = Some x -> inner_product (f_op x) -> nth_error (f_in x) 1 = Some w ->
  nth_error (g_fns g) f' = Some x' -> inner_product (f_op x') -> nth_error (f_in x') 1 = Some w' ->
  In p (g_params g) -> In p' (g_params g) -> data g w = Some (p_data p) -> data g w' = Some (p_data p') -> p_scope p = p_scope p' -> f = f'.
(** The weights do not need gradients: all folded weights have the same name. *)
Definition net_frozen : graph Z := Graph
  [lf 0; lf 1; lf 2; ov 3 0; lf 4; lf 5; lf 6; lf 7; ov 8 1; lf 9; ov 10 2; ov 11 3]
  [Fn affine [0; 1; 2] [3]; Fn bn0 [3; 4; 5; 6; 7] [8]; Fn affine [8; 9; 2] [10]; Fn bn0 [10; 4; 5; 6; 7] [11]]
  [2; 3; 1; 0; 10; 5; 4; 1; 0; 7; 0; 0]%Z [weight "fc1" "W" false 1; weight "fc2" "W" false 9].
Theorem C108_frozen_refuted : ~ C108_statement (fun g => paired g /\ own_weights g).
Proof.
  intros H. destruct (H zsem zmin zfold net_frozen [11] (vals [2; 3; 1; 7; 10; 5; 4; 1; 25; 7; 176; 870]%Z)) as (g' & outs' & E & K0).
  - split; [is_paired|]. intros f x f' x' w w' p p' Hx Hi Hw Hx' Hi' Hw' Hp Hp' Hd Hd' Hs.
    destruct f as [|[|[|[|f]]]]; cbn in Hx; [injection Hx as <-|injection Hx as <-|injection Hx as <-|injection Hx as <-|destruct f; discriminate]; try (unfold inner_product in Hi; cbn in Hi; intuition discriminate);
    destruct f' as [|[|[|[|f']]]]; cbn in Hx'; [injection Hx' as <-|injection Hx' as <-|injection Hx' as <-|injection Hx' as <-|destruct f'; discriminate| injection Hx' as <-|injection Hx' as <-|injection Hx' as <-|injection Hx' as <-|destruct f'; discriminate];
      try (unfold inner_product in Hi'; cbn in Hi'; intuition discriminate); try reflexivity; exfalso; cbn in Hw, Hw'; injection Hw as <-; injection Hw' as <-; cbn in Hd, Hd';
      destruct Hp as [<-|[<-|[]]]; destruct Hp' as [<-|[<-|[]]]; cbn in *; discriminate.
  - is_convertible.
  - is_valuation.
  - is_own.
  - law.
  - wrong E K0.
Qed.
(** The network was folded before, with other statistics: the old folded weights are used. *)
Definition net_again : graph Z := Graph
  [lf 0; lf 1; lf 2; ov 3 0; lf 4; lf 5; lf 6; lf 7; ov 8 1]
  [Fn affine [0; 1; 2] [3]; Fn bn0 [3; 4; 5; 6; 7] [8]]
  [2; 3; 1; 0; 10; 5; 4; 1; 0; 99; 0]%Z [weight "fc" "W" true 1; weight "fc" "b" true 2; weight "fc" "w-folded" true 9; weight "fc" "b-folded" true 10].
Theorem C108_again_refuted : ~ C108_statement (fun g => paired g /\ own_weights g /\ forall f x w, nth_error (g_fns g) f = Some x -> inner_product (f_op x) -> nth_error (f_in x) 1 = Some w -> exists s, in_scope g w s).
Proof.
  intros H. destruct (H zsem zmin zfold net_again [8] (vals [2; 3; 1; 7; 10; 5; 4; 1; 25]%Z)) as (g' & outs' & E & K0).
  - split; [is_paired|]. split.
    + intros f x f' x' w w' p p' Hx Hi Hw Hx' Hi' _ _ _ _ _ _.
      destruct f as [|[|f]]; cbn in Hx; [injection Hx as <-|injection Hx as <-|destruct f; discriminate]; try (unfold inner_product in Hi; cbn in Hi; intuition discriminate).
      destruct f' as [|[|f']]; cbn in Hx'; [reflexivity|injection Hx' as <-|destruct f'; discriminate]; unfold inner_product in Hi'; cbn in Hi'; intuition discriminate.
    + intros f x w Hx Hi Hw. exists "fc"%string. destruct f as [|[|f]]; cbn in Hx; [injection Hx as <-|injection Hx as <-|destruct f; discriminate]; try (unfold inner_product in Hi; cbn in Hi; intuition discriminate); cbn in Hw; injection Hw as <-.
      exists (lf 1). split; [reflexivity|]. split; [exists (weight "fc" "W" true 1); split; [left; reflexivity|split; reflexivity]|]. intros p [<-|[<-|[<-|[<-|[]]]]] _ H1; try discriminate. reflexivity.
  - is_convertible.
  - is_valuation.
  - is_own.
  - law.
  - wrong E K0.
Qed.

(** * C109: batch normalizations as scales and shifts, and biases of zeros *)

Theorem C109_self_folding_partial : forall (V : Type) (sem : op -> list V -> option (list V)) (blank : V) min_outputs name scale g outs val,
  convertible min_outputs g outs -> valuation sem g outs val -> no_name g name "c0" -> no_name g name "c1" ->
  min_outputs (Op "Mul2" []) 2 = Some 1 -> min_outputs (Op "Add2" []) 2 = Some 1 ->
  (forall f x, below g outs f -> nth_error (g_fns g) f = Some x -> batch_normalization (f_op x) ->
     exists i ps o c0 c1 h, f_in x = i :: ps /\ f_out x = [o] /\ (forall v, In v (firstn 4 ps) -> leaf g v) /\
       scale (f_op x) (map val (firstn 4 ps)) = Some (c0, c1) /\ sem (Op "Mul2" []) [c0; val i] = Some [h] /\ sem (Op "Add2" []) [h; c1] = Some [val o]) ->
  exists g' outs', convert blank min_outputs [self_fold blank min_outputs name scale] g outs = Some (g', outs') /\ extends g g' /\ Forall2 (fun o v => computes sem g' v (val o)) outs outs'.
Proof.
  intros V sem blank mo name scale g outs val C Hv N0 N1 M2 A2 Hb.
  destruct (self_fold_ok sem blank mo g outs C name scale val Hv (fun k => registered_none g name "c0" k N0) (fun k => registered_none g name "c1" k N1) M2 A2 Hb) as (g' & outs' & K1 & K2 & K3).
  exists g', outs'. split; [exact (convert_one _ _ _ _ _ _ K1)|]. split; [exact (ext_extends blank g outs g' K2)|exact K3].
Qed.
Example C109_self_folding_works : shown (convert 0%Z zmin [self_fold 0%Z zmin "" zscale] net_twice [9]) = Some [Some 115]%Z /\
  exists g' outs', convert 0%Z zmin [self_fold 0%Z zmin "" zscale] net_twice [9] = Some (g', outs') /\ extends net_twice g' /\ Forall2 (fun o v => computes zsem g' v (vals [2; 3; 1; 7; 10; 5; 4; 1; 25; 115]%Z o)) [9] outs'.
Proof.
  split; [vm_compute; reflexivity|]. apply C109_self_folding_partial.
  - is_convertible.
  - is_valuation.
  - intros p [<-|[<-|[]]]; discriminate.
  - intros p [<-|[<-|[]]]; discriminate.
  - reflexivity.
  - reflexivity.
  - intros f x _ Hx Hb. destruct f as [|[|[|f]]]; cbn in Hx; [injection Hx as <-|injection Hx as <-|injection Hx as <-|destruct f; discriminate]; try discriminate Hb.
    all: eexists _, _, _, _, _, _; (split; [reflexivity|]); (split; [reflexivity|]); (split; [|split; [reflexivity|split; reflexivity]]); intros v Hin; cbn in Hin; destruct Hin as [<-|[<-|[<-|[<-|[]]]]]; eexists; reflexivity.
Qed.
(** A second network that is converted gets the scales of the first one. *)
Definition C109_statement : Prop := forall sem min_outputs scale (g : graph Z) outs val,
  convertible min_outputs g outs -> valuation sem g outs val -> min_outputs (Op "Mul2" []) 2 = Some 1 -> min_outputs (Op "Add2" []) 2 = Some 1 ->
  (forall f x, below g outs f -> nth_error (g_fns g) f = Some x -> batch_normalization (f_op x) ->
     exists i ps o c0 c1 h, f_in x = i :: ps /\ f_out x = [o] /\ (forall v, In v (firstn 4 ps) -> leaf g v) /\
       scale (f_op x) (map val (firstn 4 ps)) = Some (c0, c1) /\ sem (Op "Mul2" []) [c0; val i] = Some [h] /\ sem (Op "Add2" []) [h; c1] = Some [val o]) ->
  exists g' outs', convert 0%Z min_outputs [self_fold 0%Z min_outputs "" scale] g outs = Some (g', outs') /\ Forall2 (fun o v => computes sem g' v (val o)) outs outs'.
Definition net_scaled : graph Z := Graph [lf 0; lf 1; lf 2; lf 3; lf 4; ov 5 0] [Fn bn0 [0; 1; 2; 3; 4] [5]] [2; 10; 5; 4; 1; 0; 3; 7]%Z [Param "" "c0" 0 true 6; Param "" "c1" 0 true 7].
Theorem C109_second_network_refuted : ~ C109_statement.
Proof.
  intros H. destruct (H zsem zmin zscale net_scaled [5] (vals [2; 10; 5; 4; 1; 0]%Z)) as (g' & outs' & E & K0).
  - is_convertible.
  - is_valuation.
  - reflexivity.
  - reflexivity.
  - intros f x _ Hx Hb. cbn in Hx. nths. eexists _, _, _, _, _, _. split; [reflexivity|]. split; [reflexivity|]. split; [|split; [reflexivity|split; reflexivity]]. intros v Hin. cbn in Hin. destruct Hin as [<-|[<-|[<-|[<-|[]]]]]; eexists; reflexivity.
  - wrong E K0.
Qed.

(** Inner products without bias that are near batch normalizations get a bias of zeros. *)
Theorem C109_add_bias_partial : forall (V : Type) (sem : op -> list V -> option (list V)) (blank : V) min_outputs zeros g outs val,
  convertible min_outputs g outs -> valuation sem g outs val -> own_buffers g outs ->
  (forall f x, below g outs f -> nth_error (g_fns g) f = Some x -> inner_product (f_op x) ->
     length (f_in x) = 3 /\ (exists o, f_out x = [o]) \/
     exists i w o s, f_in x = [i; w] /\ f_out x = [o] /\ leaf g w /\ in_scope g w s /\ no_name g s "b" /\
       sem (f_op x) [val i; val w; zeros (op_type (f_op x)) (val w)] = Some [val o] /\ min_outputs (f_op x) 3 = Some 1) ->
  (forall f x i w f' x' i' w' s, below g outs f -> nth_error (g_fns g) f = Some x -> inner_product (f_op x) -> f_in x = [i; w] ->
     below g outs f' -> nth_error (g_fns g) f' = Some x' -> inner_product (f_op x') -> f_in x' = [i'; w'] -> in_scope g w s -> in_scope g w' s -> f = f') ->
  exists g' outs', convert blank min_outputs [add_bias blank min_outputs zeros] g outs = Some (g', outs') /\ extends g g' /\ Forall2 (fun o v => computes sem g' v (val o)) outs outs'.
Proof.
  intros V sem blank mo zeros g outs val C Hv Ho Hi Hs. destruct (add_bias_ok sem blank mo g outs C zeros val Hv Ho) as (g' & outs' & A1 & A2 & A3).
  - intros f x Hf Hx H. destruct (Hi f x Hf Hx (proj2 (ip_spec _) H)) as [K|(i & w & o & s & K1 & K2 & (d & K3) & K4 & K5 & K6 & K7)]; [left; exact K|right]. exists i, w, o, d.
    split; [exact K1|]. split; [exact K2|]. split; [exact K3|]. split; [exact K6|]. split; [exact K7|]. rewrite (scope_in _ _ _ K4). apply holds_none. exact K5.
  - intros f x i w f' x' i' w' H1 H2 H3 H4 H1' H2' H3' H4' Heq. destruct (Hi f x H1 H2 (proj2 (ip_spec _) H3)) as [(K & _)|(i0 & w0 & o & s & K1 & _ & _ & K4 & _)]; [rewrite H4 in K; discriminate|]. rewrite H4 in K1. injection K1 as <- <-.
    destruct (Hi f' x' H1' H2' (proj2 (ip_spec _) H3')) as [(K & _)|(i0' & w0' & o' & s' & K1' & _ & _ & K4' & _)]; [rewrite H4' in K; discriminate|]. rewrite H4' in K1'. injection K1' as <- <-.
    rewrite (scope_in _ _ _ K4), (scope_in _ _ _ K4') in Heq. subst s'. pose proof (Hs f x i w f' x' i' w' s H1 H2 (proj2 (ip_spec _) H3) H4 H1' H2' (proj2 (ip_spec _) H3') H4' K4 K4'). subst f'.
    rewrite H2 in H2'. injection H2' as <-. rewrite H4 in H4'. injection H4' as _ <-. reflexivity.
  - exists g', outs'. split; [exact (convert_one _ _ _ _ _ _ A1)|]. split; [exact (ext_extends blank g outs g' A2)|exact A3].
Qed.
Definition net3 : graph Z := Graph
  [lf 0; lf 1; ov 2 0; lf 3; lf 4; lf 5; lf 6; ov 7 1]
  [Fn affine [0; 1] [2]; Fn bn0 [2; 3; 4; 5; 6] [7]]
  [2; 3; 0; 10; 5; 4; 1; 0]%Z [weight "fc" "W" true 1].
Example C109_add_bias_works : shown (convert 0%Z zmin [add_bias 0%Z zmin (fun _ _ => 0%Z)] net3 [7]) = Some [Some 20]%Z /\
  shown (convert 0%Z zmin [add_bias 0%Z zmin (fun _ _ => 0%Z); fold_bn 0%Z zmin (fun _ => true) zfold] net3 [7]) = Some [Some 20]%Z /\
  shown (convert 0%Z zmin [fold_bn 0%Z zmin (fun _ => true) zfold] net3 [7]) = None /\
  exists g' outs', convert 0%Z zmin [add_bias 0%Z zmin (fun _ _ => 0%Z)] net3 [7] = Some (g', outs') /\ extends net3 g' /\ Forall2 (fun o v => computes zsem g' v (val2 o)) [7] outs'.
Proof.
  split; [vm_compute; reflexivity|]. split; [vm_compute; reflexivity|]. split; [vm_compute; reflexivity|]. apply C109_add_bias_partial.
  - is_convertible.
  - is_valuation.
  - is_own.
  - intros f x _ Hx Hi. destruct f as [|[|f]]; cbn in Hx; [injection Hx as <-|injection Hx as <-|destruct f; discriminate]; try (unfold inner_product in Hi; cbn in Hi; intuition discriminate).
    right. exists 0, 1, 2, "fc"%string. split; [reflexivity|]. split; [reflexivity|]. split; [eexists; reflexivity|]. split; [|split; [intros p [<-|[]] _; discriminate|split; reflexivity]].
    exists (lf 1). split; [reflexivity|]. split; [exists (weight "fc" "W" true 1); split; [left; reflexivity|split; reflexivity]|]. intros p [<-|[]] _ _. reflexivity.
  - intros f x i w f' x' i' w' s _ Hx Hi _ _ Hx' Hi' _ _ _. destruct f as [|[|f]]; cbn in Hx; [injection Hx as <-|injection Hx as <-|destruct f; discriminate]; try (unfold inner_product in Hi; cbn in Hi; intuition discriminate).
    destruct f' as [|[|f']]; cbn in Hx'; [reflexivity|injection Hx' as <-|destruct f'; discriminate]; unfold inner_product in Hi'; cbn in Hi'; intuition discriminate.
Qed.

Print Assumptions C106_same_partial.
Print Assumptions C106_replace_partial.
Print Assumptions C106_first_unused_refuted.
Print Assumptions C107_remove_partial.
Print Assumptions C107_batch_stat_partial.
Print Assumptions C107_no_grad_partial.
Print Assumptions C108_folding_partial.
Print Assumptions C108_shared_weight_refuted.
Print Assumptions C109_self_folding_partial.
Print Assumptions C109_add_bias_partial.
