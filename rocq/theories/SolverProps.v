(** Properties C18, C19, C20 and C35: solver parameters, hooks, state files and
    fused weight decay. *)
From Coq Require Import String Ascii List Bool Arith ZArith Lia Permutation.
From Verif Require Import Assoc SolverModel SolverSpec SolverProofs SolverProofs2.
Import ListNotations.
Local Open Scope string_scope.
Local Open Scope list_scope.

Definition momentum : kind := mkKind ["m"] true false 0.
Definition adam : kind := mkKind ["mean"; "var"] true false 0.
Definition sgd : kind := mkKind [] false false 0.
Definition sgdw : kind := mkKind ["m"] true true 5.

Lemma momentum_good : good_names momentum.
Proof.
  split; cbn.
  - repeat constructor; cbn; tauto.
  - intros n [<-|[]]. split; [reflexivity|discriminate].
Qed.
Lemma adam_good : good_names adam.
Proof.
  split; cbn.
  - repeat constructor; cbn; intuition discriminate.
  - intros n [<-|[<-|[]]]; (split; [reflexivity|discriminate]).
Qed.

(** ** C18 *)

(** reset=True: exactly the given parameters remain, each with a fresh state. *)
Theorem C18_reset : forall k s ps retain,
  NoDup (state_names k) -> reachable k s -> NoDup (akeys ps) -> erases k = true ->
  let r := set_parameters s ps true retain in
  snd r = None /\
  forall key,
    aget key (params (fst r)) = aget key ps /\
    match aget key ps, aget key (states (fst r)) with
    | Some v, Some st => initial_state k v st
    | None, None => True
    | _, _ => False
    end.
Proof.
  intros k s ps retain Hk Hr Hn He r.
  destruct (set_reset k s ps retain (reachable_inv k s Hk Hr) Hn) as [A B].
  split; [exact A|]. intros key. destruct (B key) as [B1 B2]. split; [exact B1|].
  unfold r. rewrite (B2 He). destruct (aget key ps); auto. apply fresh_initial.
Qed.
Print Assumptions C18_reset.

(** For a solver whose remove_state_impl does nothing (Sgd) the parameters are
    right, but ... *)
Theorem C18_reset_params : forall k s ps retain,
  NoDup (state_names k) -> reachable k s -> NoDup (akeys ps) ->
  let r := set_parameters s ps true retain in
  snd r = None /\ forall key, aget key (params (fst r)) = aget key ps.
Proof.
  intros k s ps retain Hk Hr Hn r.
  destruct (set_reset k s ps retain (reachable_inv k s Hk Hr) Hn) as [A B].
  split; [exact A|]. intros key. now destruct (B key).
Qed.
Print Assumptions C18_reset_params.

(** ... the iteration counters of the old parameters survive the reset, also under
    the names of the new ones. *)
Theorem C18_sgd_reset_refuted :
  exists s v w st,
    reachable sgd s /\ aget "w" (params s) = Some v /\
    let r := set_parameters s [("w", w)] true false in
    snd r = None /\ aget "w" (params (fst r)) = Some w /\
    aget "w" (states (fst r)) = Some st /\ ~ initial_state sgd w st.
Proof.
  pose (v := mkVar 0 [2]). pose (w := mkVar 1 [3]).
  pose (s0 := fst (set_parameters (new_solver sgd) [("w", v)] true false)).
  exists (fst (fst (run_op s0 Update (fun _ => false) (fun _ => false)))), v, w, (mkState [] 1).
  split; [|split; [reflexivity|cbn; repeat split]].
  - apply r_op. apply r_set; [constructor|]. repeat constructor; cbn; tauto.
  - intros (H & _). discriminate.
Qed.
Print Assumptions C18_sgd_reset_refuted.

(** reset=False, retain_state=False.  New names are added with a fresh state and
    earlier other names are untouched; names given again get a fresh state. What
    is missing for the full property: their variable is not replaced. *)
Theorem C18_add_partial : forall k s ps,
  NoDup (state_names k) -> reachable k s -> NoDup (akeys ps) ->
  let r := set_parameters s ps false false in
  snd r = None /\
  forall key,
    (aget key ps = None ->
       aget key (params (fst r)) = aget key (params s) /\
       aget key (states (fst r)) = aget key (states s)) /\
    (forall v, aget key ps = Some v ->
       aget key (params (fst r)) =
         (match aget key (params s) with Some old => Some old | None => Some v end) /\
       (erases k = true ->
        exists st, aget key (states (fst r)) = Some st /\ initial_state k v st)).
Proof.
  intros k s ps Hk Hr Hn r.
  assert (Hi := reachable_inv k s Hk Hr).
  destruct (add_loop_fresh ps Hn s) as (A & B & C & D).
  unfold r, set_parameters. split; [exact A|]. intros key. split.
  - intros H. split.
    + rewrite B, H. destruct (aget key (params s)); auto.
    + apply C. now apply aget_none.
  - intros v H. split.
    + rewrite B, H. reflexivity.
    + intros He. exists (fresh_state k v). split; [|apply fresh_initial].
      rewrite <- (inv_kind k s Hi) at 1. apply D; auto.
      * now rewrite (inv_kind k s Hi).
      * intros x. now apply (inv_eq k s Hi).
Qed.
Print Assumptions C18_add_partial.

(** A name given again keeps its old variable: [params_.insert] does not
    overwrite. *)
Theorem C18_overwrite_refuted :
  exists s v w,
    reachable momentum s /\ v <> w /\
    let r := set_parameters s [("w", w)] false false in
    snd r = None /\ aget "w" (params (fst r)) = Some v.
Proof.
  exists (fst (set_parameters (new_solver momentum) [("w", mkVar 0 [2])] true false)),
         (mkVar 0 [2]), (mkVar 1 [2]).
  split; [|split; [discriminate|split; reflexivity]].
  apply r_set; [constructor|]. repeat constructor; cbn; tauto.
Qed.
Print Assumptions C18_overwrite_refuted.

(** ... while its state gets the shape of the new variable: the next update reads
    and writes a state array smaller than the parameter. *)
Theorem C18_state_shape_refuted :
  exists s v st a,
    reachable momentum s /\
    let r := set_parameters s [("w", mkVar 1 [2])] false false in
    snd r = None /\ aget "w" (params (fst r)) = Some v /\
    aget "w" (states (fst r)) = Some st /\ aget "m" (pstate st) = Some a /\
    List.length (acontent a) < size_of (vshape v).
Proof.
  exists (fst (set_parameters (new_solver momentum) [("w", mkVar 0 [100])] true false)),
         (mkVar 0 [100]), (mkState [("m", mkArr [2] [0; 0]%Z)] 0), (mkArr [2] [0; 0]%Z).
  split; [|cbn; repeat split; lia].
  apply r_set; [constructor|]. repeat constructor; cbn; tauto.
Qed.
Print Assumptions C18_state_shape_refuted.

(** retain_state=True: accepted iff the shapes of the names given again agree, and
    the states of existing names are kept in any case; new names are added with a
    fresh state.  Missing again: the variable is not replaced. *)
Theorem C18_retain_partial : forall k s ps,
  NoDup (state_names k) -> reachable k s -> NoDup (akeys ps) ->
  let r := set_parameters s ps false true in
  (snd r = None <->
   forall key v old, aget key ps = Some v -> aget key (params s) = Some old ->
                     vshape v = vshape old) /\
  (forall key st, aget key (states s) = Some st -> aget key (states (fst r)) = Some st) /\
  (snd r = None -> forall key,
     aget key (params (fst r)) =
       (match aget key (params s) with Some old => Some old | None => aget key ps end) /\
     (erases k = true -> forall v,
      aget key (params s) = None -> aget key ps = Some v ->
        exists st, aget key (states (fst r)) = Some st /\ initial_state k v st)).
Proof.
  intros k s ps Hk Hr Hn r.
  assert (Hi := reachable_inv k s Hk Hr).
  destruct (retain_loop ps Hn s) as (A & B & C & D).
  unfold r, set_parameters. split; [exact A|split; [exact B|]].
  intros H key. destruct (D H) as [D1 D2]. split; [apply D1|].
  intros He v Hp Hv. exists (fresh_state k v). split; [|apply fresh_initial].
  rewrite <- (inv_kind k s Hi) at 1. apply D2; auto.
  intros x. now apply (inv_eq k s Hi).
Qed.
Print Assumptions C18_retain_partial.

(** Non-vacuity: a solver with one parameter; one is added, one given again. *)
Definition ex_s := fst (set_parameters (new_solver momentum) [("w", mkVar 0 [2])] true false).
Lemma ex_s_reachable : reachable momentum ex_s.
Proof. apply r_set; [constructor|]. repeat constructor; cbn; tauto. Qed.
Example C18_example :
  let r := set_parameters ex_s [("w", mkVar 1 [2]); ("b", mkVar 2 [1])] false true in
  snd r = None /\ params (fst r) = [("w", mkVar 0 [2]); ("b", mkVar 2 [1])] /\
  akeys (states (fst r)) = ["w"; "b"].
Proof. repeat split. Qed.
Example C18_example_mismatch :
  snd (set_parameters ex_s [("w", mkVar 1 [3])] false true) = Some (EShape "w").
Proof. reflexivity. Qed.

(** ** C19 *)

(** The documented bracketing never happens: whenever an operation does anything,
    its trace ends with the operation itself, after the last post hook. *)
Theorem C19_refuted : forall s o zeroing hit,
  let trace := snd (fst (run_op s o zeroing hit)) in
  trace <> [] -> ~ bracketed trace.
Proof. exact never_bracketed. Qed.
Print Assumptions C19_refuted.

(** Concretely: both hooks run before the update of the parameter. *)
Example C19_refuted_example :
  snd (fst (run_op ex_s Update (fun _ => false) (fun _ => false)))
  = [GlobalPre; Pre; Post; GlobalPost; Impl Update "w" 0].
Proof. reflexivity. Qed.

(** What holds: each operation is applied exactly once to every registered
    parameter whose gradient was computed, in the solver's order, each application
    being preceded by one pre hook and one post hook call. *)
Theorem C19_partial : forall s o zeroing hit,
  is_check o = false ->
  (match o with WeightDecay r => fused (skind s) = false /\ r <> 0%Z
              | ClipGrad n => n <> 0%Z | _ => True end) ->
  let trace := snd (fst (run_op s o zeroing hit)) in
  let keys := filter (fun k => negb (zeroing k)) (akeys (params s)) in
  applied trace = keys /\
  exists r, trace = concat (map (fun k => [GlobalPre; Pre; Post; GlobalPost; Impl o k r]) keys).
Proof.
  intros s o z h Hc Ho trace keys.
  assert (G : trace = fst (loop o (rate s) z h (akeys (params s)))).
  { unfold trace, run_op. destruct o; cbn in Hc; try discriminate; auto.
    - destruct Ho as [-> Ho]. apply Z.eqb_neq in Ho. now rewrite Ho.
    - apply Z.eqb_neq in Ho. now rewrite Ho. }
  rewrite G, loop_trace, reached_all.
  - fold (computed z (akeys (params s))) in keys. split; [apply applied_blocks|eauto].
  - intros k _. unfold stops. now rewrite Hc.
Qed.
Print Assumptions C19_partial.

(** A check answers true exactly when some computed gradient is bad. *)
Theorem C19_check : forall s o zeroing hit,
  is_check o = true ->
  snd (run_op s o zeroing hit) = true <->
  exists k, In k (akeys (params s)) /\ zeroing k = false /\ hit k = true.
Proof.
  intros s o z h Hc.
  assert (G : snd (run_op s o z h) = snd (loop o (rate s) z h (akeys (params s)))).
  { unfold run_op. destruct o; try discriminate; auto. }
  rewrite G, loop_flag, Hc. cbn. rewrite existsb_exists. split.
  - intros (k & H1 & H2). apply filter_In in H1 as [H1 H3]. exists k.
    apply negb_true_iff in H3. auto.
  - intros (k & H1 & H2 & H3). exists k. split; auto. apply filter_In. now rewrite H2.
Qed.
Print Assumptions C19_check.
Example C19_check_example :
  snd (run_op ex_s CheckNan (fun _ => false) (fun k => String.eqb k "w")) = true /\
  snd (run_op ex_s CheckNan (fun _ => true) (fun k => String.eqb k "w")) = false.
Proof. split; reflexivity. Qed.

(** ** C35 Fused weight decay *)

(** In a solver with fused weight decay an update uses the rate of the last
    weight_decay call since the previous update, and the constructor's default if
    there was none. *)
Theorem C35_fused : forall k cs z h key o r,
  fused k = true ->
  forall s, skind s = k -> rate s = default_rate k ->
  In (Impl o key r) (snd (fst (run_op (fst (run_ops s cs)) Update z h))) ->
  r = pending (default_rate k) (rev (map cop cs)).
Proof.
  intros k cs z h key o r Hf s Hk Hr Hin.
  cbn in Hin. apply loop_rates in Hin. subst r.
  rewrite (run_ops_rate cs s []); rewrite ?Hk; auto. now rewrite app_nil_r.
Qed.
Print Assumptions C35_fused.

(** ... and weight_decay itself touches no gradient then. *)
Theorem C35_fused_lazy : forall s r z h,
  fused (skind s) = true -> snd (fst (run_op s (WeightDecay r) z h)) = [].
Proof. intros s r z h Hf. unfold run_op. now rewrite Hf. Qed.
Print Assumptions C35_fused_lazy.

(** Every reachable solver without fused weight decay updates with its default
    rate: an explicit weight_decay call is never applied a second time. *)
Theorem C35_not_fused : forall k s z h key o r,
  NoDup (state_names k) -> reachable k s -> fused k = false ->
  In (Impl o key r) (snd (fst (run_op s Update z h))) -> r = default_rate k.
Proof.
  intros k s z h key o r Hk Hr Hf Hin. cbn in Hin. apply loop_rates in Hin. subst r.
  now apply (inv_rate k s (reachable_inv k s Hk Hr)).
Qed.
Print Assumptions C35_not_fused.

Example C35_example :
  let s := fst (set_parameters (new_solver sgdw) [("w", mkVar 0 [1])] true false) in
  let c o := mkCall o (fun _ => false) (fun _ => false) in
  snd (run_ops s [c (WeightDecay 9); c (ScaleGrad 2); c Update; c Update]) =
  [GlobalPre; Pre; Post; GlobalPost; Impl (ScaleGrad 2) "w" 9;
   GlobalPre; Pre; Post; GlobalPost; Impl Update "w" 9;
   GlobalPre; Pre; Post; GlobalPost; Impl Update "w" 5]%Z.
Proof. reflexivity. Qed.

(** ** C20 *)

(** HDF5: if no parameter name is a string prefix of another one, saving succeeds
    and loading the file into a solver with the same parameter names restores every
    array and counter, in whatever order the file enumerates its datasets. *)
Theorem C20_h5_partial : forall k s s',
  good_names k -> reachable k s -> prefix_free (akeys (states s)) ->
  (forall x, In x (akeys (states s')) <-> In x (akeys (states s))) ->
  exists file, save_h5 s = Some file /\
    forall visit, Permutation visit file ->
      snd (load_h5 s' visit) = None /\
      same_states (states (fst (load_h5 s' visit))) (states s).
Proof.
  intros k s s' Hg Hr Hp Hk.
  exact (h5_roundtrip k Hg s s' (reachable_inv k s (proj1 Hg) Hr) Hp Hk).
Qed.
Print Assumptions C20_h5_partial.

(** Without that condition the states are mixed up: the parameter "conv/b" gets the
    momentum and the counter of "conv/bn/beta". *)
Definition ex_two : solver :=
  let s := fst (set_parameters (new_solver momentum)
                  [("conv/b", mkVar 0 [1]); ("conv/bn/beta", mkVar 1 [1])] true false) in
  fst (fst (run_op s Update (fun k => String.eqb k "conv/b") (fun _ => false))).
Theorem C20_h5_refuted :
  exists s file,
    reachable momentum s /\ save_h5 s = Some file /\
    snd (load_h5 s file) = None /\
    ~ same_states (states (fst (load_h5 s file))) (states s).
Proof.
  exists ex_two. eexists. split; [|split; [vm_compute; reflexivity|split; [reflexivity|]]].
  - apply r_op. apply r_set; [constructor|]. repeat constructor; cbn; intuition discriminate.
  - intros H. specialize (H "conv/b"). vm_compute in H. destruct H as [H _]. discriminate.
Qed.
Print Assumptions C20_h5_refuted.

(** Saving itself fails when one name is a path prefix of another that was saved
    before it. *)
Theorem C20_h5_save_refuted :
  exists s, reachable momentum s /\ save_h5 s = None.
Proof.
  exists (fst (set_parameters (new_solver momentum)
                 [("a/b", mkVar 0 [1]); ("a", mkVar 1 [1])] true false)).
  split; [|reflexivity].
  apply r_set; [constructor|]. repeat constructor; cbn; intuition discriminate.
Qed.
Print Assumptions C20_h5_save_refuted.

(** Protobuf: unconditional. *)
Theorem C20_protobuf : forall k s s' msg,
  good_names k -> reachable k s -> Permutation msg (save_pb s) ->
  (forall x, In x (akeys (states s')) <-> In x (akeys (states s))) ->
  snd (load_pb s' msg) = None /\ same_states (states (fst (load_pb s' msg))) (states s).
Proof.
  intros k s s' msg Hg Hr Hp Hk.
  exact (pb_roundtrip k s s' msg (reachable_inv k s (proj1 Hg) Hr) Hp Hk).
Qed.
Print Assumptions C20_protobuf.

(** Non-vacuity: names that are prefix free, after one update of each. *)
Definition ex_ok : solver :=
  let s := fst (set_parameters (new_solver adam)
                  [("conv/W", mkVar 0 [2]); ("fc/W", mkVar 1 [1])] true false) in
  fst (fst (run_op s Update (fun _ => false) (fun _ => false))).
Example C20_example :
  good_names adam /\ reachable adam ex_ok /\ prefix_free (akeys (states ex_ok)) /\
  (exists file, save_h5 ex_ok = Some file /\ List.length file = 6).
Proof.
  split; [exact adam_good|]. split; [|split].
  - apply r_op. apply r_set; [constructor|]. repeat constructor; cbn; intuition discriminate.
  - intros p q Hp Hq Hn. cbn in Hp, Hq.
    destruct Hp as [<-|[<-|[]]]; destruct Hq as [<-|[<-|[]]]; try reflexivity; congruence.
  - eexists. split; [vm_compute; reflexivity|reflexivity].
Qed.
