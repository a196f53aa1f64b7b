(** C23: parameter files. *)
From Coq Require Import String Ascii List Bool Arith ZArith Lia Permutation.
From Verif Require Import ParamModel ParamSpec ParamProofs ParamProofs2 ParamProofs3
  PfileModel PfileSpec PfileProofs PfileProofs2 PfileProofs3.
Import ListNotations.
Local Open Scope string_scope.
Local Open Scope list_scope.

Lemma describes_lists s es : describes s (get_parameters s false) es -> lists_parameters s es.
Proof.
  unfold describes, lists_parameters. intros H. induction H; constructor; [|assumption].
  destruct H as [E R]. split; [exact E|]. apply read_var_some in R as (z & A & B & C & D). exists z. auto.
Qed.

(** C23, the full property: for every tree of parameters, loading the file that
    was saved registers the same names with the same values, flags and order.
    This theorem restricts: names without empty or "." components (HDF5); contents
    that survive the 32-bit field (protocol buffer); loading into a scope without
    entries.  The restrictions are needed: see the refutations below. *)
Theorem C23_roundtrip_partial : forall f32 s t ext,
  reach s -> reach t -> dict_at (root t) (cur t) = Some [] ->
  (ext = ".h5" /\ plain_names s \/ ext = ".protobuf" /\ fits f32 s) ->
  exists f, save_parameters f32 s None ext = Ok f /\
    forall needs order, visits f order ->
    exists t' pr,
      load_parameters t None needs order ext f = (t', pr, Ok tt) /\
      same_parameters s t' /\
      (ext = ".protobuf" \/ needs = true -> lists_parameters s pr) /\
      (* nothing else has changed *)
      cur t' = cur t /\ nograd t' = nograd t /\
      (exists h, heap t' = heap t ++ h) /\ (exists c, store t' = store t ++ c) /\
      (forall q, ~ strictly_below (cur t) q -> registered (root t') q = registered (root t) q).
Proof.
  intros f32 s t ext Rs Rt Et So. apply reach_Inv in Rs, Rt.
  destruct (save_load f32 s ext Rs So) as (es & f & D & E & L & _). exists f. split; [exact E|].
  intros needs order V.
  destruct (load_described s t es Rs Rt Et D) as (t' & E' & Sp & C & N & H & S & [Dn R]).
  exists t'. eexists. split.
  { rewrite (L t needs order V) by now rewrite E'. rewrite E'. reflexivity. }
  split; [exact Sp|]. split.
  { intros Hx. assert (X := describes_lists _ _ D). destruct So as [[-> _]|[-> _]].
    - change (String.eqb ".h5" ".h5") with true. cbn iota. destruct Hx as [Hx| ->]; [discriminate|exact X].
    - change (String.eqb ".protobuf" ".h5") with false. exact X. }
  split; [exact C|]. split; [exact N|]. split; [exact H|]. split; [exact S|].
  intros q Hq. rewrite R. eapply registered_put_out; eauto.
Qed.
Print Assumptions C23_roundtrip_partial.

(** The same for the parameters inside a .nnp archive. *)
Theorem C23_nnp_partial : forall f32 s t pf,
  reach s -> reach t -> dict_at (root t) (cur t) = Some [] ->
  (pf = ".h5" /\ plain_names s \/ pf <> ".h5" /\ fits f32 s) ->
  exists f, save_nnp f32 s None pf = Ok f /\
    forall needs order, visits f order ->
    exists t' pr, load_parameters t None needs order ".nnp" f = (t', pr, Ok tt) /\
                  same_parameters s t'.
Proof.
  intros f32 s t pf Rs Rt Et So. apply reach_Inv in Rs, Rt.
  destruct (save_load_nnp f32 s pf Rs) as (es & f & D & E & L).
  { destruct So as [[-> H]|[Hn H]]; [left; split; [reflexivity|exact H]|right].
    destruct (String.eqb_spec pf ".h5"); [congruence|]. split; [reflexivity|exact H]. }
  exists f. split; [exact E|]. intros needs order V.
  destruct (load_described s t es Rs Rt Et D) as (t' & E' & Sp & _).
  destruct (L t needs order V) as (pr & Lp); [now rewrite E'|].
  exists t', pr. rewrite Lp, E'. auto.
Qed.
Print Assumptions C23_nnp_partial.

(** Restoring a checkpoint: whatever has happened to the contents and the
    need_grad flags of the registered variables, loading the file puts back what
    was saved, into the same Variable objects. *)
Theorem C23_restore_partial : forall f32 s t ext,
  reach s -> same_objects s t ->
  (ext = ".h5" /\ plain_names s \/ ext = ".protobuf" /\ fits f32 s) ->
  exists f, save_parameters f32 s None ext = Ok f /\
    forall needs order, visits f order ->
    exists t' pr,
      load_parameters t None needs order ext f = (t', pr, Ok tt) /\
      same_parameters s t' /\ same_objects s t' /\
      get_parameters t' false = get_parameters s false.
Proof.
  intros f32 s t ext Rs So Ok_. apply reach_Inv in Rs.
  destruct (save_load f32 s ext Rs Ok_) as (es & f & D & E & L & _). exists f. split; [exact E|].
  intros needs order V.
  destruct (restore_described s t es Rs So D) as (t' & E' & So' & N & Sp & G).
  exists t'. eexists. split.
  { rewrite (L t needs order V) by now rewrite E'. rewrite E'. reflexivity. }
  auto.
Qed.
Print Assumptions C23_restore_partial.

(** ** Non-vacuity: a nested registry, saved and loaded in both formats. *)
Definition mk (name : string) (sh : list Z) (need : bool) (c : Z) : cmd :=
  CGoc name (Some sh) (ICallable c) need None.
Definition saved : st :=
  fst (exec_list init [mk "conv/W" [3; 2]%Z true 7; mk "bn/mean" [3]%Z false 8;
                       mk "conv/b" [2]%Z true 9; mk "a" []%Z true 10]).
Lemma saved_reach : reach saved.
Proof.
  unfold saved. destruct (exec_list init _) as [s' o] eqn:E. cbn.
  eapply reach_list; [apply reach_init|exact E].
Qed.
Definition shown (s : st) : list (string * option (list Z * bool * Z)) :=
  map (fun kv => (fst kv, read_var s (snd kv))) (get_parameters s false).

Example C23_roundtrip_ex :
  shown saved = [("conv/W", Some ([3; 2]%Z, true, 7%Z)); ("conv/b", Some ([2]%Z, true, 9%Z));
                 ("bn/mean", Some ([3]%Z, false, 8%Z)); ("a", Some ([], true, 10%Z))] /\
  (exists f t' pr, save_parameters (fun z => z) saved None ".h5" = Ok f /\
     load_parameters init None true
       [["a"]; ["bn"; "mean"]; ["conv"; "W"]; ["conv"; "b"]] ".h5" f = (t', pr, Ok tt) /\
     shown t' = shown saved /\ map pname pr = map fst (get_parameters saved false)) /\
  (exists f t' pr, save_parameters (fun z => z) saved None ".protobuf" = Ok f /\
     load_parameters init None false [] ".protobuf" f = (t', pr, Ok tt) /\ shown t' = shown saved).
Proof.
  split; [vm_compute; reflexivity|]. split.
  - eexists _, _, _. split; [vm_compute; reflexivity|]. split; [vm_compute; reflexivity|].
    split; vm_compute; reflexivity.
  - eexists _, _, _. split; [vm_compute; reflexivity|]. split; vm_compute; reflexivity.
Qed.

Example C23_hypotheses_ex : plain_names saved /\ fits (fun z => z) saved /\
  dict_at (root init) (cur init) = Some [] /\ visits (FH5 []) [].
Proof.
  split; [|split; [intros k v x c _ _ _; reflexivity|split; [reflexivity|constructor]]].
  assert (E : forallb (fun kv => forallb (fun c => negb (String.eqb c "") && negb (String.eqb c "."))
                                         (split_slash (fst kv))) (get_parameters saved false) = true)
    by (vm_compute; reflexivity).
  intros k v H c Hc. rewrite forallb_forall in E. specialize (E _ H). cbn [fst] in E.
  rewrite forallb_forall in E. specialize (E _ Hc). apply andb_true_iff in E as [E1 E2].
  apply negb_true_iff, String.eqb_neq in E1. apply negb_true_iff, String.eqb_neq in E2. split; assumption.
Qed.

Example C23_restore_ex :
  let t := {| heap := map (fun x => {| vshape := vshape x; vneed := false; vstore := vstore x |}) (heap saved);
              store := map (fun _ => 0%Z) (store saved); root := root saved; cur := cur saved;
              nograd := true |} in
  same_objects saved t /\ shown t <> shown saved /\
  exists f t' pr, save_parameters (fun z => z) saved None ".h5" = Ok f /\
     load_parameters t None false
       [["conv"; "b"]; ["bn"; "mean"]; ["conv"; "W"]; ["a"]] ".h5" f = (t', pr, Ok tt) /\
     shown t' = shown saved.
Proof.
  cbn zeta. split; [|split].
  - split; [reflexivity|]. split; [reflexivity|]. split; [reflexivity|]. vm_compute. repeat constructor.
  - vm_compute. discriminate.
  - eexists _, _, _. split; [vm_compute; reflexivity|]. split; vm_compute; reflexivity.
Qed.

(** ** Where the full statement fails *)

(** A scope called "." is lost in an HDF5 file: the parameter comes back under
    another name. *)
Theorem C23_dot_refuted : exists s f t' pr,
  reach s /\ map fst (get_parameters s false) = ["./a"] /\
  save_parameters (fun z => z) s None ".h5" = Ok f /\
  visits f [["a"]] /\
  load_parameters init None false [["a"]] ".h5" f = (t', pr, Ok tt) /\
  map fst (get_parameters t' false) = ["a"].
Proof.
  exists (fst (exec_list init [mk "./a" [1]%Z true 5])). eexists _, _, _.
  split; [destruct (exec_list init _) as [s' o] eqn:E; eapply reach_list; [apply reach_init|exact E]|].
  split; [vm_compute; reflexivity|]. split; [vm_compute; reflexivity|].
  split; [cbn; apply Permutation_refl|]. split; vm_compute; reflexivity.
Qed.
Print Assumptions C23_dot_refuted.

(** A parameter whose name ends in a slash loses the slash, and if the scope has
    another parameter the file cannot be written. *)
Theorem C23_empty_refuted :
  (exists s f t' pr,
    reach s /\ map fst (get_parameters s false) = ["a/"] /\
    save_parameters (fun z => z) s None ".h5" = Ok f /\ visits f [["a"]] /\
    load_parameters init None false [["a"]] ".h5" f = (t', pr, Ok tt) /\
    map fst (get_parameters t' false) = ["a"]) /\
  (exists s, reach s /\ map fst (get_parameters s false) = ["a/"; "a/b"] /\
    save_parameters (fun z => z) s None ".h5" = Exn ValueError).
Proof.
  split.
  - exists (fst (exec_list init [mk "a/" [1]%Z true 5])). eexists _, _, _.
    split; [destruct (exec_list init _) as [s' o] eqn:E; eapply reach_list; [apply reach_init|exact E]|].
    split; [vm_compute; reflexivity|]. split; [vm_compute; reflexivity|].
    split; [cbn; apply Permutation_refl|]. split; vm_compute; reflexivity.
  - exists (fst (exec_list init [mk "a/" [1]%Z true 5; mk "a/b" [1]%Z true 6])).
    split; [destruct (exec_list init _) as [s' o] eqn:E; eapply reach_list; [apply reach_init|exact E]|].
    split; vm_compute; reflexivity.
Qed.
Print Assumptions C23_empty_refuted.

(** Contents that do not fit a 32-bit float are changed by the protocol buffer
    (here: a rounding that drops the last bit). *)
Theorem C23_rounding_refuted : exists f32 s f t' pr,
  reach s /\ save_parameters f32 s None ".protobuf" = Ok f /\
  load_parameters init None false [] ".protobuf" f = (t', pr, Ok tt) /\
  shown s = [("a", Some ([1]%Z, true, 5%Z))] /\ shown t' = [("a", Some ([1]%Z, true, 4%Z))].
Proof.
  exists (fun z => (z / 2 * 2)%Z), (fst (exec_list init [mk "a" [1]%Z true 5])). eexists _, _, _.
  split; [destruct (exec_list init _) as [s' o] eqn:E; eapply reach_list; [apply reach_init|exact E]|].
  split; [vm_compute; reflexivity|]. split; [vm_compute; reflexivity|]. split; vm_compute; reflexivity.
Qed.
Print Assumptions C23_rounding_refuted.

(** A scope without parameters, which asking for an unknown parameter leaves
    behind, changes the order of what is loaded. *)
Theorem C23_order_refuted : exists s t f t' pr,
  reach s /\ reach t /\ get_parameters t false = [] /\
  save_parameters (fun z => z) s None ".protobuf" = Ok f /\
  load_parameters t None false [] ".protobuf" f = (t', pr, Ok tt) /\
  map fst (get_parameters s false) = ["a/x"; "b/y"] /\
  map fst (get_parameters t' false) = ["b/y"; "a/x"].
Proof.
  exists (fst (exec_list init [mk "a/x" [1]%Z true 5; mk "b/y" [1]%Z true 6])),
         (fst (exec_list init [CGet "b/q"])). eexists _, _, _.
  split; [destruct (exec_list init _) as [s' o] eqn:E; eapply reach_list; [apply reach_init|exact E]|].
  split; [destruct (exec_list init _) as [s' o] eqn:E; eapply reach_list; [apply reach_init|exact E]|].
  split; [vm_compute; reflexivity|]. split; [vm_compute; reflexivity|]. split; [vm_compute; reflexivity|].
  split; vm_compute; reflexivity.
Qed.
Print Assumptions C23_order_refuted.

(** A parameter of another shape makes loading raise, after the parameters before
    it have been replaced. *)
Theorem C23_shape_refuted : exists s t f t' pr,
  reach s /\ reach t /\
  save_parameters (fun z => z) s None ".protobuf" = Ok f /\
  load_parameters t None false [] ".protobuf" f = (t', pr, Exn ValueError) /\
  shown t = [("a", Some ([1]%Z, true, 0%Z)); ("b", Some ([2]%Z, true, 0%Z))] /\
  shown t' = [("a", Some ([1]%Z, true, 5%Z)); ("b", Some ([2]%Z, true, 0%Z))].
Proof.
  exists (fst (exec_list init [mk "a" [1]%Z true 5; mk "b" [3]%Z true 6])),
         (fst (exec_list init [mk "a" [1]%Z true 0; mk "b" [2]%Z true 0])). eexists _, _, _.
  split; [destruct (exec_list init _) as [s' o] eqn:E; eapply reach_list; [apply reach_init|exact E]|].
  split; [destruct (exec_list init _) as [s' o] eqn:E; eapply reach_list; [apply reach_init|exact E]|].
  split; [vm_compute; reflexivity|]. split; [vm_compute; reflexivity|].
  split; vm_compute; reflexivity.
Qed.
Print Assumptions C23_shape_refuted.

(** Which extensions are accepted: the test is for substrings, so an extension
    that is part of a supported one gets past it and fails on opening; one that is
    not is refused by the saver and silently skipped by the loader. *)
Theorem C23_extensions : forall f32 s t proto needs order f,
  save_parameters f32 s None "" = Exn ValueError /\
  save_parameters f32 s None ".proto" = Exn ValueError /\
  save_parameters f32 s None ".nnp" = Exn AssertionError /\
  save_parameters f32 s None ".nntxt" = Exn AssertionError /\
  load_parameters t (Some proto) needs order ".npz" f = (t, proto, Ok tt).
Proof. intros. repeat split. Qed.
Print Assumptions C23_extensions.
