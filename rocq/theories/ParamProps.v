(** Properties C01-C03: parameter scopes, the registry as a map, and
    get_parameter_or_create. *)
From Coq Require Import String Ascii Bool Arith ZArith Lia List.
From Verif Require Import ParamModel ParamSpec ParamProofs ParamProofs2 ParamProofs3.
Import ListNotations.
Local Open Scope string_scope.
Local Open Scope list_scope.

(** A state built by a non-trivial program, used by the examples: parameters
    conv/W, conv/b and fc/W, then inside scope conv. *)
Definition demo_prog : list cmd :=
  [CScope "conv" [CGoc "W" (Some [3%Z; 3%Z]) (ICallable 7) true None;
                  CGoc "b" (Some [3%Z]) INone true None];
   CScope "/fc/" [CGoc "W" (Some [2%Z]) (ICallable 5) false None]].
Definition demo : st := fst (exec_list init demo_prog).

Example demo_reach : reach demo.
Proof. eapply reach_list; [apply reach_init|]. unfold demo. apply surjective_pairing. Qed.

Example demo_registered :
  registered (root demo) ["conv"; "W"] = Some 0 /\ registered (root demo) ["conv"; "b"] = Some 1 /\
  registered (root demo) ["fc"; "W"] = Some 2 /\ registered (root demo) ["fc"; "b"] = None /\
  get_parameters demo true = [("conv/W", 0); ("conv/b", 1)].
Proof. vm_compute. auto. Qed.

(** ** C01 *)

(** Any program, ending normally or by an exception, leaves the current scope
    (and the no_grad flag) as it was. *)
Theorem C01_scope_restored : forall s prog s' o,
  reach s -> exec_list s prog = (s', o) -> cur s' = cur s /\ nograd s' = nograd s.
Proof.
  exact (fun s prog s' o R E =>
    let G := exec_list_Good prog s s' o (reach_Inv s R) E in
    conj (proj1 (proj2 G)) (proj1 (proj2 (proj2 G)))).
Qed.
Print Assumptions C01_scope_restored.

Example C01_scope_restored_ex :
  exists s', exec_list demo [CScope "conv" [CScope "x/y" [CGoc "W" (Some [1%Z]) INone true None; CNoGrad true [CRaise]]]]
             = (s', Exn UserError) /\ cur s' = [] /\ nograd s' = false /\
             registered (root s') ["conv"; "x"; "y"; "W"] = Some 3.
Proof. eexists. split; [vm_compute; reflexivity|]. vm_compute. auto. Qed.

(** Nothing outside the opened sub-scope changes. *)
Theorem C01_scope_isolation : forall s name body s' o,
  reach s -> exec s (CScope name body) = (s', o) ->
  forall q, ~ strictly_below (cur s ++ scope_path name) q ->
            registered (root s') q = registered (root s) q.
Proof. exact (fun s name body s' o R => scope_exact s name body s' o (reach_Inv s R)). Qed.
Print Assumptions C01_scope_isolation.

Example C01_scope_isolation_ex :
  exists s', exec demo (CScope "conv" [CClear; CSet "W" 2]) = (s', Ok tt) /\
    registered (root s') ["fc"; "W"] = Some 2 /\ registered (root s') ["conv"; "W"] = Some 2 /\
    registered (root s') ["conv"; "b"] = None /\
    ~ strictly_below (cur demo ++ scope_path "conv") ["fc"; "W"].
Proof.
  eexists. split; [vm_compute; reflexivity|]. split; [reflexivity|]. split; [reflexivity|]. split; [reflexivity|].
  intros (n & t & H). vm_compute in H. discriminate.
Qed.

(** Opening a scope makes the named sub-scope current and registers nothing; it
    fails exactly when a prefix of the name is a parameter. *)
Theorem C01_scope_entered : forall s name,
  reach s ->
  match enter (root s) (cur s) (scope_names name) with
  | (r, Ok p) => p = cur s ++ scope_path name /\ (forall q, registered r q = registered (root s) q)
  | (r, Exn e) => e = AssertionError /\ (forall q, registered r q = registered (root s) q) /\
                  blocked (root s) (cur s ++ scope_path name ++ [""])
  end.
Proof. exact (fun s name R => scope_entered s name (reach_Inv s R)). Qed.
Print Assumptions C01_scope_entered.

Example C01_scope_entered_ex :
  snd (enter (root demo) (cur demo) (scope_names "//conv///deep/")) = Ok ["conv"; "deep"] /\
  snd (enter (root demo) (cur demo) (scope_names "conv/W/x")) = Exn AssertionError.
Proof. vm_compute. auto. Qed.

(** A slash in a scope name is the same as nesting two scopes. *)
Theorem C01_nested_scope : forall s name a b body,
  scope_path name = scope_path a ++ scope_path b ->
  exec s (CScope name body) = exec s (CScope a [CScope b body]).
Proof. exact nested_scope. Qed.
Print Assumptions C01_nested_scope.

Example C01_nested_scope_ex : scope_path "/a//b/c/" = scope_path "a" ++ scope_path "b/c".
Proof. reflexivity. Qed.

(** ** C02 *)

(** get_parameter returns the registered variable, or None for an unregistered
    name, and registers nothing.  The only other outcome is an AssertionError, when
    a prefix of the name is a parameter or the name is that of a scope. *)
Theorem C02_get_partial : forall s key s' o,
  reach s -> get_parameter s key = (s', o) ->
  (forall q, registered (root s') q = registered (root s) q) /\
  heap s' = heap s /\ store s' = store s /\ cur s' = cur s /\ nograd s' = nograd s /\
  match o with
  | Ok r => r = registered (root s) (full_path s key) /\ ~ blocked (root s) (full_path s key)
  | Exn e => e = AssertionError /\ registered (root s) (full_path s key) = None /\
             (blocked (root s) (full_path s key) \/ dict_at (root s') (full_path s key) <> None)
  end.
Proof. exact (fun s key s' o R => get_spec s key s' o (reach_Inv s R)). Qed.
Print Assumptions C02_get_partial.

Example C02_get_ex :
  snd (get_parameter demo "conv/b") = Ok (Some 1) /\ snd (get_parameter demo "/conv//b") = Ok (Some 1) /\
  snd (get_parameter demo "new/b") = Ok None /\ snd (get_parameter demo "conv/b/c") = Exn AssertionError.
Proof. vm_compute. auto. Qed.

(** "get_parameter of an unregistered name returns None" is false: a lookup
    creates the scopes on its path, and looking up the name of a scope - even one
    created by such a lookup - raises. *)
Theorem C02_get_unregistered_refuted : exists s k1 k2,
  reach s /\ (forall q, registered (root s) q = None) /\
  snd (get_parameter s k1) = Ok None /\
  snd (get_parameter (fst (get_parameter s k2)) k1) = Exn AssertionError.
Proof.
  exists init, "a", "a/b". split; [apply reach_init|]. split; [|split; reflexivity].
  intros [|a [|b q]]; reflexivity.
Qed.
Print Assumptions C02_get_unregistered_refuted.

(** set_parameter makes the name denote the variable and keeps every other name,
    except those below it, which disappear; a failing call changes nothing. *)
Theorem C02_set_partial : forall s key v s' o,
  reach s -> set_parameter s key v = (s', o) ->
  heap s' = heap s /\ store s' = store s /\ cur s' = cur s /\ nograd s' = nograd s /\
  match o with
  | Ok _ =>
      ~ blocked (root s) (full_path s key) /\
      registered (root s') (full_path s key) = Some v /\
      (forall q, strictly_below (full_path s key) q -> registered (root s') q = None) /\
      (forall q, ~ is_prefix (full_path s key) q -> registered (root s') q = registered (root s) q)
  | Exn e => e = AssertionError /\ blocked (root s) (full_path s key) /\
             (forall q, registered (root s') q = registered (root s) q)
  end.
Proof. exact (fun s key v s' o R => set_spec s key v s' o (reach_Inv s R)). Qed.
Print Assumptions C02_set_partial.

Example C02_set_ex :
  snd (get_parameter (fst (set_parameter demo "fc/b" 1)) "fc/b") = Ok (Some 1) /\
  snd (set_parameter demo "fc/W/x" 1) = Exn AssertionError.
Proof. vm_compute. auto. Qed.

(** "changes the value at no other name" is false: naming a scope destroys every
    parameter in it. *)
Theorem C02_set_other_names_refuted : exists s key v q,
  reach s /\ snd (set_parameter s key v) = Ok tt /\ q <> full_path s key /\
  registered (root s) q <> None /\ registered (root (fst (set_parameter s key v))) q = None.
Proof.
  exists demo, "conv", 2, ["conv"; "W"]. split; [apply demo_reach|]. split; [reflexivity|].
  split; [discriminate|]. split; [discriminate|reflexivity].
Qed.
Print Assumptions C02_set_other_names_refuted.

(** pop_parameter returns what the name denoted and removes it together with
    everything below it, and nothing else. *)
Theorem C02_pop_partial : forall s key s' o,
  reach s -> pop_parameter s key = (s', o) ->
  heap s' = heap s /\ store s' = store s /\ cur s' = cur s /\ nograd s' = nograd s /\
  match o with
  | Ok r =>
      ~ blocked (root s) (full_path s key) /\
      match r with
      | Some (EVar v) => registered (root s) (full_path s key) = Some v
      | Some (EScope d) => forall q, q <> [] -> registered d q = registered (root s) (full_path s key ++ q)
      | None => forall q, is_prefix (full_path s key) q -> registered (root s) q = None
      end /\
      (forall q, is_prefix (full_path s key) q -> registered (root s') q = None) /\
      (forall q, ~ is_prefix (full_path s key) q -> registered (root s') q = registered (root s) q)
  | Exn e => e = AssertionError /\ blocked (root s) (full_path s key) /\
             (forall q, registered (root s') q = registered (root s) q)
  end.
Proof. exact (fun s key s' o R => pop_spec s key s' o (reach_Inv s R)). Qed.
Print Assumptions C02_pop_partial.

Example C02_pop_ex :
  snd (pop_parameter demo "conv/W") = Ok (Some (EVar 0)) /\
  get_parameters (fst (pop_parameter demo "conv/W")) false = [("conv/b", 1); ("fc/W", 2)] /\
  snd (pop_parameter demo "conv/X") = Ok None.
Proof. vm_compute. auto. Qed.

(** "removes exactly k" is false: popping the name of a scope removes the scope. *)
Theorem C02_pop_exactly_refuted : exists s key q,
  reach s /\ registered (root s) (full_path s key) = None /\
  registered (root s) q <> None /\ registered (root (fst (pop_parameter s key))) q = None.
Proof.
  exists demo, "conv", ["conv"; "W"]. split; [apply demo_reach|]. split; [reflexivity|].
  split; [discriminate|reflexivity].
Qed.
Print Assumptions C02_pop_exactly_refuted.

(** get_parameters lists every registered parameter below the current scope
    exactly once, under its slash-joined path, filtered by need_grad on request. *)
Theorem C02_get_parameters : forall s grad_only,
  reach s ->
  NoDup (map fst (get_parameters s grad_only)) /\
  forall k v, In (k, v) (get_parameters s grad_only) <->
    exists p, p <> [] /\ k = joinp p /\ registered (root s) (cur s ++ p) = Some v /\
              (grad_only = true -> exists x, nth_error (heap s) v = Some x /\ vneed x = true).
Proof. exact (fun s g R => get_parameters_spec s g (reach_Inv s R)). Qed.
Print Assumptions C02_get_parameters.

(** ... and every listed key is a key under which the parameter is found. *)
Theorem C02_listed_is_found : forall s k v,
  reach s -> In (k, v) (get_parameters s false) -> snd (get_parameter s k) = Ok (Some v).
Proof. exact (fun s k v R => listed_found s k v (reach_Inv s R)). Qed.
Print Assumptions C02_listed_is_found.

Example C02_listed_ex : In ("conv/b", 1) (get_parameters demo false).
Proof. vm_compute. auto. Qed.

(** clear_parameters empties the current scope and nothing else. *)
Theorem C02_clear : forall s q,
  reach s ->
  (strictly_below (cur s) q -> registered (root (clear_parameters s)) q = None) /\
  (~ strictly_below (cur s) q -> registered (root (clear_parameters s)) q = registered (root s) q).
Proof. exact (fun s q R => clear_exact s q (reach_Inv s R)). Qed.
Print Assumptions C02_clear.

(** ** C03 *)

(** Exact behaviour of a call, by whether the name is registered. *)
Theorem C03_call : forall s name sh i need an s' o,
  reach s -> get_parameter_or_create s name sh i need an = (s', o) ->
  cur s' = cur s /\ nograd s' = nograd s /\
  match registered (root s) (full_path s name) with
  | Some v =>
      exists x, nth_error (heap s) v = Some x /\ store s' = store s /\
        (forall q, registered (root s') q = registered (root s) q) /\
        match o with
        | Ok ret => sh = Some (vshape x) /\ rshape ret = vshape x /\ rstore ret = vstore x /\
                    rneed ret = andb (requested need an) (negb (nograd s)) /\
                    heap s' = heap_upd (heap s) v
                       {| vshape := vshape x; vneed := need; vstore := vstore x |}
        | Exn e => sh <> Some (vshape x) /\ heap s' = heap s
        end
  | None =>
      match o with
      | Ok ret => (forall z, sh = Some z -> rshape ret = z) /\
                  (forall z c, i = IArray z c -> rshape ret = z) /\
                  rstore ret = length (store s) /\
                  rneed ret = andb (requested need an) (negb (nograd s)) /\
                  store s' = store s ++ [init_content i] /\
                  heap s' = heap s ++ [{| vshape := rshape ret; vneed := need; vstore := length (store s) |}] /\
                  registered (root s') (full_path s name) = Some (length (heap s)) /\
                  (forall q, q <> full_path s name -> registered (root s') q = registered (root s) q)
      | Exn e => (forall q, registered (root s') q = registered (root s) q) /\
                 heap s' = heap s /\ store s' = store s
      end
  end.
Proof. exact (fun s name sh i need an s' o R => goc_spec s name sh i need an s' o (reach_Inv s R)). Qed.
Print Assumptions C03_call.

(** A call with a shape succeeds on a free name, and on a registered name exactly
    when the shape agrees. *)
Theorem C03_creates : forall s name sh i need an,
  reach s -> registered (root s) (full_path s name) = None ->
  ~ blocked (root s) (full_path s name) -> dict_at (root s) (full_path s name) = None ->
  (exists z, sh = Some z /\ i <> IInvalid /\ (forall z' c, i = IArray z' c -> z' = z)) ->
  exists s' a, get_parameter_or_create s name sh i need an = (s', Ok a).
Proof. exact (fun s name sh i need an R => goc_creates s name sh i need an (reach_Inv s R)). Qed.
Print Assumptions C03_creates.

Theorem C03_shape_checked : forall s name sh i need an v x,
  reach s -> registered (root s) (full_path s name) = Some v -> nth_error (heap s) v = Some x ->
  (sh = Some (vshape x) <-> exists s' a, get_parameter_or_create s name sh i need an = (s', Ok a)).
Proof. exact (fun s name sh i need an v x R => goc_again s name sh i need an v x (reach_Inv s R)). Qed.
Print Assumptions C03_shape_checked.

(** Over every history of calls in an empty registry, two successful calls share
    storage exactly when their names denote the same path, and then have the same
    shape. *)
Theorem C03_sharing : forall s cs sf rs,
  reach s -> (forall q, registered (root s) q = None) -> run_calls s cs = (sf, rs) ->
  forall i j ci cj a b,
    nth_error cs i = Some ci -> nth_error cs j = Some cj ->
    nth_error rs i = Some (Ok a) -> nth_error rs j = Some (Ok b) ->
    (rstore a = rstore b <-> key_path (cname ci) = key_path (cname cj)) /\
    (key_path (cname ci) = key_path (cname cj) -> rshape a = rshape b).
Proof. exact (fun s cs sf rs R => run_calls_share cs s sf rs (reach_Inv s R)). Qed.
Print Assumptions C03_sharing.

(** No program ever overwrites the content of an array the registry created: the
    store only grows. *)
Theorem C03_never_reinitialised : forall s prog s' o,
  reach s -> exec_list s prog = (s', o) -> exists t, store s' = store s ++ t.
Proof.
  exact (fun s prog s' o R E =>
    proj1 (proj2 (proj2 (proj2 (proj2 (proj2 (exec_list_Good prog s s' o (reach_Inv s R) E))))))).
Qed.
Print Assumptions C03_never_reinitialised.

Definition demo_calls : list call :=
  [{| cname := "a/W"; cshape := Some [2%Z]; cinit := ICallable 4; cneed := true; cas := None |};
   {| cname := "a/b"; cshape := Some [2%Z]; cinit := INone; cneed := true; cas := None |};
   {| cname := "/a//W"; cshape := Some [2%Z]; cinit := ICallable 9; cneed := false; cas := Some true |};
   {| cname := "a/W"; cshape := Some [3%Z]; cinit := ICallable 9; cneed := true; cas := None |}].
Example C03_ex :
  map (fun r => match r with Ok a => Some (rstore a, rneed a) | Exn _ => None end)
      (snd (run_calls init demo_calls)) = [Some (0, true); Some (1, true); Some (0, true); None] /\
  store (fst (run_calls init demo_calls)) = [4%Z; 0%Z].
Proof. vm_compute. auto. Qed.
