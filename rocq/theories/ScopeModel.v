(** Model of the scopes that switch global settings: context_scope and set_default_context
    (python/src/nnabla/context.py), no_grad (parameter.py:50-96), auto_forward and
    set_auto_forward (auto_forward.pyx), recompute and set_global_recompute (recompute.pyx),
    and of the scopes of graph_def (python/src/nnabla/core/graph_def.py:1509-1665).

    Programs are run in one thread; an exception raised in the body of a with statement is
    raised again by the generator of the scope at its yield, so code after the yield runs
    only inside finally. *)
From Coq Require Import List Arith Bool.
Import ListNotations.
Local Open Scope list_scope.

Section Settings.
Context {ctx : Type}.

Record settings := { s_ctx : ctx; s_level : nat; s_no_grad : bool; s_auto : bool; s_recompute : bool }.
Inductive scope := CtxScope (c : ctx) | NoGrad (b : bool) | Auto (b : bool) | Recompute (b : bool).
Inductive exn := User (n : nat) | Assertion.
Inductive outcome := Done | Raised (e : exn).
(** What the code in a program can see: get_current_context and the three flags. *)
Definition view : Type := ctx * bool * bool * bool.

Inductive prog :=
| Observe
| Raise (n : nat)
| SetDefaultContext (c : ctx)
| SetAuto (b : bool)
| SetRecompute (b : bool)
| Seq (p q : prog)
| With (s : scope) (p : prog)
| Try (p q : prog).               (* try: p except: q *)

(** The statements before the yield, which also save the previous value. *)
Definition enter (s : scope) (st : settings) : settings :=
  match s with
  | CtxScope c => {| s_ctx := c; s_level := S (s_level st); s_no_grad := s_no_grad st; s_auto := s_auto st; s_recompute := s_recompute st |}
  | NoGrad b => {| s_ctx := s_ctx st; s_level := s_level st; s_no_grad := b; s_auto := s_auto st; s_recompute := s_recompute st |}
  | Auto b => {| s_ctx := s_ctx st; s_level := s_level st; s_no_grad := s_no_grad st; s_auto := b; s_recompute := s_recompute st |}
  | Recompute b => {| s_ctx := s_ctx st; s_level := s_level st; s_no_grad := s_no_grad st; s_auto := s_auto st; s_recompute := b |}
  end.
(** The finally blocks; [saved] is the state on entry. *)
Definition leave (s : scope) (saved st : settings) : settings :=
  match s with
  | CtxScope _ => {| s_ctx := s_ctx saved; s_level := pred (s_level st); s_no_grad := s_no_grad st; s_auto := s_auto st; s_recompute := s_recompute st |}
  | NoGrad _ => {| s_ctx := s_ctx st; s_level := s_level st; s_no_grad := s_no_grad saved; s_auto := s_auto st; s_recompute := s_recompute st |}
  | Auto _ => {| s_ctx := s_ctx st; s_level := s_level st; s_no_grad := s_no_grad st; s_auto := s_auto saved; s_recompute := s_recompute st |}
  | Recompute _ => {| s_ctx := s_ctx st; s_level := s_level st; s_no_grad := s_no_grad st; s_auto := s_auto st; s_recompute := s_recompute saved |}
  end.
Definition look (st : settings) : view := (s_ctx st, s_no_grad st, s_auto st, s_recompute st).

(** The final settings, what was observed, and how the program ended. *)
Fixpoint run (p : prog) (st : settings) : settings * list view * outcome :=
  match p with
  | Observe => (st, [look st], Done)
  | Raise n => (st, [], Raised (User n))
  | SetDefaultContext c =>
      if s_level st =? 0
      then ({| s_ctx := c; s_level := s_level st; s_no_grad := s_no_grad st; s_auto := s_auto st; s_recompute := s_recompute st |}, [], Done)
      else (st, [], Raised Assertion)
  | SetAuto b => ({| s_ctx := s_ctx st; s_level := s_level st; s_no_grad := s_no_grad st; s_auto := b; s_recompute := s_recompute st |}, [], Done)
  | SetRecompute b => ({| s_ctx := s_ctx st; s_level := s_level st; s_no_grad := s_no_grad st; s_auto := s_auto st; s_recompute := b |}, [], Done)
  | Seq p q =>
      match run p st with
      | (st, o, Done) => let '(st, o', r) := run q st in (st, o ++ o', r)
      | (st, o, Raised e) => (st, o, Raised e)
      end
  | With s p => let '(st', o, r) := run p (enter s st) in (leave s st st', o, r)
  | Try p q =>
      match run p st with
      | (st, o, Done) => (st, o, Done)
      | (st, o, Raised _) => let '(st, o', r) := run q st in (st, o ++ o', r)
      end
  end.

(** Entering and leaving in any order, as threads or generators can do: scope i is entered
    by Enter i and left by Leave i. *)
Inductive event := Enter (i : nat) (s : scope) | Leave (i : nat).
Fixpoint play (es : list event) (open : list (nat * (scope * settings))) (st : settings) : settings :=
  match es with
  | [] => st
  | Enter i s :: es => play es ((i, (s, st)) :: open) (enter s st)
  | Leave i :: es =>
      match find (fun x => fst x =? i) open with
      | Some (_, (s, saved)) => play es (filter (fun x => negb (fst x =? i)) open) (leave s saved st)
      | None => play es open st
      end
  end.
End Settings.
Arguments settings : clear implicits.
Arguments prog : clear implicits.
Arguments scope : clear implicits.
Arguments event : clear implicits.

(** The scopes of graph_def.  A builder is known by a number; only its graph_name, its dirty
    flag and its stack of modules are kept, and each commit_network is recorded as a pair of
    the builder and the name of the network. *)
Record builder := { b_name : option nat; b_dirty : bool; b_stack : list nat }.
Record globals := {
  g_current : nat;                     (* proto_graph_builder *)
  g_previous : option nat;             (* previous_graph_builder *)
  g_builders : list builder;           (* all builders created so far *)
  g_commits : list (nat * option nat) }.
Inductive gprog :=
| GCall                                (* a function call on proto variables (line 2374) *)
| GRaise
| GObserve
| GSeq (p q : gprog)
| GGraph (name : option nat) (p : gprog)    (* with graph(name=...) (lines 1589-1658) *)
| GName (name : nat) (p : gprog)            (* with graph_name(...) (lines 1575-1582) *)
| GModule (m : nat) (p : gprog)             (* with module_scope(current_graph_builder(), m) (lines 1661-1665) *)
| GTry (p q : gprog).

Definition b0 : builder := {| b_name := None; b_dirty := false; b_stack := [] |}.
Definition get_b (i : nat) (g : globals) : builder := nth i (g_builders g) b0.
Fixpoint set_nth {A} (l : list A) (i : nat) (x : A) : list A :=
  match l, i with
  | [], _ => []
  | _ :: l, O => x :: l
  | y :: l, S i => y :: set_nth l i x
  end.
Definition set_b (i : nat) (b : builder) (g : globals) : globals :=
  {| g_current := g_current g; g_previous := g_previous g; g_builders := set_nth (g_builders g) i b; g_commits := g_commits g |}.
(** commit_network (lines 1560-1572): the graph name is used up; without one the module
    names the network (None). *)
Definition commit (i : nat) (g : globals) : globals :=
  let b := get_b i g in
  let g := set_b i {| b_name := None; b_dirty := false; b_stack := b_stack b |} g in
  {| g_current := g_current g; g_previous := g_previous g; g_builders := g_builders g; g_commits := g_commits g ++ [(i, b_name b)] |}.
Definition commit_if_dirty (g : globals) : globals :=
  if b_dirty (get_b (g_current g) g) then commit (g_current g) g else g.

Fixpoint grun (p : gprog) (g : globals) : globals * list nat * bool :=
  match p with
  | GCall => let b := get_b (g_current g) g in
             (set_b (g_current g) {| b_name := b_name b; b_dirty := true; b_stack := b_stack b |} g, [], true)
  | GRaise => (g, [], false)
  | GObserve => (g, [g_current g], true)
  | GSeq p q =>
      match grun p g with
      | (g, o, true) => let '(g, o', r) := grun q g in (g, o ++ o', r)
      | (g, o, false) => (g, o, false)
      end
  | GGraph name p =>
      let g := {| g_current := length (g_builders g); g_previous := Some (g_current g);
                  g_builders := g_builders g ++ [{| b_name := name; b_dirty := false; b_stack := [] |}]; g_commits := g_commits g |} in
      match grun p g with
      | (g, o, false) => (g, o, false)
      | (g, o, true) =>
          let g := commit_if_dirty g in
          ({| g_current := match g_previous g with Some i => i | None => g_current g end;
              g_previous := g_previous g; g_builders := g_builders g; g_commits := g_commits g |}, o, true)
      end
  | GName name p =>
      let b := get_b (g_current g) g in
      let saved := b_name b in
      match grun p (set_b (g_current g) {| b_name := Some name; b_dirty := b_dirty b; b_stack := b_stack b |} g) with
      | (g, o, false) => (g, o, false)
      | (g, o, true) =>
          let g := commit_if_dirty g in
          let b := get_b (g_current g) g in
          (set_b (g_current g) {| b_name := saved; b_dirty := b_dirty b; b_stack := b_stack b |} g, o, true)
      end
  | GModule m p =>
      let i := g_current g in
      let b := get_b i g in
      match grun p (set_b i {| b_name := b_name b; b_dirty := b_dirty b; b_stack := m :: b_stack b |} g) with
      | (g, o, false) => (g, o, false)
      | (g, o, true) =>
          let b := get_b i g in
          let g := set_b i {| b_name := b_name b; b_dirty := b_dirty b; b_stack := tl (b_stack b) |} g in
          (match tl (b_stack b) with [] => commit i g | _ => g end, o, true)
      end
  | GTry p q =>
      match grun p g with
      | (g, o, true) => (g, o, true)
      | (g, o, false) => let '(g, o', r) := grun q g in (g, o ++ o', r)
      end
  end.
