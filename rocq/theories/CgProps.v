(** Forward propagation: C11, C12, C36, C37. *)
From Coq Require Import List Arith Bool Lia.
From Verif Require Import CgModel CgSpec CgProofs CgProofs2 CgProofs3 CgProofs4.
Import ListNotations.
Local Open Scope list_scope.

(** ** C11 *)

(** The values that [solution] describes exist, once and only once, in every acyclic
    graph. *)
Theorem C11_values_exist : forall V (g : graph V) leaf, wf g -> acyclic g ->
  (forall f fd xs, fun_at g f = Some fd -> length (f_op fd xs) = length (f_outs fd)) ->
  exists vals, solution g leaf vals /\ forall vals', solution g leaf vals' -> forall v, vals' v = vals v.
Proof.
  intros V g leaf Hwf (lvl & Hlvl) Hlen. exists (value g lvl leaf).
  assert (S := value_ok g lvl Hwf Hlvl leaf Hlen).
  split; auto. intros vals' S'. exact (solution_unique g lvl Hwf Hlvl leaf vals' _ S' S).
Qed.
Print Assumptions C11_values_exist.

(** forward: each needed function exactly once, no other, producers first, and the
    requested variable gets its value -- provided that no in-placed array is overwritten
    while its old contents are wanted.  The only failure is the in-place check. *)
Theorem C11_forward_partial : forall V (g : graph V) leaf vals (s : st V) cb cng y p,
  wf g -> acyclic g -> solution g leaf vals -> is_var g y -> parent g y = Some p ->
  no_hazard g (needs g p) (fun v => v = y) ->
  masked_ok g (needs g p) s ->
  loaded g (needs g p) (fun v => v = y) leaf s ->
  match forward g cb cng y s with
  | Ok s' => NoDup (log s') /\ (forall f, In f (log s') <-> needs g p f) /\
             in_order g (log s') /\ mem s' (arr g y) = Some (vals y)
  | Err e => e = EVerify /\
             exists k kd j, needs g p k /\ fun_at g k = Some kd /\ j < length (f_ins kd) /\
                            f_inplace kd j = INPLACE_MODIFY
  end.
Proof.
  intros V g leaf vals s cb cng y p Hwf Hac Hsol Hv Hp Hhaz Hmask Hload.
  destruct Hac as (lvl & Hlvl).
  assert (F := forward_ok g cb cng leaf vals (gflag g lvl) s y p (fun v => v = y) Hwf
                 (ex_intro _ lvl Hlvl) Hsol (gflag_ok g lvl Hlvl) Hp
                 (fun v E => or_introl E) Hhaz Hmask Hload).
  destruct (forward g cb cng y s) as [s'|e]; auto.
  destruct F as (F1 & F2 & F3 & F4 & _). split; auto. split; auto. split; auto.
  apply F4; auto. intros q Hq. rewrite Hp in Hq. injection Hq as <-. constructor.
Qed.
Print Assumptions C11_forward_partial.

(** Without in-placing (every variable has its own array) there is no condition and no
    failure. *)
Definition own_arrays {V} (g : graph V) : Prop :=
  (forall u v, is_var g u -> is_var g v -> arr g u = arr g v -> u = v) /\
  (forall f fd i, fun_at g f = Some fd -> f_inplace fd i = NOT_INPLACE).
Lemma own_no_hazard {V} (g : graph V) need keep : wf g -> own_arrays g -> no_hazard g need keep.
Proof.
  intros Hwf [H _] f fd o v _ Hf Ho Hv Hne Ha. exfalso. apply Hne. apply H; auto.
  now apply (wf_outs g Hwf f fd o Hf Ho).
Qed.
Lemma own_masked {V} (g : graph V) need s : wf g -> own_arrays g ->
  (forall v, is_leaf g v -> vrank s v = 0) -> masked_ok g need s.
Proof.
  intros Hwf [H _] Hr f fd i u _ Hf Hi _. split; auto.
  intros v Hv Ha. apply H; auto. apply (wf_ins g Hwf f fd u Hf). now apply nth_error_In in Hi.
Qed.
Theorem C11_forward_no_inplace : forall V (g : graph V) leaf vals (s : st V) cb cng y p,
  wf g -> acyclic g -> own_arrays g -> solution g leaf vals -> is_var g y -> parent g y = Some p ->
  (forall v, is_var g v -> is_leaf g v -> mem s (arr g v) = Some (leaf v)) ->
  (forall v, is_leaf g v -> vrank s v = 0) ->
  exists s', forward g cb cng y s = Ok s' /\
    NoDup (log s') /\ (forall f, In f (log s') <-> needs g p f) /\
    in_order g (log s') /\ mem s' (arr g y) = Some (vals y).
Proof.
  intros V g leaf vals s cb cng y p Hwf Hac Hown Hsol Hv Hp Hload Hr.
  assert (F := C11_forward_partial V g leaf vals s cb cng y p Hwf Hac Hsol Hv Hp
    (own_no_hazard g _ _ Hwf Hown) (own_masked g _ s Hwf Hown Hr) (fun v A B _ => Hload v A B)).
  destruct (forward g cb cng y s) as [s'|e]; [exists s'; tauto|].
  destruct F as (_ & k & kd & j & _ & Hk & _ & Hj). destruct Hown as [_ Ho].
  rewrite (Ho k kd j Hk) in Hj. discriminate.
Qed.
Print Assumptions C11_forward_no_inplace.

(** forward_all: the functions needed by any of the requested variables, each once over
    the whole call, producers first; all requested values are there at the end. *)
Theorem C11_forward_all_partial : forall V (g : graph V) leaf vals (s : st V) cb cng ys,
  wf g -> acyclic g -> solution g leaf vals -> (forall y, In y ys -> is_var g y) ->
  let need := fun f => exists y p, In y ys /\ parent g y = Some p /\ needs g p f in
  no_hazard g need (fun v => In v ys) ->
  masked_ok g need s ->
  loaded g need (fun v => In v ys) leaf s ->
  match fst (forward_all g cb cng ys s) with
  | Ok s' => NoDup (log s') /\ (forall f, In f (log s') <-> need f) /\
             in_order g (log s') /\ (forall y, In y ys -> mem s' (arr g y) = Some (vals y))
  | Err e => e = EVerify /\
             exists k kd j, need k /\ fun_at g k = Some kd /\ j < length (f_ins kd) /\
                            f_inplace kd j = INPLACE_MODIFY
  end.
Proof.
  intros V g leaf vals s cb cng ys Hwf Hac Hsol Hv need Hhaz Hmask Hload.
  destruct Hac as (lvl & Hlvl).
  assert (F := forward_all_ok g cb cng leaf vals (gflag g lvl) s ys (fun v => In v ys) Hwf
                 (ex_intro _ lvl Hlvl) Hsol (gflag_ok g lvl Hlvl) Hv
                 (fun v E => or_introl E) Hhaz Hmask Hload).
  destruct (fst (forward_all g cb cng ys s)) as [s'|e]; auto.
  destruct F as (F1 & F2 & F3 & F4 & _). split; auto. split; auto. split; auto.
  intros y Hy. apply F4; auto. intros q Hq. exists y, q. split; auto. split; auto. constructor.
Qed.
Print Assumptions C11_forward_all_partial.

(** ** C12 *)

(** The flags do not change the result. *)
Theorem C12_same_result_partial : forall V (g : graph V) leaf vals (s s1 s2 : st V) cb cng y p,
  wf g -> acyclic g -> solution g leaf vals -> is_var g y -> parent g y = Some p ->
  no_hazard g (needs g p) (fun v => v = y) -> masked_ok g (needs g p) s ->
  loaded g (needs g p) (fun v => v = y) leaf s ->
  forward g false false y s = Ok s1 -> forward g cb cng y s = Ok s2 ->
  mem s2 (arr g y) = mem s1 (arr g y) /\ mem s2 (arr g y) <> None.
Proof.
  intros V g leaf vals s s1 s2 cb cng y p Hwf Hac Hsol Hv Hp Hhaz Hmask Hload H1 H2.
  assert (F1 := C11_forward_partial V g leaf vals s false false y p Hwf Hac Hsol Hv Hp Hhaz Hmask Hload).
  assert (F2 := C11_forward_partial V g leaf vals s cb cng y p Hwf Hac Hsol Hv Hp Hhaz Hmask Hload).
  rewrite H1 in F1. rewrite H2 in F2.
  destruct F1 as (_ & _ & _ & ->). destruct F2 as (_ & _ & _ & ->). split; congruence.
Qed.
Print Assumptions C12_same_result_partial.

(** Leaves, persistent variables and the requested one hold their values afterwards,
    whatever the flags. *)
Theorem C12_retained_partial : forall V (g : graph V) leaf vals (s : st V) cb cng y p s',
  wf g -> acyclic g -> solution g leaf vals -> parent g y = Some p ->
  let kept := fun v => v = y \/ v_persistent (var_at g v) = true \/ is_leaf g v in
  no_hazard g (needs g p) kept -> masked_ok g (needs g p) s ->
  loaded g (needs g p) kept leaf s ->
  forward g cb cng y s = Ok s' ->
  forall v, is_var g v -> kept v -> (forall q, parent g v = Some q -> needs g p q) ->
    mem s' (arr g v) = Some (vals v).
Proof.
  intros V g leaf vals s cb cng y p s' Hwf (lvl & Hlvl) Hsol Hp kept Hhaz Hmask Hload H v Hv Hk Hq.
  assert (F := forward_ok g cb cng leaf vals (gflag g lvl) s y p kept Hwf
                 (ex_intro _ lvl Hlvl) Hsol (gflag_ok g lvl Hlvl) Hp).
  rewrite H in F. apply F; auto. intros u [->|[|]]; unfold keepable; auto.
Qed.
Print Assumptions C12_retained_partial.

(** Without in-placing: unconditional. *)
Theorem C12_no_inplace : forall V (g : graph V) leaf vals (s : st V) cb cng y p,
  wf g -> acyclic g -> own_arrays g -> solution g leaf vals -> is_var g y -> parent g y = Some p ->
  (forall v, is_var g v -> is_leaf g v -> mem s (arr g v) = Some (leaf v)) ->
  (forall v, is_leaf g v -> vrank s v = 0) ->
  exists s', forward g cb cng y s = Ok s' /\
    forall v, is_var g v -> (v = y \/ v_persistent (var_at g v) = true \/ is_leaf g v) ->
      (forall q, parent g v = Some q -> needs g p q) -> mem s' (arr g v) = Some (vals v).
Proof.
  intros V g leaf vals s cb cng y p Hwf Hac Hown Hsol Hv Hp Hload Hr.
  destruct (C11_forward_no_inplace V g leaf vals s cb cng y p Hwf Hac Hown Hsol Hv Hp Hload Hr)
    as (s' & E & _). exists s'. split; auto.
  eapply (C12_retained_partial V g leaf vals s cb cng y p s'); eauto.
  - now apply own_no_hazard.
  - now apply own_masked.
  - intros v A B _. auto.
Qed.
Print Assumptions C12_no_inplace.

(** ** C36: clear_no_need_grad keeps what backward reads. *)
Theorem C36_kept_for_backward_partial : forall V (g : graph V) leaf vals gf (s : st V) cng y p s',
  wf g -> acyclic g -> solution g leaf vals -> grad_flags g gf -> parent g y = Some p ->
  let kept := fun v => v_recompute (var_at g v) = false /\
    exists f fd k j, needs g p f /\ fun_at g f = Some fd /\ gf f = true /\ j < length (f_ins fd) /\
      ((nth_error (f_ins fd) k = Some v /\ f_dep_in fd j k = true) \/
       (nth_error (f_outs fd) k = Some v /\ f_dep_out fd j k = true)) in
  no_hazard g (needs g p) kept -> masked_ok g (needs g p) s ->
  loaded g (needs g p) kept leaf s ->
  forward g false cng y s = Ok s' ->
  forall v, is_var g v -> kept v -> (forall q, parent g v = Some q -> needs g p q) ->
    mem s' (arr g v) = Some (vals v).
Proof.
  intros V g leaf vals gf s cng y p s' Hwf Hac Hsol Hgf Hp kept Hhaz Hmask Hload H v Hv Hk Hq.
  assert (F := forward_ok g false cng leaf vals gf s y p kept Hwf Hac Hsol Hgf Hp).
  rewrite H in F. apply F; auto.
  intros u (Hr & f & fd & k & j & A1 & A2 & A3 & A4 & B). unfold keepable.
  right. right. right. split; [reflexivity|]. split; [exact Hr|].
  destruct B as [[B1 B2]|[B1 B2]]; [left|right]; exists f, fd, k, j; auto 10.
Qed.
Print Assumptions C36_kept_for_backward_partial.

(** The need-gradient state and rank that forward leaves in every executed function. *)
Theorem C36_states : forall V (g : graph V) leaf vals gf rk (s : st V) cb cng y p s',
  wf g -> acyclic g -> solution g leaf vals -> grad_flags g gf -> ranks g rk ->
  is_var g y -> parent g y = Some p ->
  no_hazard g (needs g p) (fun v => v = y) -> masked_ok g (needs g p) s ->
  loaded g (needs g p) (fun v => v = y) leaf s ->
  forward g cb cng y s = Ok s' ->
  forall f, needs g p f -> fng s' f = gf f /\ frank s' f = rk f.
Proof.
  intros V g leaf vals gf rk s cb cng y p s' Hwf Hac Hsol Hgf Hrk Hv Hp Hhaz Hmask Hload H f Hf.
  assert (F := forward_ok g cb cng leaf vals gf s y p (fun v => v = y) Hwf Hac Hsol Hgf Hp
                 (fun v E => or_introl E) Hhaz Hmask Hload).
  rewrite H in F. destruct F as (_ & _ & _ & _ & F5 & F6 & _). split; auto.
Qed.
Print Assumptions C36_states.

(** ** C37: forward_all leaves the persistent flags as they were. *)
Theorem C37_flags_restored_partial : forall V (g : graph V) cb cng ys s,
  NoDup ys -> (forall y, In y ys -> is_var g y) ->
  snd (forward_all g cb cng ys s) = g_vars g.
Proof.
  intros V g cb cng ys s Hn Hv. unfold forward_all.
  assert (R := restored (g_vars g) ys Hn Hv).
  destruct (set_persistents (g_vars g) ys) as [vs bs]. exact R.
Qed.
Print Assumptions C37_flags_restored_partial.

(** ** Concrete graphs *)
Definition simple (ins outs : list nat) (op : list (option nat) -> list nat) : fn nat :=
  mkFn ins outs op (fun _ => true) (fun _ => NOT_INPLACE) (fun _ => 0) false
       (fun _ _ => false) (fun _ _ => false) (fun _ => false).
Definition in_placed (l : inplace) (ins outs : list nat) (op : list (option nat) -> list nat) : fn nat :=
  mkFn ins outs op (fun _ => true) (fun _ => l) (fun _ => 0) false
       (fun _ _ => false) (fun _ _ => false) (fun _ => false).
Definition num (x : option nat) : nat := match x with Some n => n | None => 0 end.
Definition add1 (xs : list (option nat)) : list nat := [S (num (nth 0 xs None))].
Definition dbl (xs : list (option nat)) : list nat := [2 * num (nth 0 xs None)].
Definition idop (xs : list (option nat)) : list nat := [num (nth 0 xs None)].
Definition sum (xs : list (option nat)) : list nat := [fold_right (fun x n => num x + n) 0 xs].
Definition nvar (p : option nat) (a refs : nat) : var := mkVar p a None false false false refs.
Definition start (m : nat -> option nat) : st nat :=
  mkSt m (fun _ => 0) (fun _ => false) (fun _ => 0) (fun _ => false) (fun _ => true) [] []
       (fun _ => None) [] [] [].

(** x -add1-> a -dbl(in-place)-> b ; y = b + b + x. *)
Definition ex_g : graph nat :=
  mkGraph [simple [0] [1] add1; in_placed INPLACE_MODIFY [1] [2] dbl; simple [2;2;0] [3] sum]
          [nvar None 0 2; nvar (Some 0) 1 1; nvar (Some 1) 1 2; nvar (Some 2) 2 0].
Definition ex_leaf (v : nat) : nat := 5.
Definition ex_vals (v : nat) : nat := nth v [5; 6; 12; 29] 5.
Definition ex_s : st nat := start (fun a => if Nat.eqb a 0 then Some 5 else None).

Ltac fcase H := unfold fun_at, ex_g in H; cbn in H;
  repeat (match type of H with nth_error _ ?f = _ => destruct f; cbn in H end);
  try discriminate; try (injection H as <-).

Lemma ex_wf : wf ex_g.
Proof.
  apply mkWf.
  - intros f fd v Hf Hv. unfold is_var. cbn.
    destruct f as [|[|[|f]]]; cbn in Hf; try (destruct f; discriminate); injection Hf as <-; cbn in Hv; lia.
  - intros f fd v Hf Hv. unfold is_var. cbn.
    destruct f as [|[|[|f]]]; cbn in Hf; try (destruct f; discriminate); injection Hf as <-;
      destruct Hv as [<-|[]]; split; auto; lia.
  - intros v p Hp. destruct v as [|[|[|[|v]]]]; cbn in Hp; try discriminate; try (injection Hp as <-);
      try (eexists; split; [reflexivity|cbn; auto]).
    destruct v; discriminate.
  - intros f fd Hf. destruct f as [|[|[|f]]]; cbn in Hf; try (destruct f; discriminate); injection Hf as <-;
      cbn; repeat constructor; auto.
  - intros v. destruct v as [|[|[|[|v]]]]; vm_compute; try lia.
  - intros f fd i a Hf Hi Hin. destruct f as [|[|[|f]]]; cbn in Hf; try (destruct f; discriminate);
      injection Hf as <-; cbn in *; try discriminate.
    split; auto. split; auto. eexists; reflexivity.
  - intros f fd i a xs x Hf Hi Hin. destruct f as [|[|[|f]]]; cbn in Hf; try (destruct f; discriminate);
      injection Hf as <-; cbn in *; discriminate.
  - intros u v Hu Hv Hne Ha. unfold is_var in *. cbn in Hu, Hv.
    exists 1, 0, 1, 2. split.
    + eexists. split; [reflexivity|]. cbn. auto.
    + destruct u as [|[|[|[|u]]]]; destruct v as [|[|[|[|v]]]]; cbn in Ha; try lia; auto.
Qed.
Lemma ex_acyclic : acyclic ex_g.
Proof.
  exists (fun f => f). intros f fd Hf. split.
  - cbn. destruct f as [|[|[|f]]]; cbn in Hf; try (destruct f; discriminate); lia.
  - intros u q Hu Hq. destruct f as [|[|[|f]]]; cbn in Hf; try (destruct f; discriminate);
      injection Hf as <-; cbn in Hu; repeat (destruct Hu as [<-|Hu]); cbn in Hq; try discriminate;
      try (injection Hq as <-; lia); contradiction.
Qed.
Lemma ex_solution : solution ex_g ex_leaf ex_vals.
Proof.
  split.
  - intros v Hv. destruct v as [|[|[|[|v]]]]; cbn in Hv; try discriminate; auto.
    unfold ex_vals. now destruct v.
  - intros f fd Hf. destruct f as [|[|[|f]]]; cbn in Hf; try (destruct f; discriminate);
      injection Hf as <-; reflexivity.
Qed.
Lemma ex_needs f : needs ex_g 2 f <-> f < 3.
Proof.
  split.
  - intros H.
    assert (K : forall p f, needs ex_g p f -> p < 3 -> f < 3).
    { induction 1 as [|p i u q f' (fd & R1 & R2 & R3) Hq Hn IH]; auto. intros Hp. apply IH.
      assert (Hu := nth_error_In _ _ R2).
      destruct p as [|[|[|p]]]; cbn in R1; try (destruct p; discriminate);
        injection R1 as <-; cbn in Hu; repeat (destruct Hu as [<-|Hu]); cbn in Hq; try discriminate;
        try (injection Hq as <-; lia); contradiction. }
    apply (K _ _ H). lia.
  - intros Hf.
    assert (N1 : needs ex_g 2 1).
    { eapply (needs_step ex_g 2 0 2 1); [eexists; split; [reflexivity|split; reflexivity]|reflexivity|constructor]. }
    destruct f as [|[|[|f]]]; try lia; auto; [|constructor].
    eapply needs_trans; eauto.
    eapply (needs_step ex_g 1 0 1 0); [eexists; split; [reflexivity|split; reflexivity]|reflexivity|constructor].
Qed.
Lemma ex_no_hazard : no_hazard ex_g (needs ex_g 2) (fun v => v = 3).
Proof.
  intros f fd o v Hn Hf Ho Hv Hne Ha. unfold is_var in Hv. cbn in Hv.
  destruct f as [|[|[|f]]]; cbn in Hf; try (destruct f; discriminate); injection Hf as <-;
    destruct Ho as [<-|[]]; destruct v as [|[|[|[|v]]]]; cbn in Ha; try lia.
  - right. left. exists 1. split; auto.
    eapply (needs_step ex_g 1 0 1 0); [eexists; split; [reflexivity|split; reflexivity]|reflexivity|constructor].
  - right. right. split; [lia|]. intros h j Hh (hd & R1 & R2 & R3). apply nth_error_In in R2.
    destruct h as [|[|[|h]]]; cbn in R1; try (destruct h; discriminate); injection R1 as <-; cbn in R2;
      repeat (destruct R2 as [R2|R2]; try discriminate); try contradiction; constructor.
Qed.

(** All hypotheses of C11 and C12 hold of this graph, and forward gives 29 with each
    combination of flags, executing functions 0, 1, 2. *)
Example C11_example :
  wf ex_g /\ acyclic ex_g /\ solution ex_g ex_leaf ex_vals /\
  no_hazard ex_g (needs ex_g 2) (fun v => v = 3) /\
  masked_ok ex_g (needs ex_g 2) ex_s /\ loaded ex_g (needs ex_g 2) (fun v => v = 3) ex_leaf ex_s /\
  forall cb cng, exists s', forward ex_g cb cng 3 ex_s = Ok s' /\ log s' = [0; 1; 2] /\
    mem s' 2 = Some 29 /\ mem s' 0 = Some 5 /\ mem s' 1 = Some 12.
Proof.
  split; [exact ex_wf|]. split; [exact ex_acyclic|]. split; [exact ex_solution|].
  split; [exact ex_no_hazard|]. split; [|split].
  - intros f fd i u _ Hf Hi Ha.
    destruct f as [|[|[|f]]]; cbn in Hf; try (destruct f; discriminate); injection Hf as <-; discriminate.
  - intros v Hv Hl _. unfold is_var in Hv. cbn in Hv.
    destruct v as [|[|[|[|v]]]]; cbn in Hl; try discriminate; try lia. reflexivity.
  - intros [|] [|]; (eexists; split; [vm_compute; reflexivity|]); cbn; auto.
Qed.

(** A graph whose intermediate data is released: x -add1-> a -dbl-> b. *)
Definition ex_g2 : graph nat :=
  mkGraph [simple [0] [1] add1; simple [1] [2] dbl]
          [nvar None 0 1; nvar (Some 0) 1 1; nvar (Some 1) 2 0].
Example C12_example :
  (exists s', forward ex_g2 false false 2 ex_s = Ok s' /\ mem s' 2 = Some 12 /\ mem s' 1 = Some 6) /\
  (exists s', forward ex_g2 true false 2 ex_s = Ok s' /\ mem s' 2 = Some 12 /\ mem s' 1 = None) /\
  (exists s', forward ex_g2 false true 2 ex_s = Ok s' /\ mem s' 2 = Some 12 /\ mem s' 1 = None).
Proof.
  split; [|split]; (eexists; split; [vm_compute; reflexivity|cbn; auto]).
Qed.

(** forward_all on the two leaves of a diamond runs the shared function once. *)
Definition ex_g3 : graph nat :=
  mkGraph [simple [0] [1] add1; simple [1] [2] dbl; simple [1] [3] add1]
          [nvar None 0 1; nvar (Some 0) 1 2; nvar (Some 1) 2 0; nvar (Some 2) 3 0].
Example C11_forward_all_example :
  exists s', fst (forward_all ex_g3 true false [2; 3] ex_s) = Ok s' /\ log s' = [0; 1; 2] /\
             mem s' 2 = Some 12 /\ mem s' 3 = Some 7.
Proof. eexists; split; [vm_compute; reflexivity|cbn; auto]. Qed.

(** ** Refutations *)

(** Two "not modify" in-place functions in a row (reshape, reshape) hide from the
    check that the data belongs to a branching variable; a modifying in-place
    function on top of them destroys it.  x -add1-> a -id-> b -id-> c -dbl-> d, all of
    a, b, c, d in one array, and y = d + a: forward succeeds with 24, while a = 6 and
    d = 12 make 18. *)
Definition ref_g : graph nat :=
  mkGraph [simple [0] [1] add1;
           in_placed INPLACE_NOT_MODIFY [1] [2] idop;
           in_placed INPLACE_NOT_MODIFY [2] [3] idop;
           in_placed INPLACE_MODIFY [3] [4] dbl;
           simple [4; 1] [5] sum]
          [nvar None 0 1; nvar (Some 0) 1 2; nvar (Some 1) 1 1; nvar (Some 2) 1 1;
           nvar (Some 3) 1 1; nvar (Some 4) 2 0].
Definition ref_vals (v : nat) : nat := nth v [5; 6; 6; 6; 12; 18] 5.
Theorem C11_inplace_refuted :
  solution ref_g ex_leaf ref_vals /\
  (forall f fd, fun_at ref_g f = Some fd -> forall v, In v (f_outs fd) -> parent ref_g v = Some f) /\
  (forall v, v < 6 -> uses ref_g v = v_refs (var_at ref_g v)) /\
  exists s', forward ref_g false false 5 ex_s = Ok s' /\ mem s' (arr ref_g 5) = Some 24 /\
             ref_vals 5 = 18.
Proof.
  split; [|split; [|split]].
  - split.
    + intros v Hv. destruct v as [|[|[|[|[|[|v]]]]]]; cbn in Hv; try discriminate; auto.
      unfold ref_vals. now destruct v.
    + intros f fd Hf. destruct f as [|[|[|[|[|f]]]]]; cbn in Hf; try (destruct f; discriminate);
        injection Hf as <-; reflexivity.
  - intros f fd Hf v Hv. destruct f as [|[|[|[|[|f]]]]]; cbn in Hf; try (destruct f; discriminate);
      injection Hf as <-; destruct Hv as [<-|[]]; reflexivity.
  - intros v Hv. destruct v as [|[|[|[|[|[|v]]]]]]; try lia; reflexivity.
  - eexists; split; [vm_compute; reflexivity|]. split; reflexivity.
Qed.
Print Assumptions C11_inplace_refuted.

(** One "not modify" function only: the same program is rejected. *)
Example C11_inplace_checked :
  forward (mkGraph [simple [0] [1] add1; in_placed INPLACE_NOT_MODIFY [1] [2] idop;
                    in_placed INPLACE_MODIFY [2] [3] dbl; simple [3; 1] [4] sum]
                   [nvar None 0 1; nvar (Some 0) 1 2; nvar (Some 1) 1 1; nvar (Some 2) 1 1;
                    nvar (Some 3) 2 0]) false false 4 ex_s = Err EVerify.
Proof. reflexivity. Qed.

(** Clearing a masked-out input whose array is in-placed with a live variable: y =
    addn(a, b) with b masked out, where b was reshaped in-place from a.  Plain forward
    gives the value; with clear_buffer the array of [b] -- that of [a] -- is cleared
    before the second use of [a]. *)
Definition masked : fn nat :=
  mkFn [1; 2] [3] sum (fun i => Nat.eqb i 0) (fun _ => NOT_INPLACE) (fun _ => 0) false
       (fun _ _ => false) (fun _ _ => false) (fun _ => false).
Definition ref_g2 : graph nat :=
  mkGraph [simple [0] [1] add1; in_placed INPLACE_NOT_MODIFY [1] [2] idop; masked;
           simple [3; 1] [4] sum]
          [nvar None 0 1; nvar (Some 0) 1 3; mkVar (Some 1) 1 None false false false 1;
           nvar (Some 2) 2 1; nvar (Some 3) 3 0].
(** The ranks as set when the graph was built (function.cpp:106-111). *)
Definition ref_s2 : st nat :=
  set_vrank (set_vrank (set_vrank (set_vrank ex_s 1 1) 2 2) 3 3) 4 4.
Theorem C12_masked_refuted :
  (exists s', forward ref_g2 false false 4 ref_s2 = Ok s' /\ mem s' 3 = Some 12) /\
  forward ref_g2 true false 4 ref_s2 = Err EGarbage.
Proof. split; [eexists; split; [vm_compute; reflexivity|reflexivity]|vm_compute; reflexivity]. Qed.
Print Assumptions C12_masked_refuted.

(** C36 fails for forward_all when a multi-output function runs in one of its
    sub-forwards and an output that backward reads is consumed in the next one:
    f has outputs 1, 2 and its backward reads output 2 (as the batch mean of a batch
    normalisation); forward_all [3; 4] with 3 = dbl 1 and 4 = dbl 2. *)
Definition two_out : fn nat :=
  mkFn [0] [1; 2] (fun xs => [num (nth 0 xs None); S (num (nth 0 xs None))]) (fun _ => true)
       (fun _ => NOT_INPLACE) (fun _ => 0) false
       (fun _ _ => false) (fun _ o => Nat.eqb o 1) (fun _ => false).
Definition ref_g3 : graph nat :=
  mkGraph [two_out; simple [1] [3] dbl; simple [2] [4] dbl]
          [mkVar None 0 (Some true) false false false 1; nvar (Some 0) 1 1; nvar (Some 0) 2 1;
           nvar (Some 1) 3 0; nvar (Some 2) 4 0].
Theorem C36_forward_all_refuted :
  exists s', fst (forward_all ref_g3 false true [3; 4] ex_s) = Ok s' /\
    log s' = [0; 1; 2] /\ fng s' 0 = true /\ f_dep_out two_out 0 1 = true /\
    mem s' (arr ref_g3 2) = None.
Proof. eexists; split; [vm_compute; reflexivity|]. cbn. auto. Qed.
Print Assumptions C36_forward_all_refuted.

(** Non-vacuity of C36: the same function with a single forward keeps the data. *)
Example C36_example :
  exists s', forward (mkGraph [two_out; simple [2] [3] dbl]
     [mkVar None 0 (Some true) false false false 1; nvar (Some 0) 1 0; nvar (Some 0) 2 1; nvar (Some 1) 3 0])
     false true 3 ex_s = Ok s' /\ fng s' 0 = true /\ mem s' 2 = Some 6 /\ mem s' 3 = Some 12.
Proof. eexists; split; [vm_compute; reflexivity|]. cbn. auto. Qed.

(** A variable listed twice stays persistent for ever. *)
Theorem C37_duplicate_refuted :
  exists (g : graph nat) ys s, (forall y, In y ys -> is_var g y) /\
    v_persistent (var_at g 2) = false /\
    v_persistent (nth 2 (snd (forward_all g false false ys s)) dvar) = true.
Proof.
  exists ex_g2, [2; 2], ex_s. split; [|split; reflexivity].
  intros y [<-|[<-|[]]]; unfold is_var; cbn; lia.
Qed.
Print Assumptions C37_duplicate_refuted.
Example C37_example : NoDup [2; 1] /\ snd (forward_all ex_g2 false false [2; 1] ex_s) = g_vars ex_g2.
Proof. split; [repeat constructor; cbn; intuition discriminate|reflexivity]. Qed.
