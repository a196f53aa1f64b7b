(** C31: prefetching cache readers deliver the requested examples. *)
From Coq Require Import String List Bool Arith ZArith Lia.
From Verif Require Import PrefModel PrefSpec PrefProofs PrefProofs2.
Import ListNotations.
Local Open Scope string_scope.
Local Open Scope list_scope.

Lemma no_threads_get content failures schedule m s pos : pfs (reader s) = [] -> cur_name s = None ->
  get_data content failures schedule m s pos =
  match nth_error (order s) pos with None => IndexError | Some _ => NameError end.
Proof.
  intros E C. unfold get_data. destruct (nth_error (order s) pos) as [[f i]|]; [|reflexivity].
  rewrite C, E. cbn [names_eq]. unfold open_cache. rewrite E. cbn. rewrite E. reflexivity.
Qed.
Lemma no_threads_run content failures schedule m ops : forall s, pfs (reader s) = [] -> cur_name s = None ->
  exists k e, fst (run content failures schedule m s ops) =
    firstn k (direct_answers content (order s) ops) ++ e /\ (e = [] \/ e = [NameError]).
Proof.
  induction ops as [|[pos|ord] ops IH]; intros s E C; cbn [run direct_answers].
  - exists 0, []. auto.
  - rewrite (no_threads_get _ _ _ _ _ _ E C). unfold direct. destruct (nth_error (order s) pos) as [[f i]|].
    + exists 0, [NameError]. auto.
    + exists 1, []. auto.
  - apply (IH (reset s ord)); [exact E|reflexivity].
Qed.

(** ** Whatever is delivered is what was asked for.
    For all contents of the files, numbers of threads, schedules of the workers,
    and sequences of reads and resets: the answers are those of reading the files
    directly, one by one, until the process is killed or there are no threads to
    read with. *)
Theorem C31_delivered : forall content failures schedule threads m ord ops,
  exists k e,
    fst (run content failures schedule m (new_source threads ord) ops) =
    firstn k (direct_answers content ord ops) ++ e /\
    (e = [] \/ e = [Killed] \/ (threads = 0 /\ e = [NameError])).
Proof.
  intros content failures schedule [|n] m ord ops.
  - destruct (no_threads_run content failures schedule m ops (new_source 0 ord) eq_refl eq_refl) as (k & e & H & K).
    exists k, e. split; [exact H|]. destruct K; auto.
  - assert (X := run_spec content failures schedule (fun _ => True) n m ops (new_source (S n) ord)
                   (new_source_inv content failures (fun _ => True) n ord (fun _ _ => I)) (fun _ _ => I)).
    cbn zeta in X. cbn [order new_source] in X. destruct X as [X|[(k & X) _]].
    + exists (List.length (direct_answers content ord ops)), []. rewrite firstn_all, app_nil_r. auto.
    + exists k, [Killed]. auto.
Qed.
Print Assumptions C31_delivered.

(** ** Nothing is missing: if there is a thread and every file named by the orders
    can be read, the answers are exactly those of reading directly.  In particular
    the main thread never waits for ever. *)
Theorem C31_all_delivered : forall content failures schedule threads m ord ops,
  threads <> 0 ->
  (forall f, In f (files_of ord ops) -> readable content failures f) ->
  fst (run content failures schedule m (new_source threads ord) ops) = direct_answers content ord ops.
Proof.
  intros content failures schedule [|n] m ord ops Ht Hr; [congruence|].
  set (ok := fun f => In f (files_of ord ops)).
  assert (I : SrcInv content failures ok n (new_source (S n) ord)).
  { apply new_source_inv. intros f Hf. unfold ok. destruct ops as [|[|] ops]; cbn; apply in_app_iff; now left. }
  destruct (run_spec content failures schedule ok n m ops _ I) as [X|[_ (f & Hf & K)]].
  - intros f Hf. exact Hf.
  - exact X.
  - exfalso. apply K, Hr, Hf.
Qed.
Print Assumptions C31_all_delivered.

(** ** After any such sequence the reader can be closed: every worker finishes its
    work and stops, and closing again does nothing. *)
Theorem C31_close : forall content failures schedule threads m ord ops,
  threads <> 0 ->
  (forall f, In f (files_of ord ops) -> readable content failures f) ->
  let s := reader (snd (run content failures schedule m (new_source threads ord) ops)) in
  exists s', close_all content failures schedule threads 0 s = Done s' /\
    List.length (pfs s') = threads /\
    (forall p, In p (pfs s') -> alive p = false /\ pq p = [] /\ work p = None) /\
    close_all content failures schedule threads 0 s' = Done s'.
Proof.
  intros content failures schedule [|n] m ord ops Ht Hr s; [congruence|].
  set (ok := fun f => In f (files_of ord ops)).
  assert (I : SrcInv content failures ok n (new_source (S n) ord)).
  { apply new_source_inv. intros f Hf. unfold ok. destruct ops as [|[|] ops]; cbn; apply in_app_iff; now left. }
  assert (I' := run_inv content failures schedule ok n m ops _ I (fun f Hf => Hf)).
  fold s in I'. destruct I' as [R _]. fold s in R. assert (Ln : List.length (pfs s) = S n) by apply R.
  assert (G := close_all_good content failures schedule ok (S n) 0 s (Ready_CloseInv _ _ _ _ _ R) (eq_sym Ln)).
  destruct (close_all content failures schedule (S n) 0 s) as [s'| | | | |]; cbn [good] in G; try contradiction.
  - destruct G as [C L]. exists s'. split; [reflexivity|]. split; [congruence|].
    rewrite Ln in L. cbn [Nat.add] in C. rewrite <- L in C. apply closed_forall in C. split.
    + intros p Hp. rewrite Forall_forall in C. destruct (C p Hp) as (A1 & _ & A3 & A4). auto.
    + apply (close_again content failures schedule). exact C.
  - destruct G as (f & Hf & K). exfalso. apply K, Hr, Hf.
Qed.
Print Assumptions C31_close.

(** ** Nothing is kept or read needlessly.  After any sequence of operations: a
    prefetcher that has announced no file holds no data and has nothing to do; one
    that is reading holds no older data; and no two have announced the same file. *)
Theorem C31_no_waste : forall content failures schedule threads m ord ops,
  let l := pfs (reader (snd (run content failures schedule m (new_source threads ord) ops))) in
  (forall p, In p l -> fname p = None -> pq p = [] /\ work p = None /\ pdata p = SNone) /\
  (forall p, In p l -> work p <> None -> pdata p = SEmpty) /\
  (forall j k p q f, nth_error l j = Some p -> nth_error l k = Some q ->
     fname p = Some f -> fname q = Some f -> j = k).
Proof.
  intros content failures schedule threads m ord ops l.
  destruct (run_tidy content failures schedule m ops (new_source threads ord) (new_tidy threads ord)) as [T1 T2]. fold l in T1, T2.
  split; [|split; [|exact T2]].
  - intros p Hp F. apply In_nth_error in Hp as (j & E). destruct (T1 j p E) as [A _]. destruct (A F) as [X|X]; [discriminate|exact X].
  - intros p Hp. apply In_nth_error in Hp as (j & E). apply (T1 j p E).
Qed.
Print Assumptions C31_no_waste.

(** ** Examples *)
Definition files3 (f : string) : option arrays :=
  if String.eqb f "a" then Some [[1; 2]; [10; 20]]%Z
  else if String.eqb f "b" then Some [[3; 4]; [30; 40]]%Z
  else if String.eqb f "c" then Some [[5]; [50]]%Z else None.
Definition order3 : list (string * nat) := [("a", 1); ("a", 0); ("c", 0); ("b", 0); ("b", 1)].
(** The workers sleep, run at once, or take turns. *)
Definition lazy_workers (t : nat) : list nat := [].
Definition eager_workers (t : nat) : list nat := [0; 0; 1; 1; 2; 2].
Definition turns (t : nat) : list nat := [Nat.modulo t 3].
Definition ops3 : list op :=
  [Get 0; Get 1; Get 2; Get 3; Get 4; Get 0; Reset [("b", 1); ("c", 0)]; Get 1; Get 0; Get 7].

Example C31_example :
  let answers := [Done [2; 20]; Done [1; 10]; Done [5; 50]; Done [3; 30]; Done [4; 40]; Done [2; 20];
                  Done [5; 50]; Done [4; 40]; IndexError]%Z in
  direct_answers files3 order3 ops3 = answers /\
  fst (run files3 (fun _ => 0) lazy_workers 2 (new_source 3 order3) ops3) = answers /\
  fst (run files3 (fun _ => 9) eager_workers 2 (new_source 3 order3) ops3) = answers /\
  fst (run files3 (fun _ => 0) turns 2 (new_source 3 order3) ops3) = answers.
Proof. vm_compute. auto. Qed.

(** The prefetchers do fetch: after the first read with eager workers, two files
    are waiting to be used. *)
Example C31_example_prefetched :
  map pdata (pfs (reader (snd (run files3 (fun _ => 0) eager_workers 1
     (new_source 3 [("a", 0); ("b", 0); ("c", 0)]) [Get 0])))) =
  [SData [[3; 4]; [30; 40]]%Z; SNone; SNone] /\
  map fname (pfs (reader (snd (run files3 (fun _ => 0) eager_workers 1
     (new_source 3 [("a", 0); ("b", 0); ("c", 0)]) [Get 0])))) =
  [Some "b"; Some "c"; None].
Proof. vm_compute. auto. Qed.

Example C31_close_example :
  match close_all files3 (fun _ => 0) turns 3 0
          (reader (snd (run files3 (fun _ => 0) turns 2 (new_source 3 order3) [Get 0; Get 3]))) with
  | Done s => forallb (fun p => negb (alive p)) (pfs s)
  | _ => false
  end = true.
Proof. reflexivity. Qed.

(** ** What does not hold *)

(** Prefetching reads files nobody has asked for yet; one that cannot be read
    kills the process although every example asked for could be delivered. *)
Theorem C31_unreadable_refuted : exists content failures schedule ord ops,
  (forall pos f i, In (Get pos) ops -> nth_error ord pos = Some (f, i) -> readable content failures f) /\
  direct_answers content ord ops = [Done [1]; Done [3]]%Z /\
  fst (run content failures schedule 2 (new_source 2 ord) ops) = [Done [1]; Killed]%Z.
Proof.
  exists (fun f => if String.eqb f "a" then Some [[1; 2]]%Z else if String.eqb f "c" then Some [[3]]%Z else None),
         (fun _ => 0), lazy_workers, [("a", 0); ("a", 1); ("missing", 0); ("c", 0)], [Get 0; Get 3].
  split; [|split; reflexivity].
  intros pos f i [[= <-]|[[= <-]|[]]] [= <- <-]; split; cbn; try discriminate; lia.
Qed.
Print Assumptions C31_unreadable_refuted.

(** With no threads (the configuration entry data_source_file_cache_num_of_threads = 0,
    which _get_data tests for) nothing can be read: [cf] is not bound. *)
Theorem C31_no_threads_refuted : exists content schedule ord,
  (forall f, In f (map fst ord) -> readable content (fun _ => 0) f) /\
  direct_answers content ord [Get 0] = [Done [1]]%Z /\
  fst (run content (fun _ => 0) schedule 1 (new_source 0 ord) [Get 0]) = [NameError].
Proof.
  exists (fun _ => Some [[1]]%Z), lazy_workers, [("a", 0)]. split; [|split; reflexivity].
  intros f _. split; [discriminate|cbn; lia].
Qed.
Print Assumptions C31_no_threads_refuted.

(** A reader used after it was closed can wait for ever for a stopped worker. *)
Theorem C31_closed_refuted : exists content schedule s s1 s2 d,
  close_all content (fun _ => 0) schedule 1 0 {| pfs := [new_pf]; clock := 0 |} = Done s /\
  open_cache content (fun _ => 0) schedule s "a" ["b"] = Done (s1, d) /\
  open_cache content (fun _ => 0) schedule s1 "b" [] = s2 /\ s2 = Blocked.
Proof.
  exists (fun _ => Some [[1]]%Z), lazy_workers.
  eexists _, _, _, _. split; [vm_compute; reflexivity|]. split; [vm_compute; reflexivity|].
  split; [vm_compute; reflexivity|]. reflexivity.
Qed.
Print Assumptions C31_closed_refuted.
