(** C85 to C87: schedules of moves between host and device. *)
From Coq Require Import List ZArith Bool Arith Lia.
From Verif Require Import SwapModel SwapSpec SwapProofs1 SwapProofs8 SwapProofs11 SwapProofs12 SwapProofs14.
Import ListNotations.
Local Open Scope list_scope.
Local Open Scope Z_scope.

(** If every array has one type and what is used before the first function fits, making a schedule never
    ends with one of the checks that report a bug of the scheduler, and carrying out the schedule never
    needs more than the given memory.  Partial: programs that convert types of arrays are left out (they
    break the checks, see below); what the actual arrays and callbacks do is described by [act] and not
    modelled from their code. *)
Theorem C85_memory_partial : forall order ends sizeof weight max_bytes max_prefetch cast_prefetch head0 fuel,
  regular order ends sizeof weight max_bytes head0 -> load order weight (accesses ends 0) <= max_bytes ->
  schedule fuel order ends sizeof max_bytes max_prefetch cast_prefetch head0 <> Broken _ /\
  forall p, schedule fuel order ends sizeof max_bytes max_prefetch cast_prefetch head0 = Got _ p ->
  forall a b, whole order ends (begins p) (finals p) = a ++ b -> memory order weight (after order (at_start order ends) a) <= max_bytes.
Proof.
  intros order ends sizeof weight max_bytes max_prefetch cast_prefetch head0 fuel RG LD. destruct (whole_fine order ends sizeof weight max_bytes max_prefetch cast_prefetch head0 RG False fuel ltac:(contradiction) LD) as (A & B). split; [exact A |].
  intros p E a b W. exact (proj1 (B p E a b W)).
Qed.

(** Whenever a function accesses an array whose content it needs, the array is on the device already.
    Partial as above; and arrays are used on the device only, are made or written after a clear, and buffers
    of a function are used by no other function. *)
Theorem C85_resident_partial : forall order ends sizeof weight max_bytes max_prefetch cast_prefetch head0 fuel,
  regular order ends sizeof weight max_bytes head0 -> load order weight (accesses ends 0) <= max_bytes -> disciplined order ends ->
  forall p, schedule fuel order ends sizeof max_bytes max_prefetch cast_prefetch head0 = Got _ p ->
  forall a i b, whole order ends (begins p) (finals p) = a ++ Used i :: b -> needs_content head0 order i -> after order (at_start order ends) a (said (nth i order no_record)) = Resident.
Proof.
  intros order ends sizeof weight max_bytes max_prefetch cast_prefetch head0 fuel RG LD DS p E a i b W N. destruct (whole_fine order ends sizeof weight max_bytes max_prefetch cast_prefetch head0 RG True fuel (fun _ => DS) LD) as (_ & B).
  apply (proj2 (B p E a (Used i :: b) W) i b eq_refl Logic.I N).
Qed.

(** Making a schedule ends: for any order there are at most as many attempts as records times blocks, and one. *)
Theorem C86_ends : forall order ends sizeof max_bytes max_prefetch cast_prefetch head0 fuel,
  (forall f, (S f < length ends)%nat -> (nth f ends 0 <= nth (S f) ends 0)%nat) -> (length order * length ends < fuel)%nat ->
  schedule fuel order ends sizeof max_bytes max_prefetch cast_prefetch head0 <> NoFuel _.
Proof.
  intros order ends sizeof max_bytes max_prefetch cast_prefetch head0 fuel BL FU. unfold schedule. apply (attempts_enough _ ends sizeof max_bytes max_prefetch cast_prefetch head0 BL fuel). rewrite first_measure, reconfirm_length. exact FU.
Qed.

(** If the arrays used by a function fit, those used before and by the first function together, then there
    is a schedule.  Partial as above. *)
Theorem C86_exists_partial : forall order ends sizeof weight max_bytes max_prefetch cast_prefetch head0 fuel,
  regular order ends sizeof weight max_bytes head0 -> (length order * length ends < fuel)%nat -> (3 <= length ends -> 0 < nth 1 ends 0)%nat ->
  load order weight (accesses ends 0 ++ accesses ends 1) <= Z.min max_bytes max_prefetch ->
  (forall f, (2 <= f < length ends)%nat -> load order weight (accesses ends f) <= Z.min max_bytes max_prefetch) ->
  exists p, schedule fuel order ends sizeof max_bytes max_prefetch cast_prefetch head0 = Got _ p.
Proof. intros order ends sizeof weight max_bytes max_prefetch cast_prefetch head0 fuel RG. apply schedule_total. exact RG. Qed.

(** An array is cleared in advance after a function only if the next record of it is a clear in a later
    function.  This holds for any types. *)
Theorem C87_preclear : forall order ends sizeof max_bytes max_prefetch cast_prefetch head0 fuel p,
  (forall f, (S f < length ends)%nat -> (nth f ends 0 <= nth (S f) ends 0)%nat) ->
  schedule fuel order ends sizeof max_bytes max_prefetch cast_prefetch head0 = Got _ p ->
  (forall f i, ~ List.In (Preclear, i) (begins p f)) /\
  forall f i, List.In (Preclear, i) (finals p f) -> List.In i (accesses ends f) /\ tag (nth i order no_record) <> Clear /\
  exists g c, (f < g)%nat /\ (i < c)%nat /\ List.In c (accesses ends g) /\ tag (nth c order no_record) = Clear /\ said (nth c order no_record) = said (nth i order no_record) /\
  forall k, (i < k < c)%nat -> said (nth k order no_record) <> said (nth i order no_record).
Proof.
  intros order ends sizeof max_bytes max_prefetch cast_prefetch head0 fuel p BL E. unfold schedule in E. destruct (early_attempts _ ends sizeof max_bytes max_prefetch cast_prefetch head0 fuel p BL _ E) as (E1 & E2). split; [exact E2 |].
  intros f i I. destruct (E1 f i I) as (A1 & A2 & g & G & c & C1 & C2 & C3 & C4 & C5). unfold at_ in *. destruct (fields order head0 i) as (F1 & F2 & _). destruct (fields order head0 c) as (G1 & G2 & _). rewrite SwapProofs7.accesses_block. split; [exact A1 |].
  apply no_clear in A2. rewrite F1 in A2. split; [exact A2 |]. exists g, c. rewrite SwapProofs7.accesses_block. apply yes_clear in C3. rewrite G1 in C3. split; [exact G | split; [lia | split; [exact C2 | split; [exact C3 | split; [congruence |]]]]].
  intros k K. destruct (fields order head0 k) as (K1 & K2 & _). rewrite <- K2, <- F2. apply C5. lia.
Qed.

(** * Examples *)
Definition ex_get s := Rec Get s 2 0 true false false false.
Definition ex_make s := Rec Get s 2 0 true true true false.
Definition ex_clear s := Rec Clear s 2 0 true false false false.
Definition ex_buffer s := Rec Get s 1 0 true false true true.
Definition ex_order : list record := [ex_get 0; ex_get 0; ex_make 1; ex_get 1; ex_make 2; ex_clear 1; ex_get 2; ex_buffer 4; ex_make 3; ex_get 3; ex_get 0; ex_clear 2; ex_clear 3].
Definition ex_ends : list nat := [1; 3; 6; 9; 11; 13]%nat.
Definition ex_weight (s : nat) : Z := if Nat.eqb s 4 then 1 else 2.
Definition ex_head (s : nat) : option nat := if Nat.eqb s 0 then Some 0%nat else None.
Definition shown (r : result params) : option (list (list event) * list (list event)) := match r with Got _ p => Some (map (begins p) (seq 0 7), map (finals p) (seq 0 7)) | _ => None end.
Example C85_regular : regular ex_order ex_ends (fun _ => 1) ex_weight 5 ex_head.
Proof.
  split; [split; [discriminate | split; [| reflexivity]] | split; [cbn; lia | split; [| reflexivity]]].
  - intros f F. cbn in F. do 5 (destruct f as [| f]; [cbn; lia |]). lia.
  - exists (fun _ => 0%nat). split; [| split].
    + intros r R _. cbn in R. repeat (destruct R as [<- | R]; [split; reflexivity |]). destruct R.
    + intros s d. unfold ex_head. destruct (Nat.eqb s 0); intros E; [injection E as <-; reflexivity | discriminate].
    + intros s. unfold ex_weight. destruct (Nat.eqb s 4); lia.
Qed.
(** The array 0 leaves after function 1 and comes back before function 4; 2 and 3 are freed early. *)
Example C85_schedule : shown (schedule 79 ex_order ex_ends (fun _ => 1) 5 8 true ex_head) =
  Some ([[]; []; [(Wait, 1%nat)]; []; [(SwapInCast, 10%nat)]; []; [(Wait, 10%nat)]],
        [[]; [(SwapOut, 1%nat)]; []; [(Preclear, 6%nat)]; [(Preclear, 9%nat); (SwapOut, 10%nat)]; []; []]).
Proof. vm_compute. reflexivity. Qed.
Example C86_loads : (load ex_order ex_weight (accesses ex_ends 0 ++ accesses ex_ends 1), map (fun f => load ex_order ex_weight (accesses ex_ends f)) [2; 3; 4; 5]%nat) = (4, [4; 5; 4; 0]).
Proof. reflexivity. Qed.
Example C85_disciplined : disciplined ex_order ex_ends.
Proof.
  split; [| split].
  - intros r R T. cbn in R. repeat (destruct R as [<- | R]; [reflexivity |]). destruct R.
  - intros c j LC C (U1 & U2 & U3 & _). cbn in LC, U1. do 13 (destruct c as [| c]; [try discriminate C; do 13 (destruct j as [| j]; [cbn in *; try discriminate; try (exfalso; congruence); try lia |]); lia |]). lia.
  - intros f i j I T TM J TJ. assert (E : i = 7%nat). { do 13 (destruct i as [| i]; [try reflexivity; discriminate TM |]). destruct i; discriminate TM. }
    subst i. assert (F : f = 3%nat) by (do 6 (destruct f as [| f]; [cbn in I; try reflexivity; repeat (destruct I as [I | I]; [discriminate |]); destruct I |]); destruct f; cbn in I; destruct I).
    subst f. cbn in J. do 13 (destruct j as [| j]; [try lia; cbn; discriminate |]). lia.
Qed.
(** Records 6 and 9 are the last ones of their arrays before the clears 11 and 12 in the last function. *)
Example C87_example : (List.In 6%nat (accesses ex_ends 3), map (fun i => said (nth i ex_order no_record)) [6; 11; 9; 12]%nat, map (fun i => tag (nth i ex_order no_record)) [11; 12]%nat) = (List.In 6%nat [6; 7; 8]%nat, [2; 2; 3; 3]%nat, [Clear; Clear]).
Proof. reflexivity. Qed.
(** Nothing fits twice: with less memory there is no schedule. *)
Example C86_too_small : schedule 79 ex_order ex_ends (fun _ => 1) 4 8 true ex_head = NoMemory _.
Proof. vm_compute. reflexivity. Qed.

(** * Refutations *)
(** One array with two types: the checks at the end find bytes that were never returned. *)
Definition ex_typed (t : rtag) (s : nat) (n : Z) (d : nat) (c : bool) := Rec t s n d true false c false.
Theorem C85_types_refuted : exists order ends, (forall f, (S f < length ends)%nat -> (nth f ends 0 <= nth (S f) ends 0)%nat) /\ nth (length ends - 1) ends 0%nat = length order /\ (2 <= length ends)%nat /\
  (forall r r', List.In r order -> List.In r' order -> said r = said r' -> elements r = elements r') /\ schedule 100 order ends (fun _ => 1) 4 8 true (fun _ => None) = Broken _.
Proof.
  exists [ex_typed Get 1 3 0 true; ex_typed Get 0 1 0 true; ex_typed Cast 0 1 1 false; ex_typed Clear 0 1 0 false], [2; 2; 4]%nat. split; [| split; [reflexivity | split; [cbn; lia | split; [| vm_compute; reflexivity]]]].
  - intros f F. cbn in F. do 2 (destruct f as [| f]; [cbn; lia |]). lia.
  - intros r r' R R' E. cbn in R, R'. repeat (destruct R as [<- | R]; [repeat (destruct R' as [<- | R']; [cbn in *; congruence |]); destruct R' |]). destruct R.
Qed.
(** No function: the arrays used before are never given back. *)
Theorem C85_no_function_refuted : schedule 100 [ex_get 0] [1%nat] (fun _ => 1) 4 8 true (fun _ => None) = Broken _.
Proof. vm_compute. reflexivity. Qed.
(** Nothing is accessed before and in the first function: an index below the first record. *)
Theorem C86_nothing_first_refuted : schedule 100 [ex_get 0] [0; 0; 1]%nat (fun _ => 1) 4 8 true (fun _ => None) = Crash _.
Proof. vm_compute. reflexivity. Qed.
(** What is used before the first function and what it uses fit, but not together. *)
Theorem C86_together_refuted : let order := [ex_get 0; ex_get 1] in let ends := [1; 2]%nat in
  load order (fun _ => 2) (accesses ends 0) = 2 /\ load order (fun _ => 2) (accesses ends 1) = 2 /\ schedule 100 order ends (fun _ => 1) 3 8 true (fun _ => None) = NoMemory _.
Proof. vm_compute. auto. Qed.
(** Nobody looks at the memory used before the first function. *)
Theorem C85_before_refuted : exists p, schedule 100 [ex_get 0; ex_buffer 1] [1; 1; 2]%nat (fun _ => 1) 1 8 true (fun _ => None) = Got _ p /\ memory [ex_get 0; ex_buffer 1] (fun _ => 2) (at_start [ex_get 0; ex_buffer 1] [1; 1; 2]%nat) = 2.
Proof. eexists. split; [vm_compute; reflexivity | reflexivity]. Qed.

Print Assumptions C85_memory_partial.
Print Assumptions C85_resident_partial.
Print Assumptions C86_ends.
Print Assumptions C86_exists_partial.
Print Assumptions C87_preclear.
