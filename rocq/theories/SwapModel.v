(** Model of the scheduler that moves arrays between host and device memory
    (src/nbla/lms/swap_in_out_scheduler.cpp): how a schedule is made from the recorded order.

    A record is a get, cast or clear of an array in the first iteration; records are named by their
    index in the order, as pointers to records are in the code.  Arrays are named by their numbers
    (said).  [on_device] tells whether context_checker finds the context of the record to be of the
    device; the recorder (lines 1066-1073) refuses a context that is neither of host nor of device.
    A state that was never written is that of a new map entry (hpp:257-261).  Numbers of bytes are
    integers without bounds; only the difference that may be negative is reduced modulo 2^64.
    Records outside of the order, which would be undefined, are [no_record] except where a theorem
    is about them (Crash). *)
From Coq Require Import List ZArith Bool Arith.
Import ListNotations.
Local Open Scope list_scope.
Local Open Scope Z_scope.

(** hpp:100-119. *)
Inductive rtag := Get | Cast | Clear.
Record record := Rec { tag : rtag; said : nat; elements : Z; dtype : nat; on_device : bool; write_only : bool; created : bool; temporary : bool }.
Definition no_record : record := Rec Clear 0 0 0 false false false false.
(** hpp:229-261. *)
Inductive stag := Cleared | In | Out | Unprefetched | OutWaited | OutCleared.
Record astate := A { count : Z; state : stag; swapped : option nat }.
Inductive etag := SwapInGet | SwapInCast | SwapOut | Wait | Preclear.
Definition event : Type := etag * nat.
(** hpp:266-274, the schedules (276-278) and the types of head arrays: whether there is one, and the last
    type. *)
Record params := P { head : nat; tail : nat; fid : nat; prefetched : Z; ins : Z; outs : Z;
  states : nat -> nat -> astate; begins : nat -> list event; finals : nat -> list event; heads : nat -> bool * nat }.

Definition set_state (m : nat -> nat -> astate) (s d : nat) (a : astate) : nat -> nat -> astate :=
  fun s' d' => if (Nat.eqb s' s && Nat.eqb d' d)%bool then a else m s' d'.
Definition set {B : Type} (m : nat -> B) (k : nat) (b : B) : nat -> B := fun k' => if Nat.eqb k' k then b else m k'.
Definition is_clear (r : record) : bool := match tag r with Clear => true | _ => false end.
Definition is_out (t : stag) : bool := match t with Out | OutCleared => true | _ => false end.
Definition total {B : Type} (f : B -> Z) (l : list B) : Z := fold_right (fun b z => f b + z) 0 l.

(** lines 320-341, reconfirm_first_creation.  [head0 s] is the type of the array if it has one before
    the second iteration. *)
Fixpoint reconfirm (head0 : nat -> option nat) (cleared : nat -> bool) (order : list record) : list record :=
  match order with
  | [] => []
  | r :: order =>
      if is_clear r then r :: reconfirm head0 (set cleared (said r) true) order
      else (if (created r && match head0 (said r) with Some _ => true | None => false end && negb (cleared (said r)))%bool
            then Rec (tag r) (said r) (elements r) (dtype r) (on_device r) (write_only r) false (temporary r) else r)
           :: reconfirm head0 cleared order
  end.

Section scheduler.
(** The order after reconfirmation, func_block_ends, sizeof_dtype, max_bytes, max_prefetch_bytes,
    cast_prefetch. *)
Variables (order : list record) (ends : list nat) (sizeof : nat -> Z) (max_bytes max_prefetch : Z) (cast_prefetch : bool) (head0 : nat -> option nat).
Definition at_ (i : nat) : record := nth i order no_record.
Definition block_end (f : nat) : nat := nth f ends 0%nat.
Definition block_start (f : nat) : nat := match f with O => O | S g => block_end g end.
Definition block (f : nat) : list nat := seq (block_start f) (block_end f - block_start f).
(** The types in the map entry of an array. *)
Definition types_of (s : nat) : list nat :=
  nodup Nat.eq_dec (map dtype (filter (fun r => negb (is_clear r) && Nat.eqb (said r) s)%bool order)).
Definition bytes (r : record) (d : nat) : Z := elements r * sizeof d.

(** lines 145-157 *)
Definition first_heads : nat -> bool * nat := fun s => match head0 s with Some d => (true, d) | None => (false, 0%nat) end.
(** lines 159-190; the types of clears are counted, too. *)
Definition type_converted (s : nat) : bool :=
  Nat.ltb 1 (length (nodup Nat.eq_dec ((match head0 s with Some d => [d] | None => [] end) ++ map dtype (filter (fun r => Nat.eqb (said r) s) order)))).
(** lines 343-345 *)
Definition no_data_transfer (r : record) : bool := write_only r || created r.
(** lines 347-354 *)
Definition accumulate_counts (m : nat -> nat -> astate) (s : nat) : Z := total (fun d => count (m s d)) (types_of s).

(** * Clearing in advance, lines 841-872 *)
(** Going backwards through a block.  [trace s] is the block of the next clear of the array if there is no
    access between; [last] tells whether the last record of the array in this block is a clear. *)
Fixpoint preclear_block (f : nat) (indices : list nat) (trace : nat -> option nat) (last : nat -> option bool) (info : list (nat * bool)) : list (nat * bool) * (nat -> option nat) :=
  match indices with
  | [] => (info, trace)
  | i :: indices =>
      let r := at_ i in let s := said r in
      if is_clear r then preclear_block f indices (set trace s (Some f)) (match last s with None => set last s (Some true) | _ => last end) info
      else
        let last := match last s with None => set last s (Some false) | _ => last end in
        match trace s with
        | None => preclear_block f indices trace last info
        | Some g =>
            preclear_block f indices (set trace s None) last
              (if Nat.ltb f g then info ++ [(i, true)] else if match last s with Some true => true | _ => false end then info ++ [(i, false)] else info)
        end
  end.
(** From the last block to block 2.  An index below 0 wraps around and reads outside of the order: None. *)
Fixpoint preclear_blocks (n : nat) (f : nat) (trace : nat -> option nat) (acc : nat -> list (nat * bool)) : option (nat -> list (nat * bool)) :=
  match n with
  | O => Some acc
  | S n =>
      if Nat.ltb 1 f then
        if Nat.eqb (block_start f) 0 then None
        else let '(info, trace) := preclear_block f (rev (block f)) trace (fun _ => None) [] in
             preclear_blocks n (f - 1) trace (set acc f info)
      else Some acc
  end.
Definition clear_info : option (nat -> list (nat * bool)) := preclear_blocks (length ends) (length ends - 1) (fun _ => None) (fun _ => []).

(** * Steps *)
Definition push (m : nat -> list event) (f : nat) (e : event) : nat -> list event := set m f (m f ++ [e]).
(** Bytes of the types of an array that are in a state. *)
Definition bytes_in (m : nat -> nat -> astate) (r : record) (b : stag -> bool) : Z :=
  total (fun d => if b (state (m (said r) d)) then bytes r d else 0) (types_of (said r)).
(** All entries of an array. *)
Definition change (m : nat -> nat -> astate) (s : nat) (f : nat -> astate -> astate) : nat -> nat -> astate :=
  fun s' d => if Nat.eqb s' s then f d (m s' d) else m s' d.
Definition to (t : stag) (a : astate) : astate := A (count a) t (swapped a).
Definition is_Out (t : stag) : bool := match t with Out => true | _ => false end.
Definition is_In (t : stag) : bool := match t with In => true | _ => false end.

(** lines 811-839 *)
Definition wait (p : params) : params :=
  let i := tail p in let r := at_ i in let s := said r in
  let e := states p s (dtype r) in
  if (is_out (state e) && match swapped e with Some k => Nat.eqb k i | None => false end)%bool then
    let m := change (states p) s (fun _ a => match state a with Out => to OutWaited a | OutCleared => to Cleared a | _ => a end) in
    let a := m s (dtype r) in
    P (head p) (S i) (fid p) (prefetched p) (ins p) (outs p - bytes_in (states p) r is_Out)
      (set_state m s (dtype r) (A (count a) (state a) None)) (push (begins p) (fid p) (Wait, i)) (finals p) (heads p)
  else P (head p) (S i) (fid p) (prefetched p) (ins p) (outs p) (states p) (begins p) (finals p) (heads p).
(** lines 568-585; [n] is the number of records before the function.  Nobody uses the result. *)
Fixpoint free_memory (n : nat) (p : params) (needed : Z) : params :=
  match n with
  | O => p
  | S n => if max_bytes <? ins p + outs p + needed then free_memory n (wait p) needed else p
  end.
Definition waits_left (p : params) : nat := block_start (fid p) - tail p.
(** lines 535-566: the last swap out of the array is taken from the schedule. *)
Fixpoint erase_first (s : nat) (l : list event) : option (list event) :=
  match l with
  | [] => None
  | (t, i) :: l => if (Nat.eqb (said (at_ i)) s && match t with SwapOut => true | _ => false end)%bool then Some l
                   else option_map (cons (t, i)) (erase_first s l)
  end.
Fixpoint cancel_in (n : nat) (s : nat) (m : nat -> list event) : nat -> list event :=
  match n with
  | O => m
  | S n => match erase_first s (rev (m n)) with Some l => set m n (rev l) | None => cancel_in n s m end
  end.
Definition cancel_swap_out (p : params) (r : record) : params :=
  let b := bytes_in (states p) r is_out in
  P (head p) (tail p) (fid p) (prefetched p + b) (ins p + b) (outs p - bytes_in (states p) r is_Out)
    (change (states p) (said r) (fun _ a => if is_out (state a) then to In a else a)) (begins p) (cancel_in (length ends) (said r) (finals p)) (heads p).

(** lines 587-722, one round; None is break. *)
Definition fetched (p : params) (r : record) (b : Z) : params :=
  P (head p) (tail p) (fid p) (prefetched p + b) (ins p + b) (outs p) (set_state (states p) (said r) (dtype r) (to In (states p (said r) (dtype r)))) (begins p) (finals p) (heads p).
Definition first_fetch (p : params) (r : record) : option params :=
  let s := said r in let d := dtype r in let b := bytes r d in
  if ((max_prefetch <? prefetched p + b) || (max_bytes <? ins p + b))%bool then None else
  if on_device r then
    if is_out (state (states p s d)) then Some (cancel_swap_out p r)
    else if no_data_transfer r then
      Some (P (head p) (tail p) (fid p) (prefetched p + b) (ins p) (outs p) (set_state (states p) s d (to Unprefetched (states p s d))) (begins p) (finals p) (heads p))
    else
      let '(h, hd) := heads p s in
      let extra := if (h && negb (Nat.eqb hd d))%bool then bytes r hd else 0 in
      if max_bytes <? ins p + b + extra then None else
      let p := free_memory (waits_left p) p (b + extra) in
      let with_cast := (cast_prefetch && (negb (type_converted s) || (match tag r with Cast => true | _ => false end && (accumulate_counts (states p) s =? 0))))%bool in
      let p := P (head p) (tail p) (fid p) (prefetched p) (ins p) (outs p) (states p)
                 (push (begins p) (fid p) (if with_cast then SwapInCast else SwapInGet, head p)) (finals p)
                 (set (heads p) s (if with_cast then (true, d) else if h then (h, hd) else (false, d))) in
      Some (fetched p r b)
  else
    if is_out (state (states p s d)) then
      let o := bytes_in (states p) r is_Out in
      Some (P (head p) (tail p) (fid p) (prefetched p + o) (ins p + o) (outs p - o)
              (change (states p) s (fun _ a => match state a with Out => to In a | OutCleared => to Cleared a | _ => a end)) (begins p) (finals p) (heads p))
    else Some (fetched (free_memory (waits_left p) p b) r b).
(** Lines 718-720: one more of the array in the queue, and the next record. *)
Definition queued (p : params) (r : record) : params :=
  let a := states p (said r) (dtype r) in
  P (S (head p)) (tail p) (fid p) (prefetched p) (ins p) (outs p) (set_state (states p) (said r) (dtype r) (A (count a + 1) (state a) (swapped a))) (begins p) (finals p) (heads p).
Definition skipped (p : params) : params := P (S (head p)) (tail p) (fid p) (prefetched p) (ins p) (outs p) (states p) (begins p) (finals p) (heads p).
Fixpoint swap_in (n : nat) (stopper : nat -> nat) (p : params) : params :=
  match n with
  | O => p
  | S n =>
      let r := at_ (head p) in
      if is_clear r then swap_in n stopper (skipped p)
      else if Nat.ltb (fid p) (stopper (head p)) then p
      else if count (states p (said r) (dtype r)) =? 0
           then match first_fetch p r with None => p | Some p => swap_in n stopper (queued p r) end
           else swap_in n stopper (queued p r)
  end.

(** lines 724-800, one record. *)
Definition released (p : params) (r : record) : params :=
  let b := bytes_in (states p) r is_In in
  P (head p) (tail p) (fid p) (prefetched p - b) (ins p - b) (outs p) (change (states p) (said r) (fun _ => to Cleared)) (begins p) (finals p) (heads p).
Definition unheaded (p : params) (s : nat) : params :=
  P (head p) (tail p) (fid p) (prefetched p) (ins p) (outs p) (states p) (begins p) (finals p) (set (heads p) s (false, snd (heads p s))).
Definition at_end (p : params) (f : nat) (e : event) : params :=
  P (head p) (tail p) (fid p) (prefetched p) (ins p) (outs p) (states p) (begins p) (push (finals p) f e) (heads p).
Definition leave_one (info : list (nat * bool)) (f : nat) (p : params) (i : nat) : params :=
  let r := at_ i in let s := said r in
  if accumulate_counts (states p) s =? 1 then
    match find (fun x => Nat.eqb (fst x) i) info with
    | Some (_, true) => unheaded (at_end (released p r) f (Preclear, i)) s
    | Some (_, false) => released p r
    | None =>
        if temporary r then unheaded (released p r) s
        else
          let b := bytes_in (states p) r is_In in
          let hd := snd (heads p s) in
          let o := total (fun d => if (is_In (state (states p s d)) && Nat.eqb d hd)%bool then bytes r d else 0) (types_of s) in
          at_end (P (head p) (tail p) (fid p) (prefetched p - b) (ins p - b) (outs p + o)
            (change (states p) s (fun d a => if is_In (state a) then A (count a) (if Nat.eqb d hd then Out else OutCleared) (Some i) else a))
            (begins p) (finals p) (heads p)) f (SwapOut, i)
    end
  else p.
Definition dequeued (p : params) (r : record) : params :=
  let a := states p (said r) (dtype r) in
  P (head p) (tail p) (fid p) (prefetched p) (ins p) (outs p) (set_state (states p) (said r) (dtype r) (A (count a - 1) (state a) (swapped a))) (begins p) (finals p) (heads p).
Definition swap_out_one (info : list (nat * bool)) (f : nat) (p : params) (i : nat) : params :=
  if is_clear (at_ i) then p else dequeued (leave_one info f p i) (at_ i).
Definition swap_out (info : nat -> list (nat * bool)) (f : nat) (p : params) : params := fold_left (swap_out_one (info f) f) (block f) p.

(** lines 491-533, one record. *)
Definition seen (heads : nat -> bool * nat) (r : record) : nat -> bool * nat :=
  let '(h, hd) := heads (said r) in
  set heads (said r) (if h then (true, match tag r with Cast => dtype r | _ => hd end) else (true, dtype r)).
Definition before_one (p : params) (i : nat) : params :=
  let r := at_ i in
  if is_clear r then skipped p
  else
    let p := P (head p) (tail p) (fid p) (prefetched p) (ins p) (outs p) (states p) (begins p) (finals p) (seen (heads p) r) in
    queued (if count (states p (said r) (dtype r)) =? 0 then fetched p r (bytes r (dtype r)) else p) r.
Definition before_forward (p : params) : params := fold_left before_one (block 0) p.
(** lines 245-264 *)
Definition head_one (heads : nat -> bool * nat) (i : nat) : nat -> bool * nat :=
  let r := at_ i in
  if is_clear r then set heads (said r) (false, snd (heads (said r))) else seen heads r.
Definition heads_in (p : params) (f : nat) : params :=
  P (head p) (tail p) (fid p) (prefetched p) (ins p) (outs p) (states p) (begins p) (finals p) (fold_left head_one (block f) (heads p)).

(** * Memory for arrays that need no transfer, lines 356-395 and 397-468 *)
Definition pair_dec (a b : nat * nat) : {a = b} + {a <> b}.
Proof. decide equality; apply Nat.eq_dec. Defined.
Definition unprefetched (p : params) : list nat :=
  filter (fun i => let r := at_ i in (negb (is_clear r) && match state (states p (said r) (dtype r)) with Unprefetched => true | _ => false end)%bool) (block (fid p)).
(** Every array is counted once; the size is that of its last record. *)
Definition unprefetched_bytes (p : params) : Z :=
  let l := unprefetched p in
  total (fun '(s, d) => match find (fun i => Nat.eqb (said (at_ i)) s && Nat.eqb (dtype (at_ i)) d)%bool (rev l) with Some i => bytes (at_ i) d | None => 0 end)
        (nodup pair_dec (map (fun i => (said (at_ i), dtype (at_ i))) l)).
Inductive result (B : Type) := Got (b : B) | Again (stopper : nat -> nat) | NoMemory | Broken | Crash | NoFuel.
Arguments Got {B}. Arguments Again {B}. Arguments NoMemory {B}. Arguments Broken {B}. Arguments Crash {B}. Arguments NoFuel {B}.
Fixpoint backtrack (n : nat) (f : nat) (back : nat) (m : nat -> nat -> astate) (stopper : nat -> nat) (needed available : Z) : Z * (nat -> nat) :=
  match n with
  | O => (available, stopper)
  | S n =>
      let back := (back - 1)%nat in let r := at_ back in
      if is_clear r then backtrack n f back m stopper needed available
      else
        let one := accumulate_counts m (said r) =? 1 in
        let available := if one then available + bytes_in m r is_In else available in
        let stopper := if one then set stopper back (S f) else stopper in
        if needed <=? available then (available, stopper)
        else let a := m (said r) (dtype r) in
             backtrack n f back (set_state m (said r) (dtype r) (A (count a - 1) (state a) (swapped a))) stopper needed available
  end.
Definition size_t (z : Z) : Z := z mod 18446744073709551616.
Fixpoint make_room (n : nat) (stopper : nat -> nat) (p : params) (needed : Z) : result params :=
  if size_t (max_bytes - ins p - outs p) <? needed then
    match n with
    | O => let '(available, stopper) := backtrack (S (head p) - block_end (fid p)) (fid p) (head p) (states p) stopper needed (size_t (max_bytes - ins p - outs p)) in
           if available <? needed then NoMemory else Again stopper
    | S n => make_room n stopper (wait p) needed
    end
  else Got p.
Definition reserve_one (p : params) (i : nat) : params :=
  let r := at_ i in
  if is_clear r then p
  else match state (states p (said r) (dtype r)) with
       | Unprefetched => P (head p) (tail p) (fid p) (prefetched p) (ins p) (outs p) (set_state (states p) (said r) (dtype r) (to In (states p (said r) (dtype r)))) (begins p) (finals p) (heads p)
       | _ => p
       end.
Definition reserve (stopper : nat -> nat) (p : params) : result params :=
  let needed := unprefetched_bytes p in
  match make_room (waits_left p) stopper p needed with
  | Got p => Got (fold_left reserve_one (block (fid p)) (P (head p) (tail p) (fid p) (prefetched p) (ins p + needed) (outs p) (states p) (begins p) (finals p) (heads p)))
  | r => r
  end.

(** * The schedule, lines 198-316 *)
Definition start : params := P 0 0 0 0 0 0 (fun _ _ => A 0 Cleared None) (fun _ => []) (fun _ => []) first_heads.
Definition at_function (p : params) (f : nat) : params := P (head p) (tail p) f (prefetched p) (ins p) (outs p) (states p) (begins p) (finals p) (heads p).
Definition function_round (info : nat -> list (nat * bool)) (stopper : nat -> nat) (p : params) (f : nat) : result params :=
  match reserve stopper (swap_in (length order - head p) stopper (at_function p f)) with
  | Got p =>
      if Nat.ltb (head p) (block_end f) then NoMemory
      else let p := heads_in p f in
           Got (swap_out info f (if Nat.eqb f 1 then swap_out info 0 p else p))
  | r => r
  end.
Fixpoint rounds (info : nat -> list (nat * bool)) (stopper : nat -> nat) (fs : list nat) (p : params) : result params :=
  match fs with
  | [] => Got p
  | f :: fs => match function_round info stopper p f with Got p => rounds info stopper fs p | r => r end
  end.
Fixpoint wait_all (n : nat) (p : params) : params := match n with O => p | S n => wait_all n (wait p) end.
(** The checks of lines 290-314. *)
Definition finished (p : params) : bool :=
  (forallb (fun r => forallb (fun d => match state (states p (said r) d) with Cleared | OutWaited => true | _ => false end) (types_of (said r))) order
   && (prefetched p =? 0) && (ins p =? 0) && (outs p =? 0) && Nat.eqb (head p) (length order) && Nat.eqb (tail p) (length order))%bool.
Definition attempt (stopper : nat -> nat) : result params :=
  match clear_info with
  | None => Crash
  | Some info =>
      match rounds info stopper (seq 1 (length ends - 1)) (before_forward start) with
      | Got p =>
          let p := at_function p (length ends) in
          let p := wait_all (length order - tail p) p in
          if finished p then Got p else Broken
      | r => r
      end
  end.
Fixpoint attempts (fuel : nat) (stopper : nat -> nat) : result params :=
  match fuel with
  | O => NoFuel
  | S fuel => match attempt stopper with Again stopper => attempts fuel stopper | r => r end
  end.
End scheduler.
Definition schedule (fuel : nat) (order : list record) (ends : list nat) (sizeof : nat -> Z) (max_bytes max_prefetch : Z) (cast_prefetch : bool) (head0 : nat -> option nat) : result params :=
  attempts (reconfirm head0 (fun _ => false) order) ends sizeof max_bytes max_prefetch cast_prefetch head0 fuel (fun _ => 1%nat).
