(* Model of the synchronised array: src/nbla/synced_array.cpp and
   include/nbla/synced_array.hpp (class SyncedArray), with the parts of
   src/nbla/nd_array.cpp (narrow) and src/nbla/array/array.cpp it rests on.

   A SyncedArray keeps one logical array in several physical copies, one per
   key (device, array group and data type).  Copies are made on demand; zero
   and fill are evaluated lazily; narrow makes a child that shares a part of
   the memory of its parent.

   Simplifications, for the whole file:
   - a key "device:group:dtype" is a number; the keys of children
     "parentkey:offset:size" are that number with a list of (offset,size);
     the strings of distinct keys are assumed distinct;
   - an element is a value of an abstract type V; copying between two keys
     applies an elementwise conversion [conv]; zero and fill write [litval];
   - the array class of the head only selects the copy routine, which is
     [conv] in all cases; events and asynchronous copies are complete when
     the call returns; callbacks and reference counts from Python are absent;
   - a memory block is an identifier into a heap of element functions; the
     contents of a fresh block are whatever the initial heap holds, so they
     are arbitrary. *)
From Coq Require Import List Arith Bool Lia.
Import ListNotations.

(* dtype/context key, then (offset, size) of each narrowing below the root:
   create_key, synced_array.cpp:56-64. *)
Definition key : Type := (nat * list (nat * nat))%type.

Definition pair_eqb (a b : nat * nat) : bool :=
  Nat.eqb (fst a) (fst b) && Nat.eqb (snd a) (snd b).

Fixpoint offs_eqb (a b : list (nat * nat)) : bool :=
  match a, b with
  | [], [] => true
  | x :: a, y :: b => pair_eqb x y && offs_eqb a b
  | _, _ => false
  end.

Definition key_eqb (a b : key) : bool :=
  Nat.eqb (fst a) (fst b) && offs_eqb (snd a) (snd b).

(* An Array object: its memory block and offset (array.hpp:60-108, array.cpp:
   25-29).  The size is that of the SyncedArray, the dtype that of the key. *)
Record arr := mkarr { amem : nat; aoff : nat }.

Section Sync.
  (* Elements, float arguments of fill. *)
  Variables V F : Type.

  (* What a lazy request writes: zero() or fill(v). *)
  Inductive lit := Zero | Fill (v : F).

  (* Array::copy_from between data types; Array::zero and Array::fill. *)
  Variable conv : nat -> nat -> V -> V.
  Variable litval : nat -> lit -> V.

  (* The fields of SyncedArray, synced_array.hpp:44-77.  [head] = None is the
     empty key of a fresh array.  [fillv] is fill_value_, uninitialised at
     first. *)
  Record nd := mknd {
    head : option key;                      (* head_.key *)
    zlazy : bool;                           (* zeroing_lazy_eval_ *)
    flazy : option F;                       (* filling_lazy_eval_, fill_value_ *)
    zing : bool;                            (* zeroing_ *)
    size : nat;                             (* size_ *)
    offset : nat;                           (* offset_ *)
    arrs : list (key * (arr * bool));       (* array_: key -> (array, at head) *)
    count : nat;                            (* modification_count_ *)
    cleared : bool                          (* clear_called_ *)
  }.

  (* The tree given by parent_ and children_.  Children are named so that
     histories can refer to them. *)
  Inductive tree := Node (name : nat) (d : nd) (kids : list tree).

  Definition tname (t : tree) : nat := match t with Node n _ _ => n end.
  Definition tdata (t : tree) : nd := match t with Node _ d _ => d end.
  Definition tkids (t : tree) : list tree := match t with Node _ _ cs => cs end.

  Record state := mkst { root : tree; heap : nat -> nat -> V; next : nat }.

  (* std::map lookups and insertion. *)
  Fixpoint kget (k : key) (l : list (key * (arr * bool))) : option (arr * bool) :=
    match l with
    | [] => None
    | (k', x) :: l => if key_eqb k' k then Some x else kget k l
    end.

  Fixpoint kput (k : key) (x : arr * bool) (l : list (key * (arr * bool)))
    : list (key * (arr * bool)) :=
    match l with
    | [] => [(k, x)]
    | (k', y) :: l => if key_eqb k' k then (k, x) :: l else (k', y) :: kput k x l
    end.

  (* Field updates. *)
  Definition set_head h d :=
    mknd h (zlazy d) (flazy d) (zing d) (size d) (offset d) (arrs d) (count d) (cleared d).
  Definition set_arrs a d :=
    mknd (head d) (zlazy d) (flazy d) (zing d) (size d) (offset d) a (count d) (cleared d).
  Definition set_flags z f d :=
    mknd (head d) z f (zing d) (size d) (offset d) (arrs d) (count d) (cleared d).
  Definition set_zing z d :=
    mknd (head d) (zlazy d) (flazy d) z (size d) (offset d) (arrs d) (count d) (cleared d).
  Definition set_count c d :=
    mknd (head d) (zlazy d) (flazy d) (zing d) (size d) (offset d) (arrs d) c (cleared d).
  Definition set_cleared c d :=
    mknd (head d) (zlazy d) (flazy d) (zing d) (size d) (offset d) (arrs d) (count d) c.

  (* SyncedArray::SyncedArray(size), synced_array.cpp:67-70. *)
  Definition new_root (n : nat) : nd := mknd None true None false n 0 [] 0 false.

  (* The child constructor before arrays are created, synced_array.cpp:72-76. *)
  Definition new_child (n o : nat) : nd := mknd None false None false n o [] 0 false.

  (* has_head_array, synced_array.hpp:143. *)
  Definition has_head (d : nd) : bool :=
    match head d, arrs d with Some _, _ :: _ => true | _, _ => false end.

  (* head_array, synced_array.cpp:241-245. *)
  Definition head_arr (d : nd) : option (arr * bool) :=
    match head d with Some k => kget k (arrs d) | None => None end.

  (* The idiom "keep only the head array": synced_array.cpp:184-186, 263-266,
     499-501. *)
  Definition keep_head (d : nd) : nd :=
    match head d, head_arr d with
    | Some k, Some x => set_arrs [(k, x)] d
    | _, _ => set_arrs [] d
    end.

  (* clear_flags, synced_array.cpp:511-514. *)
  Definition clear_flags (d : nd) : nd := set_flags false None d.

  (* clear_all_array, synced_array.cpp:482-487. *)
  Definition clear_all (d : nd) : nd :=
    set_cleared true (set_count 0 (clear_flags (set_arrs [] d))).

  (* create_array_from_parent, synced_array.cpp:108-118: the memory is that of
     the parent's head array; the offset is parent_->offset() + offset_, where
     offset() is the offset_ of the parent within ITS parent. *)
  Definition from_parent (pd d : nd) : nd :=
    match head pd, head_arr pd with
    | Some pk, Some (a, _) =>
        let k := (fst pk, snd pk ++ [(offset d, size d)]) in
        set_head (Some k) (set_arrs (kput k (mkarr (amem a) (offset pd + offset d), false) (arrs d)) d)
    | _, _ => d
    end.

  (* create_array_descendants, synced_array.cpp:120-129. *)
  Fixpoint create_kid (pd : nd) (t : tree) : tree :=
    match t with
    | Node n d cs =>
        if has_head d then t
        else let d' := from_parent pd d in Node n d' (map (create_kid d') cs)
    end.
  Definition create_desc (t : tree) : tree :=
    match t with Node n d cs => Node n d (map (create_kid d) cs) end.

  (* clear_all_array_descendants, synced_array.cpp:489-508, including the early
     return at the first child without a head array. *)
  Fixpoint clear_tree (keep : bool) (t : tree) : tree :=
    match t with
    | Node n d cs =>
        Node n (if keep then keep_head d else clear_all d)
          ((fix go (l : list tree) : list tree :=
              match l with
              | [] => []
              | c :: r => if has_head (tdata c) then clear_tree keep c :: go r else c :: r
              end) cs)
    end.
  Fixpoint clear_list (keep : bool) (l : list tree) : list tree :=
    match l with
    | [] => []
    | c :: r => if has_head (tdata c) then clear_tree keep c :: clear_list keep r else c :: r
    end.
  Definition clear_desc (keep : bool) (t : tree) : tree :=
    match t with Node n d cs => Node n d (clear_list keep cs) end.

  (* A change made to every node of a subtree, or to its strict descendants:
     clear_flags_descendants (synced_array.cpp:452-459) and
     propagate_zeroing_flag_descendants (518-525). *)
  Fixpoint all_nodes (f : nd -> nd) (t : tree) : tree :=
    match t with Node n d cs => Node n (f d) (map (all_nodes f) cs) end.
  Definition desc_nodes (f : nd -> nd) (t : tree) : tree :=
    match t with Node n d cs => Node n d (map (all_nodes f) cs) end.

  (* Writing n elements through an Array. *)
  Definition write (h : nat -> nat -> V) (a : arr) (n : nat) (w : nat -> V) : nat -> nat -> V :=
    fun m i =>
      if Nat.eqb m (amem a) && Nat.leb (aoff a) i && Nat.ltb i (aoff a + n)
      then w (i - aoff a) else h m i.

  Definition read (h : nat -> nat -> V) (a : arr) : nat -> V := fun j => h (amem a) (aoff a + j).

  Definition pend (d : nd) : option lit :=
    if zlazy d then Some Zero
    else match flazy d with Some v => Some (Fill v) | None => None end.

  Definition flagged (d : nd) : bool := match pend d with Some _ => true | None => false end.

  (* traverse_zero_fill, synced_array.cpp:402-417. *)
  Definition trav_node (d : nd) (h : nat -> nat -> V) : nd * (nat -> nat -> V) :=
    if has_head d then
      match head d, head_arr d with
      | Some k, Some (a, _) =>
          (clear_flags d,
           match pend d with
           | Some l => write h a (size d) (fun _ => litval (fst k) l)
           | None => h
           end)
      | _, _ => (clear_flags d, h)
      end
    else (d, h).
  Fixpoint trav (t : tree) (h : nat -> nat -> V) : tree * (nat -> nat -> V) :=
    match t with
    | Node n d cs =>
        let (d, h) := trav_node d h in
        let (cs, h) :=
          (fix go (l : list tree) (h : nat -> nat -> V) : list tree * (nat -> nat -> V) :=
             match l with
             | [] => ([], h)
             | c :: r => let (c, h) := trav c h in let (r, h) := go r h in (c :: r, h)
             end) cs h in
        (Node n d cs, h)
    end.

  (* check_zeroing_filling_descendants, synced_array.cpp:419-431. *)
  Fixpoint any_flag (t : tree) : bool :=
    match t with Node _ d cs => flagged d || existsb any_flag cs end.

  (* Following and changing the tree along a path of child names. *)
  Definition named (n : nat) (t : tree) : bool := Nat.eqb (tname t) n.

  Fixpoint sub (p : list nat) (t : tree) : option tree :=
    match p with
    | [] => Some t
    | n :: p => match find (named n) (tkids t) with Some c => sub p c | None => None end
    end.

  Fixpoint upd (p : list nat) (f : tree -> tree) (t : tree) : tree :=
    match p with
    | [] => f t
    | n :: p =>
        match t with
        | Node m d cs => Node m d (map (fun c => if named n c then upd p f c else c) cs)
        end
    end.

  Definition upd_node (p : list nat) (f : nd -> nd) : tree -> tree :=
    upd p (fun t => match t with Node n d cs => Node n (f d) cs end).

  (* A change made to a node and all its ancestors (the loops over parent_). *)
  Fixpoint line (p : list nat) (f : nd -> nd) (t : tree) : tree :=
    match t with
    | Node m d cs =>
        Node m (f d)
          (match p with
           | [] => cs
           | n :: p => map (fun c => if named n c then line p f c else c) cs
           end)
    end.

  (* check_zeroing_filling, synced_array.cpp:433-450. *)
  Fixpoint check_zf (p : list nat) (t : tree) : bool :=
    match p with
    | [] => any_flag t
    | n :: p =>
        flagged (tdata t)
        || match find (named n) (tkids t) with Some c => check_zf p c | None => false end
    end.

  (* The search for zero_fill_root, synced_array.cpp:347-352, followed by
     traverse_zero_fill there: the topmost flagged strict ancestor, or the
     node itself. *)
  Fixpoint trav_at (p : list nat) (t : tree) (h : nat -> nat -> V) : tree * (nat -> nat -> V) :=
    match p with
    | [] => trav t h
    | n :: p =>
        if flagged (tdata t) then trav t h
        else match t with
             | Node m d cs =>
                 let (cs, h) :=
                   (fix go (l : list tree) (h : nat -> nat -> V) :=
                      match l with
                      | [] => ([], h)
                      | c :: r =>
                          if named n c then let (c, h) := trav_at p c h in (c :: r, h)
                          else let (r, h) := go r h in (c :: r, h)
                      end) cs h in
                 (Node m d cs, h)
             end
    end.

  (* has_family, synced_array.hpp:223-225. *)
  Definition has_family (p : list nat) (t : tree) : bool :=
    match p, tkids t with [], [] => false | _, _ => true end.

  Definition is_nil {A} (l : list A) : bool := match l with [] => true | _ => false end.

  (* The key of the copy that get/cast with key k uses at node p:
     synced_array.cpp:325-329. *)
  Definition desc_key (p : list nat) (k : nat) (r : tree) (d : nd) : option key :=
    match p with
    | [] => Some (k, [])
    | _ =>
        match head (tdata r) with
        | Some rk =>
            if key_eqb rk (k, []) then
              match sub (removelast p) r with
              | Some pt =>
                  match head (tdata pt) with
                  | Some pk => Some (fst pk, snd pk ++ [(offset d, size d)])
                  | None => None
                  end
              | None => None
              end
            else Some (k, [])
        | None => Some (k, [])
        end
    end.

  (* SyncedArray::sync, synced_array.cpp:312-392, after the recursive call on
     the root.  Returns the key of the prepared copy. *)
  Definition sync_body (p : list nat) (k : nat) (wo : bool) (s : state) : option (state * key) :=
    match sub p (root s) with
    | None => None
    | Some t =>
        match desc_key p k (root s) (tdata t) with
        | None => None
        | Some dk =>
            (* lines 332-344: allocate *)
            let s1 :=
              match kget dk (arrs (tdata t)) with
              | Some _ => s
              | None =>
                  let f d := set_arrs (kput dk (mkarr (next s) 0, false) (arrs d))
                               (if is_nil (arrs d) then set_head (Some dk) d else d) in
                  let r := upd_node p f (root s) in
                  let r := if is_nil p && has_family p r then create_desc r else r in
                  mkst r (heap s) (S (next s))
              end in
            (* lines 346-357: lazy evaluation in a family *)
            let s2 :=
              if has_family p (root s1) && check_zf p (root s1)
              then let (r, h) := trav_at p (root s1) (heap s1) in mkst r h (next s1)
              else s1 in
            if wo then Some (s2, dk)
            else
              (* lines 363-391 *)
              match sub p (root s2) with
              | None => None
              | Some t =>
                  let d := tdata t in
                  match kget dk (arrs d) with
                  | None => None
                  | Some (a, at_head) =>
                      if at_head then Some (s2, dk)
                      else if negb (has_family p (root s2)) && zlazy d then
                        Some (mkst (upd_node p (fun d => set_flags false (flazy d) d) (root s2))
                                (write (heap s2) a (size d) (fun _ => litval (fst dk) Zero)) (next s2), dk)
                      else
                        match (if has_family p (root s2) then None else flazy d) with
                        | Some v =>
                            Some (mkst (upd_node p (fun d => set_flags (zlazy d) None d) (root s2))
                                    (write (heap s2) a (size d) (fun _ => litval (fst dk) (Fill v))) (next s2), dk)
                        | None =>
                            if Nat.ltb 1 (length (arrs d)) then
                              match head d, head_arr d with
                              | Some hk, Some (ha, _) =>
                                  Some (mkst (root s2)
                                          (write (heap s2) a (size d)
                                             (fun j => conv (fst hk) (fst dk) (read (heap s2) ha j)))
                                          (next s2), dk)
                              | _, _ => None
                              end
                            else Some (s2, dk)
                        end
                  end
              end
        end
    end.

  (* lines 314-322: a child without arrays makes the root create its array. *)
  Definition sync (p : list nat) (k : nat) (wo : bool) (s : state) : option (state * key) :=
    match sub p (root s) with
    | None => None
    | Some t =>
        if negb (is_nil p) && negb (has_head (tdata t)) then
          match sync_body [] k wo s with
          | Some (s, _) => sync_body p k wo s
          | None => None
          end
        else sync_body p k wo s
    end.

  (* SyncedArray::cast_sp, synced_array.cpp:146-212.  None also stands for the
     exception of lines 155-161. *)
  Definition cast (p : list nat) (k : nat) (wo : bool) (s : state) : option (state * arr) :=
    let rd := tdata (root s) in
    if negb (is_nil p)
       && negb (match head rd with Some rk => key_eqb rk (k, []) | None => false end)
       && has_head rd
    then None
    else
      match sub p (root s), sync p k wo s with
      | Some t0, Some (s, dk) =>
          let prev := head (tdata t0) in
          let r := upd_node p (set_head (Some dk)) (root s) in
          let same := match prev with Some k' => key_eqb k' dk | None => false end in
          let r :=
            if has_family p r then
              if negb same && is_nil p then create_desc (clear_desc false r)
              else clear_desc true (upd_node [] keep_head r)
            else r in
          match sub p r with
          | Some t =>
              match kget dk (arrs (tdata t)) with
              | Some (a, _) =>
                  let f d := set_cleared false
                               (set_count 1 (set_arrs [(dk, (a, true))] (clear_all d))) in
                  let r := upd_node p f r in
                  let r := line p (set_zing false) (upd p (all_nodes (set_zing false)) r) in
                  Some (mkst r (heap s) (next s), a)
              | None => None
              end
          | None => None
          end
      | _, _ => None
      end.

  (* SyncedArray::get_sp, synced_array.cpp:219-239. *)
  Definition get (p : list nat) (k : nat) (s : state) : option (state * (nat -> V)) :=
    let s := mkst (upd_node p (set_cleared false) (root s)) (heap s) (next s) in
    match sync p k false s with
    | Some (s, dk) =>
        match sub p (root s) with
        | Some t =>
            match kget dk (arrs (tdata t)) with
            | Some (a, _) =>
                let f d := set_arrs (kput dk (a, true) (arrs d)) d in
                Some (mkst (upd_node p f (root s)) (heap s) (next s), read (heap s) a)
            | None => None
            end
        | None => None
        end
    | None => None
    end.

  (* The common part of zero and fill, synced_array.cpp:254-271, 285-301. *)
  Definition reset (p : list nat) (t : tree) : tree :=
    let t :=
      match p with
      | [] => clear_desc false (upd_node [] clear_all t)
      | _ =>
          let t' := upd p (clear_desc true) t in
          match sub p t' with
          | Some (Node _ d _) => if has_head d then line p keep_head t' else t'
          | None => t'
          end
      end in
    upd p (all_nodes clear_flags) t.

  (* SyncedArray::zero, synced_array.cpp:253-282. *)
  Definition zero (p : list nat) (t : tree) : tree :=
    upd_node p (fun d => set_cleared false (set_count (S (count d)) (set_flags true None d)))
      (upd p (all_nodes (set_zing true)) (reset p t)).

  (* SyncedArray::fill, synced_array.cpp:284-306. *)
  Definition fill (p : list nat) (v : F) (t : tree) : tree :=
    upd_node p (fun d => set_cleared false (set_count (S (count d)) (set_flags (zlazy d) (Some v) d)))
      (line p (set_zing false) (upd p (all_nodes (set_zing false)) (reset p t))).

  (* SyncedArray::narrow and the child constructor, synced_array.cpp:72-100,
     131-139, behind NdArray::narrow (nd_array.cpp:128-153), which checks the
     range.  The new child is called [name]. *)
  Definition narrow (p : list nat) (name n o : nat) (t : tree) : option tree :=
    match sub p t with
    | None => None
    | Some (Node _ d cs) =>
        if negb (Nat.leb (o + n) (size d)) then None
        else if existsb (named name) cs then None
        else if forallb (fun c =>
               Nat.leb (offset (tdata c) + size (tdata c)) o
               || Nat.leb (o + n) (offset (tdata c))) cs
        then
          let c := new_child n o in
          let c := if has_head d then from_parent d c else c in
          Some (upd p (fun t => match t with Node m d cs => Node m d (cs ++ [Node name c []]) end) t)
        else None
    end.

  (* ~SyncedArray and remove_child, synced_array.cpp:101-106, 543-556.  Only a
     child without living children is destroyed: children own their parent. *)
  Definition drop (p : list nat) (name : nat) (t : tree) : option tree :=
    match sub p t with
    | None => None
    | Some (Node _ _ cs) =>
        match find (named name) cs with
        | Some (Node _ _ []) =>
            Some (upd p (fun t => match t with
              Node m d cs => Node m d (filter (fun c => negb (named name c)) cs) end) t)
        | _ => None
        end
    end.

  (* The operations of a history.  [Write] is cast followed by the caller
     writing every element through the returned pointer: with write_only the
     new contents do not depend on the old ones, otherwise they may. *)
  Inductive op :=
  | Get (p : list nat) (k : nat)
  | Write (p : list nat) (k : nat) (w : nat -> V)
  | Modify (p : list nat) (k : nat) (f : nat -> V -> V)
  | ZeroOp (p : list nat)
  | FillOp (p : list nat) (v : F)
  | Clear (p : list nat)
  | Narrow (p : list nat) (name n o : nat)
  | Drop (p : list nat) (name : nat).

  (* One call; None = the call raises an exception (or names no array).  The
     output is what a Get delivers. *)
  Definition step (s : state) (o : op) : option (state * option (nat -> V)) :=
    let exists_ p := match sub p (root s) with Some _ => true | None => false end in
    match o with
    | Get p k => match get p k s with Some (s, r) => Some (s, Some r) | None => None end
    | Write p k w =>
        match cast p k true s, sub p (root s) with
        | Some (s', a), Some t =>
            Some (mkst (root s') (write (heap s') a (size (tdata t)) w) (next s'), None)
        | _, _ => None
        end
    | Modify p k f =>
        match cast p k false s, sub p (root s) with
        | Some (s', a), Some t =>
            Some (mkst (root s') (write (heap s') a (size (tdata t))
                                    (fun j => f j (read (heap s') a j))) (next s'), None)
        | _, _ => None
        end
    | ZeroOp p => if exists_ p then Some (mkst (zero p (root s)) (heap s) (next s), None) else None
    | FillOp p v => if exists_ p then Some (mkst (fill p v (root s)) (heap s) (next s), None) else None
    | Clear p =>
        (* public clear, synced_array.cpp:466-479 *)
        match p with
        | [] => Some (mkst (upd_node [] clear_all (root s)) (heap s) (next s), None)
        | _ => None
        end
    | Narrow p name n o =>
        match narrow p name n o (root s) with
        | Some t => Some (mkst t (heap s) (next s), None)
        | None => None
        end
    | Drop p name =>
        match drop p name (root s) with
        | Some t => Some (mkst t (heap s) (next s), None)
        | None => None
        end
    end.

  Definition init (n : nat) (junk : nat -> nat -> V) : state :=
    mkst (Node 0 (new_root n) []) junk 0.

  (* A history.  A call that raises leaves the array as it was: the checks of
     cast_sp (155-161), clear (467-469) and narrow (89-92) come first. *)
  Fixpoint run (s : state) (l : list op) : list (option (option (nat -> V))) :=
    match l with
    | [] => []
    | o :: l =>
        match step s o with
        | Some (s', r) => Some r :: run s' l
        | None => None :: run s l
        end
    end.

  Fixpoint final (s : state) (l : list op) : state :=
    match l with
    | [] => s
    | o :: l => match step s o with Some (s', _) => final s' l | None => final s l end
    end.

  (* SyncedArray::zeroing, synced_array.cpp:516. *)
  Definition zeroing (p : list nat) (s : state) : option bool :=
    match sub p (root s) with Some t => Some (zing (tdata t)) | None => None end.
End Sync.

Arguments Zero {F}. Arguments Fill {F} v.
