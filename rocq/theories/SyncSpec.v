(* Specification of the synchronised array: what a history of calls means,
   with no copies, no lazy evaluation and no memory blocks.  There is one
   vector of cells; every handle obtained by narrowing is a window on it. *)
From Coq Require Import List Arith Bool.
From Verif Require Import SyncModel.
Import ListNotations.

Section Spec.
  Variables V F : Type.
  Variable conv : nat -> nat -> V -> V.
  Variable litval : nat -> lit F -> V.

  (* What is known of one element: nothing; the argument of a zero() or
     fill() made before the array had any data type; or a value of the data
     type the array currently has. *)
  Inductive cell := Unset | Lit (l : lit F) | Val (v : V).

  Record sst := mksst {
    stype : option nat;                       (* current data type / device *)
    cells : nat -> cell;
    wins : list (list nat * (nat * nat));     (* handle -> (first, length) *)
    fresh : list (list nat)                   (* handles zeroed or filled and
                                                 not accessed since *)
  }.

  Fixpoint path_eqb (p q : list nat) : bool :=
    match p, q with
    | [], [] => true
    | x :: p, y :: q => Nat.eqb x y && path_eqb p q
    | _, _ => false
    end.

  Fixpoint win (p : list nat) (l : list (list nat * (nat * nat))) : option (nat * nat) :=
    match l with
    | [] => None
    | (q, w) :: l => if path_eqb q p then Some w else win p l
    end.

  Definition inwin (w : nat * nat) (i : nat) : bool :=
    Nat.leb (fst w) i && Nat.ltb i (fst w + snd w).

  (* An array without a data type takes the one of the first access. *)
  Definition settle (k : nat) (s : sst) : sst :=
    match stype s with
    | Some _ => s
    | None =>
        mksst (Some k)
          (fun i => match cells s i with Lit l => Val (litval k l) | c => c end)
          (wins s) (fresh s)
    end.

  Definition touch (p : list nat) (s : sst) : sst :=
    mksst (stype s) (cells s) (wins s) (filter (fun q => negb (path_eqb q p)) (fresh s)).

  (* Reading cell i as type k. *)
  Definition rd (k : nat) (s : sst) (i : nat) : option V :=
    match stype s, cells s i with
    | Some k0, Val v => Some (conv k0 k v)
    | _, _ => None
    end.

  Definition isnil (p : list nat) : bool := match p with [] => true | _ => false end.

  (* A narrowed handle cannot change the data type. *)
  Definition type_ok (p : list nat) (k : nat) (s : sst) : bool :=
    isnil p || match stype s with Some k0 => Nat.eqb k0 k | None => true end.

  (* Results: an exception, a call without result, or contents of which the
     known part is given. *)
  Inductive sout := SRaise | SDone | SRead (n : nat) (r : nat -> option V).

  Definition child_of (p q : list nat) : bool :=
    match q with [] => false | _ => path_eqb (removelast q) p end.

  Definition put_lit (p : list nat) (w : nat * nat) (l : lit F) (s : sst) : sst :=
    match p with
    | [] => mksst None (fun _ => Lit l) (wins s) (p :: fresh s)
    | _ =>
        mksst (stype s)
          (fun i => if inwin w i
                    then match stype s with Some k => Val (litval k l) | None => Lit l end
                    else cells s i)
          (wins s) (p :: fresh s)
    end.

  Definition sstep (s : sst) (o : op V F) : sst * sout :=
    match o with
    | Get _ _ p k =>
        match win p (wins s) with
        | None => (s, SRaise)
        | Some w =>
            let s := touch p (settle k s) in
            (s, SRead (snd w) (fun j => rd k s (fst w + j)))
        end
    | Write _ _ p k x =>
        match win p (wins s) with
        | None => (s, SRaise)
        | Some w =>
            if type_ok p k s then
              let s := touch p (settle k s) in
              (mksst (Some k)
                 (fun i => if inwin w i then Val (x (i - fst w)) else cells s i)
                 (wins s) (fresh s), SDone)
            else (s, SRaise)
        end
    | Modify _ _ p k f =>
        match win p (wins s) with
        | None => (s, SRaise)
        | Some w =>
            if type_ok p k s then
              let s := touch p (settle k s) in
              (mksst (Some k)
                 (fun i => if inwin w i
                           then match rd k s i with Some v => Val (f (i - fst w) v) | None => Unset end
                           else cells s i)
                 (wins s) (fresh s), SDone)
            else (s, SRaise)
        end
    | ZeroOp _ _ p =>
        match win p (wins s) with
        | None => (s, SRaise)
        | Some w => (put_lit p w Zero s, SDone)
        end
    | FillOp _ _ p v =>
        match win p (wins s) with
        | None => (s, SRaise)
        | Some w => (put_lit p w (Fill v) s, SDone)
        end
    | Clear _ _ p =>
        match p with
        | [] => (mksst None (fun _ => Unset) (wins s) (fresh s), SDone)
        | _ => (s, SRaise)
        end
    | Narrow _ _ p name n o =>
        match win p (wins s) with
        | None => (s, SRaise)
        | Some w =>
            let q := p ++ [name] in
            let w' := (fst w + o, n) in
            if Nat.leb (o + n) (snd w)
               && match win q (wins s) with None => true | Some _ => false end
               && forallb (fun e => negb (child_of p (fst e))
                                    || Nat.leb (fst (snd e) + snd (snd e)) (fst w')
                                    || Nat.leb (fst w' + n) (fst (snd e))) (wins s)
            then (mksst (stype s) (cells s) (wins s ++ [(q, w')]) (fresh s), SDone)
            else (s, SRaise)
        end
    | Drop _ _ p name =>
        let q := p ++ [name] in
        match win q (wins s) with
        | None => (s, SRaise)
        | Some _ =>
            if existsb (fun e => child_of q (fst e)) (wins s) then (s, SRaise)
            else (mksst (stype s) (cells s)
                    (filter (fun e => negb (path_eqb (fst e) q)) (wins s)) (fresh s), SDone)
        end
    end.

  Fixpoint srun (s : sst) (l : list (op V F)) : list sout :=
    match l with
    | [] => []
    | o :: l => let (s', r) := sstep s o in r :: srun s' l
    end.

  Fixpoint sfinal (s : sst) (l : list (op V F)) : sst :=
    match l with [] => s | o :: l => sfinal (fst (sstep s o)) l end.

  Definition sinit (n : nat) : sst := mksst None (fun _ => Lit Zero) [([], (0, n))] [].

  (* The conditions under which the implementation does what the
     specification says; each is necessary (SyncProps.v):
     - at most two levels of narrowing;
     - clear() only on an array that is not narrowed;
     - no handle is dropped between its zero()/fill() and its next access. *)
  Definition careful (s : sst) (o : op V F) : Prop :=
    match o with
    | Narrow _ _ p _ _ _ => length p <= 1
    | Clear _ _ p => p = [] -> forall e, In e (wins s) -> child_of [] (fst e) = false
    | Drop _ _ p name => ~ In (p ++ [name]) (fresh s)
    | _ => True
    end.

  Fixpoint careful_run (s : sst) (l : list (op V F)) : Prop :=
    match l with
    | [] => True
    | o :: l => careful s o /\ careful_run (fst (sstep s o)) l
    end.

  (* A delivered result agrees with the specification. *)
  Definition agrees (r : option (option (nat -> V))) (x : sout) : Prop :=
    match r, x with
    | None, SRaise => True
    | Some None, SDone => True
    | Some (Some f), SRead n g => forall j v, j < n -> g j = Some v -> f j = v
    | _, _ => False
    end.
End Spec.
