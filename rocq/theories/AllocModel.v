(** Model of the caching memory allocator.

    src/nbla/memory/caching_allocator_with_buckets.cpp,
    include/nbla/memory/caching_allocator_with_buckets.hpp,
    src/nbla/memory/memory.cpp, src/nbla/memory/allocator.cpp, src/nbla/memory/cpu_memory.cpp.

    Memory objects are numbered; their fields live in a heap [mems].  A pointer is an
    offset into a chunk obtained from malloc.  Whether malloc succeeds is decided by the
    environment, for each attempt.  Devices are numbers.  Sizes are unbounded integers:
    overflow of size_t, threads, callbacks and debugging output are not modelled.  The
    C++ maps are ordered by (bytes, address of the Memory object); addresses are given by
    an arbitrary function [addr]. *)
From Coq Require Import List ZArith Bool.
Import ListNotations.
Local Open Scope list_scope.
Local Open Scope Z_scope.

(** Memory (include/nbla/memory/memory.hpp:74-94). *)
Record mem := mkMem {
  m_dev : nat;
  m_ptr : option (nat * Z);   (* None: disabled, or not allocated *)
  m_bytes : Z;
  m_locked : bool;
  m_next : option nat;
  m_prev : option nat }.

(** The allocator.  [held]: chunks obtained from malloc and not freed (chunk, device,
    size); [caches true] is small_cache_map_, [caches false] large_cache_map_; [count]
    likewise; [used] is device_memory_used_in_bytes_ and [known] its keys. *)
Record ast := mkAst {
  mems : nat -> mem;
  nmem : nat;
  nchunk : nat;
  held : list (nat * nat * Z);
  caches : bool -> nat -> list (Z * nat);
  used : nat -> Z;
  known : list nat;
  count : bool -> nat -> Z }.

Definition no_mem : mem := mkMem 0 None 0 false None None.
Definition start : ast :=
  mkAst (fun _ => no_mem) 0 0 [] (fun _ _ => []) (fun _ => 0) [] (fun _ _ => 0).

Definition upd {A} (m : nat -> A) (k : nat) (x : A) : nat -> A :=
  fun n => if Nat.eqb n k then x else m n.
Definition updb {A} (m : bool -> nat -> A) (b : bool) (k : nat) (x : A) : bool -> nat -> A :=
  fun c n => if Bool.eqb c b && Nat.eqb n k then x else m c n.

Definition set_next (n : option nat) (m : mem) : mem :=
  mkMem (m_dev m) (m_ptr m) (m_bytes m) (m_locked m) n (m_prev m).
Definition set_prev (p : option nat) (m : mem) : mem :=
  mkMem (m_dev m) (m_ptr m) (m_bytes m) (m_locked m) (m_next m) p.
Definition set_ptr (p : option (nat * Z)) (m : mem) : mem :=
  mkMem (m_dev m) p (m_bytes m) (m_locked m) (m_next m) (m_prev m).
Definition set_bytes (b : Z) (m : mem) : mem :=
  mkMem (m_dev m) (m_ptr m) b (m_locked m) (m_next m) (m_prev m).
Definition set_locked (b : bool) (m : mem) : mem :=
  mkMem (m_dev m) (m_ptr m) (m_bytes m) b (m_next m) (m_prev m).
Definition change (i : nat) (f : mem -> mem) (h : nat -> mem) : nat -> mem := upd h i (f (h i)).

Definition set_mems (h : nat -> mem) (s : ast) : ast :=
  mkAst h (nmem s) (nchunk s) (held s) (caches s) (used s) (known s) (count s).
Definition set_caches (c : bool -> nat -> list (Z * nat)) (s : ast) : ast :=
  mkAst (mems s) (nmem s) (nchunk s) (held s) c (used s) (known s) (count s).
Definition set_used (d : nat) (x : Z) (s : ast) : ast :=
  mkAst (mems s) (nmem s) (nchunk s) (held s) (caches s) (upd (used s) d x)
        (if existsb (Nat.eqb d) (known s) then known s else d :: known s) (count s).
Definition set_count (b : bool) (d : nat) (x : Z) (s : ast) : ast :=
  mkAst (mems s) (nmem s) (nchunk s) (held s) (caches s) (used s) (known s) (updb (count s) b d x).
Definition set_held (l : list (nat * nat * Z)) (s : ast) : ast :=
  mkAst (mems s) (nmem s) (nchunk s) l (caches s) (used s) (known s) (count s).

(** Constants (caching_allocator_with_buckets.hpp:85-87). *)
Definition round_small : Z := 512.
Definition round_large : Z := 131072.
Definition small_alloc : Z := 1048576.

(** round_size (caching_allocator_with_buckets.cpp:107-117). *)
Definition round_size (b : Z) : Z :=
  if b <? round_small then round_small
  else if b <? small_alloc then (b + round_small - 1) / round_small * round_small
  else (b + round_large - 1) / round_large * round_large.

(** Memory::associate_consecutive (memory.cpp:53-60). *)
Definition associate (l r : option nat) (h : nat -> mem) : nat -> mem :=
  let h := match l with Some a => change a (set_next r) h | None => h end in
  match r with Some b => change b (set_prev l) h | None => h end.

(** Memory::try_merge (memory.cpp:80-102) with CpuMemory::merge_next_impl and
    merge_prev_impl (cpu_memory.cpp:67-79). *)
Definition is (i : nat) (o : option nat) : bool :=
  match o with Some j => Nat.eqb i j | None => false end.
Definition try_merge (i : nat) (from : option nat) (h : nat -> mem) : nat -> mem :=
  match from with
  | None => h
  | Some f =>
      if m_locked (h f) then h
      else
        let h :=
          if is f (m_next (h i)) then associate (Some i) (m_next (h f)) h
          else if is f (m_prev (h i)) then
            associate (m_prev (h f)) (Some i) (change i (set_ptr (m_ptr (h f))) h)
          else h in
        let h := change i (set_bytes (m_bytes (h i) + m_bytes (h f))) h in
        change f (set_ptr None) h
  end.

(** Memory::divide (memory.cpp:62-78) with CpuMemory::divide_impl (cpu_memory.cpp:55-65):
    the new object is number [nmem].  None: one of the checks fails. *)
Definition divide (i : nat) (at_ : Z) (s : ast) : option (ast * nat) :=
  let m := mems s i in
  if (0 <? at_) && (at_ <? m_bytes m) then
    let j := nmem s in
    let p := match m_ptr m with Some (c, o) => Some (c, o + at_) | None => None end in
    let h := upd (mems s) j (mkMem (m_dev m) p (m_bytes m - at_) false None None) in
    let h := change i (set_bytes at_) h in
    let h := associate (Some j) (m_next m) h in
    let h := associate (Some i) (Some j) h in
    Some (mkAst h (S j) (nchunk s) (held s) (caches s) (used s) (known s) (count s), j)
  else None.

(** Device caches: entries ((bytes, object)). *)
Definition key_eqb (a b : Z * nat) : bool := Z.eqb (fst a) (fst b) && Nat.eqb (snd a) (snd b).
Definition erase (e : Z * nat) (l : list (Z * nat)) : list (Z * nat) :=
  filter (fun x => negb (key_eqb e x)) l.
Definition cache_put (sm : bool) (d : nat) (e : Z * nat) (s : ast) : ast :=
  set_caches (updb (caches s) sm d (e :: erase e (caches s sm d))) s.
Definition cache_erase (sm : bool) (d : nat) (e : Z * nat) (s : ast) : ast :=
  set_caches (updb (caches s) sm d (erase e (caches s sm d))) s.

(** CpuMemory::~CpuMemory (cpu_memory.cpp:38-47): nothing for a disabled object; the
    assertion that there is no previous block; free of the chunk, which needs its first
    address. *)
Definition destroy (i : nat) (s : ast) : option ast :=
  match m_ptr (mems s i) with
  | None => Some s
  | Some (c, o) =>
      match m_prev (mems s i) with
      | Some _ => None
      | None =>
          if Z.eqb o 0 then Some (set_held (filter (fun x => negb (Nat.eqb (fst (fst x)) c)) (held s)) s)
          else None
      end
  end.

(** Memory::bytes_active (memory.cpp:42-51). *)
Definition bytes_active (m : mem) : Z :=
  match m_ptr m, m_next m, m_prev m with
  | Some _, None, None => m_bytes m
  | _, _, _ => 0
  end.

(** free_unused_device_caches_in_map (caching_allocator_with_buckets.cpp:84-105): the
    entries are visited in turn; returns the freed bytes. *)
Fixpoint free_unused_in (sm : bool) (d : nat) (l : list (Z * nat)) (acc : Z) (s : ast) : option (Z * ast) :=
  match l with
  | [] => Some (acc, s)
  | e :: l =>
      let b := bytes_active (mems s (snd e)) in
      if Z.eqb b 0 then free_unused_in sm d l acc s
      else
        match destroy (snd e) (cache_erase sm d e s) with
        | Some s => free_unused_in sm d l (acc + b) s
        | None => None
        end
  end.

(** Allocator::free_unused_device_caches (allocator.cpp:53-60) with
    free_unused_device_caches_impl (caching_allocator_with_buckets.cpp:224-233). *)
Definition free_device (d : nat) (s : ast) : option ast :=
  match free_unused_in true d (caches s true d) 0 s with
  | None => None
  | Some (b1, s) =>
      match free_unused_in false d (caches s false d) 0 s with
      | None => None
      | Some (b2, s) => Some (set_used d (used s d - (b1 + b2)) s)
      end
  end.
(** Allocator::free_unused_caches (allocator.cpp:46-52). *)
Fixpoint free_devices (ds : list nat) (s : ast) : option ast :=
  match ds with
  | [] => Some s
  | d :: ds => match free_device d s with Some s => free_devices ds s | None => None end
  end.

Section Alloc.
Variable addr : nat -> nat.

(** lower_bound on the key (bytes, nullptr): the least entry of at least [b] bytes. *)
Definition before (x y : Z * nat) : bool :=
  (fst x <? fst y) || Z.eqb (fst x) (fst y) && Nat.ltb (addr (snd x)) (addr (snd y)).
Fixpoint lower_bound (b : Z) (l : list (Z * nat)) : option (Z * nat) :=
  match l with
  | [] => None
  | x :: l =>
      let r := lower_bound b l in
      if fst x <? b then r
      else match r with Some y => if before y x then r else Some x | None => Some x end
  end.

(** make_memory and Memory::alloc: a new object that holds a new chunk. *)
Definition new_chunk (b : Z) (d : nat) (s : ast) : ast * nat :=
  let i := nmem s in
  let s1 := mkAst (upd (mems s) i (mkMem d (Some (nchunk s, 0)) b false None None)) (S i) (S (nchunk s))
              ((nchunk s, d, b) :: held s) (caches s) (used s) (known s) (count s) in
  (set_used d (used s d + b) s1, i).

(** Allocator::alloc_retry (allocator.cpp:70-94).  [ok1], [ok2]: whether malloc
    succeeds the first and the second time.  Result: the state, and the object unless
    the memory error is raised; None: an assertion fails. *)
Definition alloc_retry (b : Z) (d : nat) (ok1 ok2 : bool) (s : ast) : option (ast * option nat) :=
  if ok1 then let (s, i) := new_chunk b d s in Some (s, Some i)
  else
    match free_device d s with
    | None => None
    | Some s => if ok2 then let (s, i) := new_chunk b d s in Some (s, Some i) else Some (s, None)
    end.

(** The second half of alloc_impl (caching_allocator_with_buckets.cpp:173-189), the
    bookkeeping of Allocator::alloc (allocator.cpp:23-35), and the lock taken by the
    AllocatorMemory (allocator.cpp:96-100). *)
Definition finish (sm : bool) (b : Z) (d i : nat) (s : ast) : option ast :=
  let split :=
    if (if sm then round_small else small_alloc + 1) <=? m_bytes (mems s i) - b then
      match divide i b s with
      | Some (s, j) => Some (cache_put sm d (m_bytes (mems s j), j) s)
      | None => None
      end
    else Some s in
  match split with
  | None => None
  | Some s =>
      let c := m_bytes (mems s i) <=? small_alloc in
      let s := set_count c d (count s c d + 1) s in
      let s := set_used d (used s d) s in
      Some (set_mems (change i (set_locked true) (mems s)) s)
  end.

(** Allocator::alloc (allocator.cpp:23-35) and alloc_impl
    (caching_allocator_with_buckets.cpp:135-190). *)
Definition alloc (orig : Z) (d : nat) (ok1 ok2 : bool) (s : ast) : option (ast * option nat) :=
  let b := round_size (Z.max orig 1) in
  let sm := b <=? small_alloc in
  match lower_bound b (caches s sm d) with
  | Some e =>
      match finish sm b d (snd e) (cache_erase sm d e s) with
      | Some s => Some (s, Some (snd e))
      | None => None
      end
  | None =>
      match alloc_retry (if sm then small_alloc else b) d ok1 ok2 s with
      | None => None
      | Some (s, None) => Some (s, None)
      | Some (s, Some i) =>
          match finish sm b d i s with Some s => Some (s, Some i) | None => None end
      end
  end.

(** Allocator::free (allocator.cpp:36-45) and free_impl
    (caching_allocator_with_buckets.cpp:193-222); erased entries are disabled objects,
    whose destructor does nothing. *)
Definition try_erase (sm : bool) (d : nat) (o : option nat) (s : ast) : ast :=
  match o with
  | None => s
  | Some i =>
      match m_ptr (mems s i) with
      | Some _ => s
      | None => cache_erase sm d (m_bytes (mems s i), i) s
      end
  end.
Definition free (i : nat) (s : ast) : ast :=
  let s := set_mems (change i (set_locked false) (mems s)) s in
  let sm := m_bytes (mems s i) <=? small_alloc in
  let d := m_dev (mems s i) in
  let n := m_next (mems s i) in
  let s := set_mems (try_merge i n (mems s)) s in
  let p := m_prev (mems s i) in
  let s := set_mems (try_merge i p (mems s)) s in
  let s := try_erase sm d n s in
  let s := try_erase sm d p s in
  let s := cache_put sm d (m_bytes (mems s i), i) s in
  set_count sm d (count s sm d - 1) s.

(** A program using the allocator: it holds AllocatorMemory objects, listed with the
    requested size and device; a block is returned when the AllocatorMemory that
    holds it is destroyed (allocator.cpp:104-113). *)
Inductive op :=
| Alloc (bytes : Z) (dev : nat) (ok1 ok2 : bool)
| Free (k : nat)               (* the k-th live block *)
| FreeUnused (dev : nat)
| FreeUnusedAll.

Definition world := (ast * list (nat * Z * nat))%type.
Fixpoint drop {A} (k : nat) (l : list A) : list A :=
  match l, k with
  | [], _ => []
  | _ :: l, O => l
  | x :: l, S k => x :: drop k l
  end.
Definition step (w : world) (o : op) : option world :=
  let (s, live) := w in
  match o with
  | Alloc b d ok1 ok2 =>
      match alloc b d ok1 ok2 s with
      | None => None
      | Some (s, Some i) => Some (s, (i, b, d) :: live)
      | Some (s, None) => Some (s, live)
      end
  | Free k =>
      match nth_error live k with
      | Some (i, _, _) => Some (free i s, drop k live)
      | None => Some w
      end
  | FreeUnused d => match free_device d s with Some s => Some (s, live) | None => None end
  | FreeUnusedAll => match free_devices (known s) s with Some s => Some (s, live) | None => None end
  end.
Fixpoint run (ops : list op) (w : world) : option world :=
  match ops with
  | [] => Some w
  | o :: ops => match step w o with Some w => run ops w | None => None end
  end.
End Alloc.
