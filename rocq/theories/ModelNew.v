(** The memory of a process in which assemblers are made and dropped.  jit_memory.rs 236-273
    [JitMemory::new] step by step: the layout (241), [alloc] (242), the two calls of [protect]
    (244-254), the fields (255-263).  [alloc] may return null, which is not checked, and [protect] may
    return an error, on which [expect] panics; what they return is part of the event.
    No type of the crate implements Drop (monoasm/src): MemPage and CodePtr hold raw pointers, so
    dropping a JitMemory frees its vectors and not the pages.
    Simplified: the vectors of an assembler (labels, relocations) are memory of other code. *)
From Verif Require Import Base ModelMem ModelProt.

(** The process around jit_memory.rs 236-263.  Allocated regions (start, size), the protection of every address, and the addresses of the
    allocations of all assemblers made so far, dropped or not. *)
Record proc := mkProc { heap : list (Z * Z); prots : Z -> prot; made : list Z }.
(** jit_memory.rs 246, 250-253: [protect] of crate region; the range is extended to whole pages of the operating system. *)
Definition page_floor (pg x : Z) : Z := x / pg * pg.
Definition page_ceil (pg x : Z) : Z := (x + pg - 1) / pg * pg.
Definition protect (pg : Z) (c : protect_call) (p : Z -> prot) : Z -> prot :=
  fun x => if (page_floor pg (pstart c) <=? x) && (x <? page_ceil pg (pstart c + plen c)) then pval c else p x.
Fixpoint protect_all (pg : Z) (cs : list (protect_call * bool)) (p : Z -> prot) : bool * (Z -> prot) :=
  match cs with
  | [] => (true, p)
  | (c, ok) :: r => if ok then protect_all pg r (protect pg c p) else (false, p)
  end.
(** jit_memory.rs 240-263 [new]: [a] is what [alloc] returns; [ok1], [ok2] whether the calls of [protect] succeed.  The
    address of the allocation, or none: the call panics. *)
Definition new (pg a : Z) (ok1 ok2 : bool) (p : proc) : option Z * proc :=
  let h := if a =? 0 then heap p else (a, PAGE_SIZE * 3) :: heap p in
  let (ok, q) := protect_all pg (combine (new_protects a) [ok1; ok2]) (prots p) in
  if ok then (Some a, mkProc h q (a :: made p)) else (None, mkProc h q (made p)).

(** What happens in the process around calls of [new] (jit_memory.rs 240-263): an assembler is made; one is dropped; other code allocates,
    frees, or protects memory. *)
Inductive pevent :=
| NewJit (a : Z) (ok1 ok2 : bool)
| DropJit (a : Z)
| Alloc (a n : Z)
| Free (a n : Z)
| Protect (c : protect_call).
Definition region_eqb (r q : Z * Z) : bool := (fst r =? fst q) && (snd r =? snd q).
Definition pstep (pg : Z) (e : pevent) (p : proc) : proc :=
  match e with
  | NewJit a ok1 ok2 => snd (new pg a ok1 ok2 p)
  | DropJit _ => p
  | Alloc a n => mkProc ((a, n) :: heap p) (prots p) (made p)
  | Free a n => mkProc (filter (fun r => negb (region_eqb r (a, n))) (heap p)) (prots p) (made p)
  | Protect c => mkProc (heap p) (protect pg c (prots p)) (made p)
  end.
Fixpoint pruns (pg : Z) (es : list pevent) (p : proc) : proc :=
  match es with [] => p | e :: r => pruns pg r (pstep pg e p) end.
