(** Memory protection set up by JitMemory::new (jit_memory.rs 241-254) and the
    regions it covers.

    Modelled: the two calls of [protect] in the order in which they are made, with
    start, length and protection as written.  Not modelled: a failing mprotect
    (the [expect] panics and there is no object).  [protect] rounds its range to
    operating-system pages; both ranges start and end at multiples of PAGE_SIZE
    after the start of an allocation aligned to PAGE_SIZE (line 242), so the
    rounding changes nothing. *)
From Verif Require Import Base ModelMem.

(** jit_memory.rs 246, 252: Protection::READ_WRITE_EXECUTE and Protection::READ_WRITE of crate region; [Heap]: what the allocator left. *)
Inductive prot := RWX | RW | Heap.
Record protect_call := mkProtect { pstart : Z; plen : Z; pval : prot }.
(** jit_memory.rs 244-254. *)
Definition new_protects (contents : Z) : list protect_call :=
  [mkProtect contents (PAGE_SIZE * 2) RWX; mkProtect (contents + PAGE_SIZE * 2) PAGE_SIZE RW].
(** jit_memory.rs 244-254.  The protection of an address: that of the last call covering it. *)
Definition covers (c : protect_call) (x : Z) : bool := (pstart c <=? x) && (x <? pstart c + plen c).
Definition prot_at (cs : list protect_call) (x : Z) : prot :=
  fold_left (fun v c => if covers c x then pval c else v) cs Heap.
(** The protections of a JitMemory: [new] (jit_memory.rs 240-263) is the only function that calls [protect]. *)
Definition prot_of (s : jit) (x : Z) : prot := prot_at (new_protects (base s)) x.
