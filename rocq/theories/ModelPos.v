(** Positions and indexing by position (lib.rs 254-278, jit_memory.rs 52-70, 195-227).

    A Pos is a usize, here an integer in [0, 2^64).  [checks]: whether overflow
    checks are compiled in (debug) or not (release). *)
From Verif Require Import Base ModelMem.
Local Open Scope Z_scope.

(** lib.rs 259-261 [Pos::from]. *)
Definition pos_from (n : Z) : Z := n.
(** lib.rs 264-270 [Pos + i32]: the addition is of i64 values; None is the overflow panic. *)
Definition pos_add (checks : bool) (p k : Z) : option Z :=
  let v := i64 p + k in
  if checks && negb (v =? i64 v) then None else Some (u64 v).
(** lib.rs 272-278 [Pos - Pos]: a subtraction of usize values. *)
Definition pos_sub (checks : bool) (p q : Z) : option Z :=
  if checks && (p <? q) then None else Some (u64 (p - q)).

(** jit_memory.rs 52-61 and 209-218: [jit[pos]] reads the selected page, [jit[Page(n)][pos]] page n. *)
Definition index (n : option Z) (pos : Z) : M Z :=
  match n with None => on_cur (fun p => peek p pos) | Some k => on_page k (fun p => peek p pos) end.
(** jit_memory.rs 63-70 and 220-227: [jit[pos] = v], [jit[Page(n)][pos] = v]. *)
Definition index_mut (n : option Z) (pos v : Z) : M unit :=
  match n with None => poke pos v | Some k => on_page k (fun p => put p pos v) end.
