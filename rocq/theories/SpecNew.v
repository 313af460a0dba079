(** A process in which assemblers are made: what the system promises, and what holds of their memory. *)
From Verif Require Import Base ModelMem ModelProt ModelNew SpecShare.
Local Open Scope Z_scope.

(** Two regions have no address in common. *)
Definition disjoint (r q : Z * Z) : Prop := fst r + snd r <= fst q \/ fst q + snd q <= fst r.
Definition within (r : Z * Z) (x : Z) : Prop := fst r <= x < fst r + snd r.
(** What the allocator, the operating system and the rest of the program promise (pages of the
    operating system have [pg] bytes): an allocation starts at an address that is not null, aligned as
    asked, apart from all that are in use; protecting memory that is not there (at null) fails; other
    code frees what it has allocated, and protects (whole pages of) its own memory. *)
Definition allocated (p : proc) (a n align : Z) : Prop := 0 < a /\ a mod align = 0 /\ 0 < n /\ Forall (disjoint (a, n)) (heap p).
Definition fair (pg : Z) (p : proc) (e : pevent) : Prop :=
  match e with
  | NewJit a ok1 ok2 => if a =? 0 then ok1 = false else allocated p a (PAGE_SIZE * 3) PAGE_SIZE
  | DropJit a => In a (made p)
  | Alloc a n => allocated p a n 1
  | Free a n => ~ In a (made p)
  | Protect c => forall b, In b (made p) -> page_ceil pg (pstart c + plen c) <= b \/ b + PAGE_SIZE * 3 <= page_floor pg (pstart c)
  end.
Fixpoint fairly (pg : Z) (es : list pevent) (p : proc) : Prop :=
  match es with [] => True | e :: r => fair pg p e /\ fairly pg r (pstep pg e p) end.
(** The start of a process: some memory is in use, no assembler has been made. *)
Definition starts (p : proc) : Prop := made p = [] /\ ForallOrdPairs disjoint (heap p) /\ Forall (fun r => 0 < fst r /\ 0 < snd r) (heap p).
(** The memory of an assembler: allocated to it alone, code pages executable, data page not. *)
Definition has_memory (p : proc) (b : Z) : Prop :=
  b mod PAGE_SIZE = 0 /\ In (b, PAGE_SIZE * 3) (heap p) /\
  (forall r x, In r (heap p) -> within r x -> owned b x -> r = (b, PAGE_SIZE * 3)) /\
  (forall x, b <= x < b + 2 * PAGE_SIZE -> prots p x = RWX) /\ (forall x, b + 2 * PAGE_SIZE <= x < b + 3 * PAGE_SIZE -> prots p x = RW).
