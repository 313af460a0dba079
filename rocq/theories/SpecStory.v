(** What a process does with generated code: the program runs for a while, other code runs and chooses where to go on,
    more code is assembled, jumps are patched, the program goes on, and so on.  There is one memory: the processor and
    the assembler both work on it. *)
From Verif Require Import Base ModelMem ModelSyntax ModelMacro SpecX86 SpecAsm SpecState SpecHist SpecProg SpecMachine SpecScope SpecMulti SpecLive.
Local Open Scope list_scope.
Local Open Scope Z_scope.

(** The assembler as its methods find it when the processor is in state [st], and the processor's state with memory [m]. *)
Definition seen (st : mach) (s : jit) : jit := mkJit (base s) (mm st) (cur s) (pages s) (labels s).
Definition with_memory (m : Z -> Z) (st : mach) : mach := mkMach (regs st) (xmms st) (fl st) m.

Inductive happening :=
| Runs (n : nat)                                 (* the processor takes [n] steps *)
| Other (h : Z -> mach -> Z * mach)              (* other code, called from an address: where it goes on, and the state *)
| Grows (ops : list op)                          (* calls of the assembler, ended by a finalize *)
| Patches (o : op) (l d : label) (u k : nat) (b' : blk).
                                                 (* a patch of the jump at label [l], statement [k] of block [u], to [d];
                                                    the block's source is then [b'] *)

(** Other code, and the program itself, leave alone the blocks and the fields of unresolved references. *)
Definition untouched (s : jit) (prog : list blk) (at_ : nat -> nat -> Z) (m m' : Z -> Z) : Prop :=
  (forall u b x, nth_error prog u = Some b -> at_ u 0%nat <= x < at_ u (List.length (b_body b)) -> m' x = m x) /\
  (forall p pos, pending s p pos -> m' (addr s p pos) = m (addr s p pos)).
(** Whoever is outside may be at a new block now. *)
Definition again (prog : list blk) (at_ : nat -> nat -> Z) (w : spot) : spot :=
  match w with At u k => At u k | Away a => arrive prog at_ a end.
Definition replaced (u : nat) (b' : blk) (prog : list blk) : list blk := firstn u prog ++ b' :: skipn (S u) prog.

(** The blocks [prog] are at [ws] in the memory, apart from each other, and the processor is where the source is. *)
Definition in_step (s : jit) (prog : list blk) (ws : list place_of) (w : spot) (pc : Z) (st : mach) : Prop :=
  Forall2 (placed (seen st s)) prog ws /\ ForallOrdPairs behind ws /\ proper prog w /\ pc = where_is (marks_of s ws) w.
(** Whatever happens, processor and source stay in step: the source is interpreted (SpecMulti), the processor executes
    the bytes in memory. *)
Fixpoint follows (es : list happening) (s : jit) (prog : list blk) (ws : list place_of) (w : spot) (pc : Z) (st : mach) : Prop :=
  in_step s prog ws w pc st /\
  match es with
  | [] => True
  | Runs n :: r =>
      keeps_blocks (mm st) prog (final s) (marks_of s ws) n w st ->
      match prun mach x86 prog (final s) (marks_of s ws) n w st with
      | PInside _ w' st' => untouched s prog (marks_of s ws) (mm st) (mm st') ->
          exists pc', cpu n pc st = Some (pc', st') /\ follows r s prog ws w' pc' st'
      | PGone _ j a st' => (j <= n)%nat /\ cpu (n - j) pc st = Some (a, st')
      | PFaulted _ => cpu n pc st = None
      end
  | Other h :: r =>
      untouched s prog (marks_of s ws) (mm st) (mm (snd (h pc st))) ->
      follows r s prog ws (arrive prog (marks_of s ws) (fst (h pc st))) (fst (h pc st)) (snd (h pc st))
  | Grows ops :: r => forall s',
      forallb api ops = true -> run (ops ++ [OFinalize]) (seen st s) = Some s' -> bound_once (ops ++ [OFinalize]) (seen st s) ->
      complete ops (seen st s) s' ->
      exists vs, let new := prog ++ blocks ops (seen st s) in
        follows r s' new (ws ++ vs) (again new (marks_of s' (ws ++ vs)) w) pc (with_memory (mem s') st)
  | Patches o l d u k b' :: r => forall y s' b,
      nth_error prog u = Some b -> patch_point b l k -> patches s o l d -> step o (seen st s) = Ok y s' -> retargeted b k d b' ->
      follows r s' (replaced u b' prog) ws w pc (with_memory (mem s') st)
  end.
