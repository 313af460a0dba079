(** Property C61: several assemblers in one process.  [history es w] (SpecShare.v): calls on any of the assemblers, in any
    order, and between them changes of the memory by other code. *)
From Verif Require Import Base ModelMem ModelPos ModelEnc ModelSyntax ModelMacro SpecX86 SpecAsm SpecTaken SpecState SpecHist MemDemo SpecProg SpecScope SpecMulti SpecLive LiveDemo SpecShare ShareRun ShareEnd ShareDemo.
Local Open Scope list_scope.
Local Open Scope Z_scope.

(** ** C61.  With the allocations apart, raw patches inside the own allocation and no other code writing there, assembler
    [k] is what it would be after its own calls alone, in a process whose memory outside the allocation is what it is now. *)
Theorem C61 : forall k es bs m, orderly k es (fresh bs m) ->
  same_jit (view (history es (fresh bs m)) k) (run_any (calls_on k es) (jit_new (bs k) (around (bs k) m (shared (history es (fresh bs m)))))).
Proof. exact share_alone. Qed.
Print Assumptions C61.
(** What the calls return or panic with, and what the assembler knows (page, cursors, labels, references, constants,
    blocks), depends on its own calls only, whatever anyone writes to the memory. *)
Theorem C61_calls : forall k es bs m m',
  answers k es (fresh bs m) = answers_alone (calls_on k es) (jit_new (bs k) m') /\
  knows_same (view (history es (fresh bs m)) k) (run_any (calls_on k es) (jit_new (bs k) m')).
Proof. exact share_calls. Qed.
Print Assumptions C61_calls.
(** Nothing that can be read through the methods differs. *)
Theorem C61_looks : forall s1 s2, same_jit s1 s2 -> looks_same s1 s2.
Proof. exact same_looks. Qed.
Print Assumptions C61_looks.
(** The calls write nowhere but in the allocations of the assemblers called. *)
Theorem C61_outside : forall k es bs m x, only_calls es = true -> orderly k es (fresh bs m) -> (forall j o, In (Call j o) es -> ~ owned (bs j) x) ->
  shared (history es (fresh bs m)) x = m x.
Proof. exact share_untouched. Qed.
Print Assumptions C61_outside.
(** The program of assembler [k] runs as its source (C56) in the shared memory. *)
Theorem C61_runs : forall mstate sem k es bs m prog,
  let w := history es (fresh bs m) in let s0 := jit_new (bs k) (around (bs k) m (shared w)) in let s := run_any (calls_on k es) s0 in
  (forall x y next st, same_ins x y -> sem x next st = sem y next st) -> orderly k es (fresh bs m) -> lives s0 s prog ->
  exists ws, Forall2 (placed s) prog ws /\
    forall n v st, proper prog v -> same_prun mstate sem (mrun mstate sem (shared w)) prog (final s) (marks_of s ws) n v st.
Proof. exact share_runs. Qed.
Print Assumptions C61_runs.
(** Two assemblers with adjacent allocations, used in turns: 0 assembles a: movq rax, 5; b: jmp c; c: addq rax, 1; ret and
    1 assembles jmp b, then b: ret; 1 makes a call that panics; other code writes at 4096. *)
Example C61_case : orderly 0 esS startS /\ orderly 1 esS startS /\
  answers 0 esS startS = [inl (Some 0%nat); inl (Some 1%nat); inl (Some 2%nat); inl None; inl None] /\
  answers 1 esS startS = [inl (Some 0%nat); inl (Some 1%nat); inl None; inl None; inr IndexOOB; inl None] /\
  as_slice (view (history esS startS) 0) = [0x48; 0xb8; 5; 0; 0; 0; 0; 0; 0; 0; 0xe9; 0; 0; 0; 0; 0x48; 0x83; 0xc0; 1; 0xc3] /\
  as_slice (view (history esS startS) 1) = [0xe9; 0; 0; 0; 0; 0xc3] /\ shared (history esS startS) 4096 = 7.
Proof. exact case61. Qed.
Example C61_runs_case : lives (jit_new (basesS 0) (around (basesS 0) (fun _ => 0xcc) (shared (history esS startS))))
  (run_any (calls_on 0 esS) (jit_new (basesS 0) (around (basesS 0) (fun _ => 0xcc) (shared (history esS startS))))) [blkL "c"].
Proof. exact lives0. Qed.
(** The condition on raw patches is needed: apply_jmp_patch_address of assembler 1 with an address of assembler 0 returns
    normally and changes the code of 0. *)
Theorem C61_stray_refuted : answers 1 strayS startS = [inl (Some 0%nat); inl None; inl None] /\ ~ owned (basesS 1) 65537 /\ owned (basesS 0) 65537 /\
  shared (history strayS startS) 65537 = 251 /\ mem (run_any (calls_on 0 strayS) (jit_new (basesS 0) (fun _ => 0xcc))) 65537 = 0xc3.
Proof. exact strayS_writes. Qed.
Print Assumptions C61_stray_refuted.
