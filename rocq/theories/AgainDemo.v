(** A label bound three times. *)
From Verif Require Import Base ModelMem ModelEnc ModelSyntax ModelMacro SpecX86 SpecAsm SpecTaken SpecState SpecHist MemRun MemDemo SpecProg SpecMachine SpecScope SpecMulti MultiDemo SpecAgain.
Local Notation length := List.length.
Local Open Scope list_scope.
Local Open Scope Z_scope.

(** a: movq rax, 5; jmp b; addq rax, 100; b: ret      finalize
    c: call a; addq rax, 2; jmp b; addq rax, 100; b: ret      b: addq rax, 1; ret      finalize.
    The first jump goes to the first b; the second to the third b, not to the one in its own block. *)
Definition bodyX : list inst := [ILabel "a"; IMovq (MovReg (RReg 0)) (MovImm (ELit 5) None); IJmp (DestRel "b"); IAdd QWORD (RmReg (RReg 0)) (RmiImm (ELit 100)); ILabel "b"; IRet].
Definition bodyY : list inst := [ILabel "c"; ICall (DestRel "a"); IAdd QWORD (RmReg (RReg 0)) (RmiImm (ELit 2)); IJmp (DestRel "b"); IAdd QWORD (RmReg (RReg 0)) (RmiImm (ELit 100)); ILabel "b"; IRet].
Definition bodyZ : list inst := [ILabel "b"; IAdd QWORD (RmReg (RReg 0)) (RmiImm (ELit 1)); IRet].
Definition hA : list op := [OLabel; OLabel; OLabel; asm bodyX; OFinalize; asm bodyY; asm bodyZ; OFinalize].
Definition sA : jit := the (run hA newD).
Definition psA : list piece := program hA newD.
Definition atA (u k : nat) : Z := marks_of sA [(P0, [0; 0; 10; 15; 19; 19; 20]); (P0, [20; 20; 25; 29; 34; 38; 38; 39]); (P0, [39; 39; 43; 44])] u k.
Definition stA : mach := mkMach (fun i => if i =? 4 then 4096 else 0) (fun _ => 0) no_flags (fun a => if a <? 65536 then 0 else mem sA a).
Lemma runA : run hA newD = Some sA. Proof. apply some_the. vm_compute. reflexivity. Qed.
Lemma progA_eq : map p_blk psA = [mkBlk evD lenvD rD bodyX; mkBlk evD lenvD rD bodyY; mkBlk evD lenvD rD bodyZ].
Proof. vm_compute. reflexivity. Qed.
Definition whereA : list (option (Z * origin) * option (Z * origin) * option (Z * origin)) := map (fun p => (p_refers p 0%nat, p_refers p 1%nat, p_refers p 2%nat)) psA.
Lemma whereA_eq : whereA =
  [(Some (65536, ByStmt 0 0), Some (65536 + 19, ByStmt 0 4), Some (65536 + 20, ByStmt 1 0));
   (Some (65536, ByStmt 0 0), Some (65536 + 39, ByStmt 2 0), Some (65536 + 20, ByStmt 1 0));
   (Some (65536, ByStmt 0 0), Some (65536 + 39, ByStmt 2 0), Some (65536 + 20, ByStmt 1 0))].
Proof. vm_compute. reflexivity. Qed.
Lemma linkedA : all_linked psA.
Proof.
  intros p Hp. assert (Hb : In (p_blk p) (map p_blk psA)) by (apply in_map, Hp). rewrite progA_eq in Hb.
  assert (Hw : In (p_refers p 0%nat, p_refers p 1%nat, p_refers p 2%nat) whereA) by (apply (in_map (fun p => (p_refers p 0%nat, p_refers p 1%nat, p_refers p 2%nat))), Hp).
  rewrite whereA_eq in Hw. clear Hp.
  assert (N : p_refers p 0%nat <> None /\ p_refers p 1%nat <> None /\ p_refers p 2%nat <> None).
  { destruct Hw as [Hw|[Hw|[Hw|[]]]]; injection Hw as <- <- <-; repeat split; discriminate. }
  destruct N as (N0 & N1 & N2).
  destruct Hb as [<-|[<-|[<-|[]]]]; (split; [repeat split; cbn; auto; repeat constructor|]); intros x Hx; vm_compute in Hx; intuition; subst; auto.
Qed.
Lemma case69 : reached newD /\ forallb api hA = true /\ run hA newD = Some sA /\ all_linked psA /\
  map p_blk psA = [mkBlk evD lenvD rD bodyX; mkBlk evD lenvD rD bodyY; mkBlk evD lenvD rD bodyZ] /\ whereA =
    [(Some (65536, ByStmt 0 0), Some (65536 + 19, ByStmt 0 4), Some (65536 + 20, ByStmt 1 0));
     (Some (65536, ByStmt 0 0), Some (65536 + 39, ByStmt 2 0), Some (65536 + 20, ByStmt 1 0));
     (Some (65536, ByStmt 0 0), Some (65536 + 39, ByStmt 2 0), Some (65536 + 20, ByStmt 1 0))] /\
  map (fun n => shownM (arun mach x86 psA atA n (At 1 1) stA)) (seq 0 9) =
    [Some (At 1 1, 0, 4096); Some (At 0 1, 0, 4088); Some (At 0 2, 5, 4088); Some (At 0 5, 5, 4088); Some (At 1 2, 5, 4096); Some (At 1 3, 7, 4096);
     Some (At 2 1, 7, 4096); Some (At 2 2, 8, 4096); Some (Away 0, 8, 4104)] /\
  match cpu 8 (65536 + 20) stA with Some (pc, st) => pc = 0 /\ regs st 0 = 8 /\ regs st 4 = 4104 | None => False end.
Proof.
  split; [apply reached_new|]. split; [reflexivity|]. split; [exact runA|]. split; [exact linkedA|]. split; [exact progA_eq|]. split; [exact whereA_eq|].
  split; [vm_compute; reflexivity|]. vm_compute. repeat split; reflexivity.
Qed.
(** A block that defines the label of a constant: its jump goes to the constant, which finalize places at 16. *)
Definition hK : list op := [OCreate (KI64 7); asm [ILabel "a"; IJmp (DestRel "a")]; OFinalize].
Definition sK : jit := the (run hK newD).
Lemma caseK : run hK newD = Some sK /\ map (fun p => p_refers p 0%nat) (program hK newD) = [Some (65536 + 16, Otherwise)] /\
  bytes sK P0 0 5 = [0xe9; 11; 0; 0; 0] /\ bytes sK P0 16 8 = [7; 0; 0; 0; 0; 0; 0; 0].
Proof. split; [apply some_the; vm_compute; reflexivity|]. repeat split; vm_compute; reflexivity. Qed.
