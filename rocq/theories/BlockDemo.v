(** A block with operands the machine does not have, for C48. *)
From Verif Require Import Base ModelMem ModelEnc ModelSyntax ModelMacro SpecX86 SpecAsm SpecTaken SpecState SpecHist EncFacts MemRun MemThm MemDemo EncRefute SpecProg ProgExec ProgDemo SpecMachine SpecCpu MachDemo.
Local Notation length := List.length.
Local Open Scope list_scope.
Local Open Scope Z_scope.

(** movq R(25), 7;  a: cvttsd2siq rax, [rip + c];  roundpd xmm1, [rip + c], 1;  subq r9, 7;  jne a;  ret *)
Definition progT : list inst :=
  [IMovq (MovReg (RExpr (ELit 25))) (MovImm (ELit 7) None);
   ILabel "a";
   ICvttsd2siq (RReg 0) (XmInd (riprel "c"));
   IRoundpd (ELit 1) (XmInd (riprel "c")) (ELit 1);
   ISub QWORD (RmReg (RReg 9)) (RmiImm (ELit 7));
   IJcc CNe "a";
   IRet].
(** The labels a, b and the constant c = 2^32 exist; one instruction precedes the block. *)
Definition sT : jit := the (run [OLabel; OLabel; OCreate (KF64 0x41f0000000000000); asm [IRet]] newD).
Definition opT : op := asm progT.
Definition sT1 : jit := outcome (step opT sT).
Definition hT : list op := [OFinalize].
Definition sT4 : jit := the (run hT sT1).
Definition targetT (x : string) : Z := if String.eqb x "a" then 65536 + 11 else 65536 + 48.
Definition marksT : list Z := [1; 11; 11; 19; 29; 33; 39; 40].
Definition atT (k : nat) : Z := 65536 + nth k marksT 0.

Lemma reachedT : reached sT.
Proof. apply (reached_run [OLabel; OLabel; OCreate (KF64 0x41f0000000000000); asm [IRet]] newD); [apply reached_new|reflexivity|]. apply some_the. vm_compute. reflexivity. Qed.
Lemma stepT : step opT sT = Ok None sT1.
Proof. apply ok_none. vm_compute. reflexivity. Qed.
Lemma runT : run hT sT1 = Some sT4.
Proof. apply some_the. vm_compute. reflexivity. Qed.
Lemma linkedT x : In x (body_labels progT) -> linked hT sT1 (lenvD x) = Some (targetT x).
Proof. intros [<-|[<-|[<-|[]]]]; vm_compute; reflexivity. Qed.
Lemma regularT : Forall (regular evD rD) progT.
Proof.
  assert (B : forall l, Forall (fun e => match e with ELit _ => True | _ => False end) l -> Forall (imm_blind evD rD) l)
    by (intros l H; eapply Forall_impl; [|exact H]; intros [v|ts] He r' _; [reflexivity|destruct He]).
  repeat constructor; try (apply B; repeat constructor); intros; repeat split; try exact Logic.I; repeat constructor; vm_compute; discriminate.
Qed.
Lemma ownT : own_labels lenvD progT sT hT.
Proof.
  split; [vm_compute; repeat constructor; cbn; intuition discriminate|].
  intros x Hx. split; [|split].
  - destruct Hx as [<-|[]]; vm_compute; lia.
  - intros q e He. destruct q; vm_compute in He; try contradiction. destruct He as [<-|[]]. cbn [snd]. destruct Hx as [<-|[]]; vm_compute; discriminate.
  - intros o Ho Hb. destruct Ho as [<-|[]]; cbn in Hb; contradiction.
Qed.
Lemma bytesT : bytes sT4 P0 1 39 =
  [0x49; 0xb9; 7; 0; 0; 0; 0; 0; 0; 0;  0xf2; 0x0f; 0x2c; 5; 29; 0; 0; 0;  0x66; 0x0f; 0x3a; 9; 13; 20; 0; 0; 0; 1;
   0x49; 0x83; 0xe9; 7;  0x0f; 0x85; 0xe4; 0xff; 0xff; 0xff;  0xc3].
Proof. vm_compute. reflexivity. Qed.
Lemma takenT : Forall (taken_as_ins (eval evD rD)) progT.
Proof. repeat constructor; intro; vm_compute; discriminate. Qed.
(** The written program converts 2^32 and rounds the constant; the assembled one
    converts to 32 bits and reads 16 bytes at the address after that of the constant. *)
Lemma case48 : reached sT /\ Forall (regular evD rD) progT /\ step opT sT = Ok None sT1 /\ run hT sT1 = Some sT4 /\ own_labels lenvD progT sT hT /\
  (forall x, In x (body_labels progT) -> linked hT sT1 (lenvD x) = Some (targetT x)) /\
  as_linked (eval evD rD) (fun l => targetT l - atT 4) (nth 3 progT IRet) = Some (mkIns Roundpd W64 [OXmm 1; OMem (mkMem (Some BRip) None (48 + 1 - 29)); OImm 1]) /\
  (exists st, srun mach x86 (as_linked (eval evD rD)) targetT atT progT 2 (Stmt 0) (stG (mem sT4)) = Inside (Stmt 3) st /\ regs st 9 = 7 /\ regs st 0 = 2 ^ 31) /\
  (exists st, cpu 2 (65536 + 1) (stG (mem sT4)) = Some (65536 + 19, st) /\ regs st 9 = 7 /\ regs st 0 = 2 ^ 31) /\
  srun mach x86 (as_linked (eval evD rD)) targetT atT progT 3 (Stmt 0) (stG (mem sT4)) = Faulted /\ cpu 3 (65536 + 1) (stG (mem sT4)) = None.
Proof.
  split; [exact reachedT|]. split; [exact regularT|]. split; [exact stepT|]. split; [exact runT|]. split; [exact ownT|]. split; [exact linkedT|].
  split; [vm_compute; reflexivity|]. split; [|split; [|split; vm_compute; reflexivity]].
  - assert (G : match srun mach x86 (as_linked (eval evD rD)) targetT atT progT 2 (Stmt 0) (stG (mem sT4)) with Inside (Stmt k) st => k = 3%nat /\ regs st 9 = 7 /\ regs st 0 = 2 ^ 31 | _ => False end)
      by (vm_compute; repeat split).
    destruct (srun _ _ _ _ _ _ 2 _ _) as [[k|a] st| |j a st]; try contradiction. destruct G as (-> & G). exists st. split; [reflexivity|exact G].
  - assert (G : match cpu 2 (65536 + 1) (stG (mem sT4)) with Some (pc, st) => pc = 65536 + 19 /\ regs st 9 = 7 /\ regs st 0 = 2 ^ 31 | None => False end)
      by (vm_compute; repeat split).
    destruct (cpu 2 _ _) as [[pc st]|]; [|contradiction]. destruct G as (-> & G). exists st. split; [reflexivity|exact G].
Qed.
