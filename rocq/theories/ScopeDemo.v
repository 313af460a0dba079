(** In the scope of a variable imm = 3:
    movq rax, 5; movq rbx, (imm); movq [R(imm)], 2; movl R(imm), [rax + (imm)]; ret. *)
From Verif Require Import Base ModelMem ModelSyntax ModelMacro SpecX86 SpecAsm SpecTaken SpecState SpecHist MemDemo SpecProg ProgDemo SpecScope.
Local Open Scope list_scope.
Local Open Scope Z_scope.
Definition at_imm (d : pdisp) (g : register) : ind_addr := mkInd g PScaleNone d.
Definition progI : list inst :=
  [IMovq (MovReg (RReg 0)) (MovImm (ELit 5) None); IMovq (MovReg (RReg 3)) (MovImm imm_var None);
   IMovq (MovInd (at_imm (PImm 0) (RExpr imm_var))) (MovImm (ELit 2) None);
   IMovl (RmReg (RExpr imm_var)) (RmiInd (at_imm (PExpr false imm_var) (RReg 0))); IRet].
Definition sI : jit := outcome (step (OAsm evI lenvD rI progI) newD).
Lemma typedI : typed evI rI progI.
Proof. cbn. repeat split; repeat constructor. Qed.
Lemma case52 : typed evI rI progI /\ step (OAsm evI lenvD rI progI) newD = Ok None sI /\
  frozen evI rI progI = [IMovq (MovReg (RReg 0)) (MovImm (ELit 5) None); IMovq (MovReg (RReg 3)) (MovImm (ELit 5) None);
    IMovq (MovInd (at_imm (PImm 0) (RExpr (ELit 2)))) (MovImm (ELit 2) None);
    IMovl (RmReg (RExpr (ELit 2))) (RmiInd (at_imm (PExpr false (ELit 2)) (RReg 0))); IRet] /\
  bytes sI P0 0 31 = [0x48; 0xb8; 5; 0; 0; 0; 0; 0; 0; 0;  0x48; 0xbb; 5; 0; 0; 0; 0; 0; 0; 0;  0x48; 0xc7; 2; 2; 0; 0; 0;  0x8b; 0x50; 2;  0xc3].
Proof.
  split; [exact typedI|]. split; [apply ok_none; vm_compute; reflexivity|]. split; vm_compute; reflexivity.
Qed.
