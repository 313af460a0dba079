(** here() is jit.get_current_address(), pos() the same from the start of the page, and skip()
    emits the byte 90 and gives 5.
    movq rax, (here()); addl rbx, (skip()); movl rcx, (pos()); ret *)
From Verif Require Import Base ModelMem ModelSyntax ModelMacro ModelEff ModelUse SpecX86 SpecAsm SpecState SpecHist MemDemo SpecProg ProgDemo SpecEff EffDemo SpecLeave SpecUse UseFacts UseBlock.
Local Open Scope list_scope.
Local Open Scope Z_scope.
Definition address (s : jit) : Z := match get_current_address s with Ok a _ => a | Panic _ _ => 0 end.
Definition evR (s : jit) (ts : list tok) (r : env) (n : Z) : Z * Z :=
  match ts with
  | TIdent "here" :: _ => (address s, n)
  | TIdent "pos" :: _ => (address s - base s, n)
  | _ => (n, n + 1)
  end.
Definition evU (ts : list tok) (r : env) (x : Z * jit) : Z * (Z * jit) :=
  match ts with
  | TIdent "skip" :: _ => (5, (fst x, outcome (step (OEmit [0x90]) (snd x))))
  | _ => reading evR ts r x
  end.
Definition progU : list inst :=
  [IMovq (MovReg (RReg 0)) (MovImm (call "here") None); IAdd DWORD (RmReg (RReg 3)) (RmiImm (call "skip")); IMovl (RmReg (RReg 1)) (RmiImm (call "pos")); IRet].
Definition runU (body : list inst) : eres Z := u_block Z evU lenvD rD body 1 newD.
Lemma case57 : Forall (fun i => evaluated_once i /\ prefix_of i = None) progU /\ (exists q, runU progU = EOk Z q 1 (final (runU progU))) /\
  bytes (final (runU progU)) P0 0 20 = [0x48; 0xb8; 0; 0; 1; 0; 0; 0; 0; 0;  0x90; 0x83; 0xc3; 5;  0xb9; 14; 0; 0; 0;  0xc3].
Proof. split; [repeat constructor|]. split; [apply world_ok; vm_compute; reflexivity|]. vm_compute. reflexivity. Qed.
Definition progV : list inst := [IMovl (RmReg (RReg 1)) (RmiImm (call "pos")); IMovl (RmReg (RReg 2)) (RmiImm (call "pos")); IRet].
Lemma case57_read : Forall (fun i => prefix_of i = None) progV /\
  bytes (final (u_block Z (reading evR) lenvD rD progV 1 newD)) P0 0 11 = [0xb9; 0; 0; 0; 0;  0xba; 5; 0; 0; 0;  0xc3].
Proof. split; [repeat constructor|]. vm_compute. reflexivity. Qed.

(** addw [rax + (pos())], rcx at the start of the page: the expression gives 1. *)
Definition addw : list inst := [IAdd WORD (RmInd (mkInd (RReg 0) PScaleNone (PExpr false (call "pos")))) (RmiReg (RReg 1))].
Lemma sees_prefix : exists W ev lenv r body w s r1 w1 s1 r2 w2 s2, reached s /\ Forall evaluated_once body /\
  u_block W (reading ev) lenv r body w s = EOk W r1 w1 s1 /\ seen_before ev lenv r body w s = EOk W r2 w2 s2 /\ bytes s1 P0 0 4 <> bytes s2 P0 0 4.
Proof.
  destruct (world_ok (u_block Z (reading evR) lenvD rD addw 1 newD) 1 ltac:(vm_compute; reflexivity)) as [q1 E1].
  destruct (world_ok (seen_before evR lenvD rD addw 1 newD) 1 ltac:(vm_compute; reflexivity)) as [q2 E2].
  exists Z, evR, lenvD, rD, addw, 1, newD. do 6 eexists. split; [apply reached_new|]. split; [repeat constructor|]. split; [exact E1|]. split; [exact E2|].
  intro H. vm_compute in H. discriminate H.
Qed.
