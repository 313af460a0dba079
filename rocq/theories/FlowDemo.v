(** here() is jit.get_current_address(), pos() the same from the start of the page, skip() emits the
    byte 90 and gives 5, and quit() emits the byte cc and returns from the caller's function.
    addl rbx, (skip()); movq [rcx + (pos())], (skip()); movl [rdx + (quit())], (skip()); ret *)
From Verif Require Import Base ModelMem ModelSyntax ModelMacro ModelEff ModelLeave ModelUse ModelFlow SpecX86 SpecAsm SpecState SpecHist MemDemo SpecProg ProgDemo SpecEff EffDemo SpecLeave SpecUse UseDemo SpecFlow FlowStmt FlowBlock.
Local Open Scope list_scope.
Local Open Scope Z_scope.
Definition evQ (ts : list tok) (r : env) (x : Z * jit) : option Z * (Z * jit) :=
  match ts with
  | TIdent "quit" :: _ => (None, (fst x, outcome (step (OEmit [0xcc]) (snd x))))
  | _ => let (v, x1) := evU ts r x in (Some v, x1)
  end.
Definition progQ : list inst :=
  [IAdd DWORD (RmReg (RReg 3)) (RmiImm (call "skip"));
   IMovq (MovInd (mkInd (RReg 1) PScaleNone (PExpr false (call "pos")))) (MovImm (call "skip") None);
   IMovl (RmInd (mkInd (RReg 2) PScaleNone (PExpr false (call "quit")))) (RmiImm (call "skip")); IRet].
Definition lfinal (x : lres Z) : jit := match x with LOk _ _ _ s | LFail _ _ _ s | LLeft _ _ s => s end.
Definition is_left (x : lres Z) : bool := match x with LLeft _ _ _ => true | _ => false end.
Definition runQ (body : list inst) : lres Z := f_block Z evQ lenvD rD body 1 newD.
Lemma case62 : Forall (fun i => evaluated_once i /\ prefix_of i = None) progQ /\ is_left (runQ progQ) = true /\
  bytes (lfinal (runQ progQ)) P0 0 15 = [0x90; 0x83; 0xc3; 5;  0x90; 0x48; 0xc7; 0x41; 5; 5; 0; 0; 0;  0x90; 0xcc] /\ cursor (lfinal (runQ progQ)) = 15.
Proof. split; [repeat constructor|]. split; [vm_compute; reflexivity|]. split; vm_compute; reflexivity. Qed.
(** movl [rdx + (quit())], (1 << 32): the immediate is refused before quit() is evaluated. *)
Definition evB (ts : list tok) (r : env) (x : Z * jit) : option Z * (Z * jit) :=
  match ts with TIdent "big" :: _ => (Some (2 ^ 32), x) | _ => evQ ts r x end.
Definition progB : list inst := [IMovl (RmInd (mkInd (RReg 2) PScaleNone (PExpr false (call "quit")))) (RmiImm (call "big"))].
Lemma case62_early : ended (f_block Z evB lenvD rD progB 1 newD) = Stopped ImmRange.
Proof. vm_compute. reflexivity. Qed.
(** subb rcx, (twice()) where twice() gives 300 the first time and
    leaves the second time: the second evaluation is for the text of the panic.  movl R(quit()), (big()):
    the text shows the register. *)
Definition evT (ts : list tok) (r : env) (x : Z * jit) : option Z * (Z * jit) :=
  match ts with
  | TIdent "twice" :: _ => if fst x =? 1 then (Some 300, (2, snd x)) else (None, (3, outcome (step (OEmit [0xcc]) (snd x))))
  | _ => evB ts r x
  end.
Definition leftT (body : list inst) : Z * Z * list Z :=
  match f_block Z evT lenvD rD body 1 newD with LLeft _ w s => (w, cursor s, bytes s P0 0 1) | _ => (0, 0, []) end.
Lemma case62_shown : leftT [ISub BYTE (RmReg (RReg 1)) (RmiImm (call "twice"))] = (3, 1, [0xcc]) /\ leftT [IMovl (RmReg (RExpr (call "quit"))) (RmiImm (call "big"))] = (1, 1, [0xcc]) /\
  ended (f_block Z evT lenvD rD [ISub DWORD (RmReg (RExpr (call "quit"))) (RmiImm (call "big"))] 1 newD) = Stopped ImmRange.
Proof. repeat split; vm_compute; reflexivity. Qed.
