(** Three blocks on two pages that call each other. *)
From Verif Require Import Base ModelMem ModelEnc ModelSyntax ModelMacro SpecX86 SpecAsm SpecTaken SpecState SpecHist MemRun MemDemo SpecProg SpecMachine SpecScope SpecMulti.
Local Notation length := List.length.
Local Open Scope list_scope.
Local Open Scope Z_scope.

(** a: movq rax, 5; call b      on page 0, and after it, assembled later,  c: addq rax, 1; ret
    b: addq rax, 2; call c; ret    on page 1. *)
Definition bodyA : list inst := [ILabel "a"; IMovq (MovReg (RReg 0)) (MovImm (ELit 5) None); ICall (DestRel "b")].
Definition bodyB : list inst := [ILabel "b"; IAdd QWORD (RmReg (RReg 0)) (RmiImm (ELit 2)); ICall (DestRel "c"); IRet].
Definition bodyC : list inst := [ILabel "c"; IAdd QWORD (RmReg (RReg 0)) (RmiImm (ELit 1)); IRet].
Definition hM : list op := [OLabel; OLabel; OLabel; asm bodyA; OSelect 1; asm bodyB; OFinalize; OSelect 0; asm bodyC].
Definition sM : jit := the (run (hM ++ [OFinalize]) newD).
Definition progM : list blk := blocks hM newD.
Definition atM (u k : nat) : Z := marks_of sM [(P0, [0; 0; 10; 15]); (P1, [0; 0; 4; 9; 10]); (P0, [15; 15; 19; 20])] u k.
Definition stM : mach := mkMach (fun i => if i =? 4 then 4096 else 0) (fun _ => 0) no_flags (fun _ => 0).
Definition shownM (r : presult mach) : option (spot * Z * Z) :=
  match r with PInside _ w st => Some (w, regs st 0, regs st 4) | PGone _ _ a st => Some (Away a, regs st 0, regs st 4) | PFaulted _ => None end.
Definition stM' : mach := mkMach (fun i => if i =? 4 then 4096 else 0) (fun _ => 0) no_flags (mem sM).
Lemma runM : run (hM ++ [OFinalize]) newD = Some sM. Proof. apply some_the. vm_compute. reflexivity. Qed.
Lemma progM_eq : progM = [mkBlk evD lenvD rD bodyA; mkBlk evD lenvD rD bodyB; mkBlk evD lenvD rD bodyC].
Proof. vm_compute. reflexivity. Qed.
Lemma no_call o l : match o with OLabel | OSelect _ | OFinalize => True | _ => False end -> binds_label o l -> False.
Proof. destruct o; intros H; try (elim H; fail); intro K; exact K. Qed.
Lemma some_state (ops : list op) s (P : jit -> Prop) : run ops newD = Some s -> P (the (run ops newD)) -> P s.
Proof. intros -> H. exact H. Qed.
Definition free (l : label) (s : jit) : Prop := label_addr s l = None /\ waiting s P0 = [] /\ waiting s P1 = [] /\ waiting s P2 = [].
Lemma free_ok l s : free l s -> label_addr s l = None /\ forall q e, In e (waiting s q) -> snd e <> l.
Proof. intros (A & W0 & W1 & W2). split; [exact A|]. intros q e He. destruct q; [rewrite W0 in He|rewrite W1 in He|rewrite W2 in He]; contradiction. Qed.
Lemma blocks_all : blocks (hM ++ [OFinalize]) newD = progM.
Proof. vm_compute. reflexivity. Qed.
Lemma boundM : bound_once (hM ++ [OFinalize]) newD.
Proof.
  split.
  - intros pre o rest s l E Hr Hb.
    assert (D : (pre = firstn 3 hM /\ o = asm bodyA) \/ (pre = firstn 5 hM /\ o = asm bodyB) \/ (pre = firstn 8 hM /\ o = asm bodyC) \/
                match o with OLabel | OSelect _ | OFinalize => True | _ => False end).
    { unfold hM in *. cbn [app firstn] in *. do 10 (destruct pre as [|? pre]; [injection E as <- _; auto 8|cbn [app] in E; injection E as <- E]). destruct pre; discriminate E. }
    apply free_ok. destruct D as [[-> ->]|[[-> ->]|[[-> ->]|D]]]; [| | |elim (no_call o l D Hb)];
      (apply (some_state _ s (free l) Hr); clear Hr E; destruct Hb as (x & Hx & <-); cbn in Hx; intuition; try discriminate; match goal with H : ILabel _ = ILabel _ |- _ => injection H as <- end; vm_compute; repeat split).
  - intros b Hb. rewrite blocks_all, progM_eq in Hb.
    destruct Hb as [<-|[<-|[<-|[]]]]; vm_compute; repeat constructor; intros [].
Qed.
Lemma completeM : complete hM newD sM.
Proof.
  intros b Hb. fold progM in Hb. rewrite progM_eq in Hb.
  destruct Hb as [<-|[<-|[<-|[]]]]; (split; [repeat split; cbn; auto; repeat constructor|]); intros x Hx; vm_compute in Hx; intuition; subst; vm_compute in *; discriminate.
Qed.
Lemma case54 : reached newD /\ forallb api hM = true /\ run (hM ++ [OFinalize]) newD = Some sM /\ bound_once (hM ++ [OFinalize]) newD /\ complete hM newD sM /\
  progM = [mkBlk evD lenvD rD bodyA; mkBlk evD lenvD rD bodyB; mkBlk evD lenvD rD bodyC] /\
  map (fun n => shownM (prun mach x86 progM (final sM) atM n (goto progM (final sM) atM (lenvD "a")) stM)) (seq 0 10) =
    [Some (At 0 1, 0, 4096); Some (At 0 2, 5, 4096); Some (At 1 1, 5, 4088); Some (At 1 2, 7, 4088); Some (At 2 1, 7, 4080); Some (At 2 2, 8, 4080);
     Some (At 1 3, 8, 4088); Some (At 2 1, 8, 4096); Some (At 2 2, 9, 4096); Some (Away 0, 9, 4104)] /\
  match cpu 9 65536 stM' with Some (pc, st) => regs st 0 = 9 /\ regs st 4 = 4104 | None => False end.
Proof.
  split; [apply reached_new|]. split; [reflexivity|]. split; [exact runM|]. split; [exact boundM|]. split; [exact completeM|]. split; [exact progM_eq|]. split; [vm_compute; reflexivity|].
  vm_compute. split; reflexivity.
Qed.
