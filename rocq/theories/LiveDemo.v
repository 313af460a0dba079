(** A program whose jump is patched to a block assembled later, and back. *)
From Verif Require Import Base ModelMem ModelEnc ModelSyntax ModelMacro SpecX86 SpecAsm SpecTaken SpecState SpecHist MemRun MemDemo SpecProg SpecMachine SpecScope SpecMulti MultiDemo SpecLive.
Local Notation length := List.length.
Local Open Scope list_scope.
Local Open Scope Z_scope.

(** a: movq rax, 5; b: jmp c; c: addq rax, 1; ret     and later, on page 1,   p: addq rax, 10; jmp c *)
Definition bodyL (y : string) : list inst :=
  [ILabel "a"; IMovq (MovReg (RReg 0)) (MovImm (ELit 5) None); ILabel "b"; IJmp (DestRel y); ILabel "c"; IAdd QWORD (RmReg (RReg 0)) (RmiImm (ELit 1)); IRet].
Definition bodyM : list inst := [ILabel "p"; IAdd QWORD (RmReg (RReg 0)) (RmiImm (ELit 10)); IJmp (DestRel "c")].
Definition blkL (y : string) : blk := mkBlk evD lenvD rD (bodyL y).
Definition blkM : blk := mkBlk evD lenvD rD bodyM.
Definition hL1 : list op := [OLabel; OLabel; OLabel; OLabel; asm (bodyL "c")].
Definition hL2 : list op := [OSelect 1; asm bodyM].
Definition sL1 : jit := the (run (hL1 ++ [OFinalize]) newD).
Definition sL2 : jit := the (run (hL2 ++ [OFinalize]) sL1).
Definition oL3 : op := OPatch (lenvD "b") (lenvD "p").
Definition sL3 : jit := the (after oL3 sL2).
Definition oL4 : op := OPatchAddr (base newD + 10) (lenvD "c").
Definition sL4 : jit := the (after oL4 sL3).
Definition placesL : list place_of := [(P0, [0; 0; 10; 10; 15; 15; 19; 20]); (P1, [0; 0; 4; 9])].
Definition stL (s : jit) : mach := mkMach (fun i => if i =? 4 then 4096 else 0) (fun _ => 0) no_flags (mem s).
Definition shownL (s : jit) (prog : list blk) (n : nat) : option (spot * Z) :=
  match prun mach x86 prog (final s) (marks_of s placesL) n (At 0 1) (stL s) with
  | PInside _ w st => Some (w, regs st 0) | PGone _ _ a st => Some (Away a, regs st 0) | PFaulted _ => None end.
Definition cpuL (s : jit) (n : nat) : option Z := match cpu n (base newD) (stL s) with Some (_, st) => Some (regs st 0) | None => None end.

Lemma runL1 : run (hL1 ++ [OFinalize]) newD = Some sL1. Proof. apply some_the. vm_compute. reflexivity. Qed.
Lemma runL2 : run (hL2 ++ [OFinalize]) sL1 = Some sL2. Proof. apply some_the. vm_compute. reflexivity. Qed.
Lemma blocksL1 : blocks hL1 newD = [blkL "c"]. Proof. vm_compute. reflexivity. Qed.
Lemma blocksL2 : blocks hL2 sL1 = [blkM]. Proof. vm_compute. reflexivity. Qed.
Lemma blocksL1' : blocks (hL1 ++ [OFinalize]) newD = [blkL "c"]. Proof. vm_compute. reflexivity. Qed.
Lemma blocksL2' : blocks (hL2 ++ [OFinalize]) sL1 = [blkM]. Proof. vm_compute. reflexivity. Qed.
Lemma step_after o s s' y : step o s = Ok y s' -> after o s = Some s'. Proof. intro E. unfold after. rewrite E. reflexivity. Qed.
Lemma state_of (ops : list op) s0 s (P : jit -> Prop) : run ops s0 = Some s -> P (the (run ops s0)) -> P s.
Proof. intros -> H. exact H. Qed.
Lemma boundL1 : bound_once (hL1 ++ [OFinalize]) newD.
Proof.
  split.
  - intros pre o rest s l E Hr Hb.
    assert (D : (pre = firstn 4 hL1 /\ o = asm (bodyL "c")) \/ match o with OLabel | OSelect _ | OFinalize => True | _ => False end).
    { unfold hL1 in *. cbn [app firstn] in *. do 6 (destruct pre as [|? pre]; [injection E as <- _; auto 8|cbn [app] in E; injection E as <- E]). destruct pre; discriminate E. }
    apply free_ok. destruct D as [[-> ->]|D]; [|elim (no_call o l D Hb)].
    apply (state_of _ _ s (free l) Hr); clear Hr E; destruct Hb as (x & Hx & <-); cbn in Hx; intuition; try discriminate; match goal with H : ILabel _ = ILabel _ |- _ => injection H as <- end; vm_compute; repeat split.
  - intros b Hb. rewrite blocksL1' in Hb. destruct Hb as [<-|[]]. vm_compute. repeat constructor; cbn; intuition discriminate.
Qed.
Lemma boundL2 : bound_once (hL2 ++ [OFinalize]) sL1.
Proof.
  split.
  - intros pre o rest s l E Hr Hb.
    assert (D : (pre = firstn 1 hL2 /\ o = asm bodyM) \/ match o with OLabel | OSelect _ | OFinalize => True | _ => False end).
    { unfold hL2 in *. cbn [app firstn] in *. do 3 (destruct pre as [|? pre]; [injection E as <- _; auto 8|cbn [app] in E; injection E as <- E]). destruct pre; discriminate E. }
    apply free_ok. destruct D as [[-> ->]|D]; [|elim (no_call o l D Hb)].
    apply (state_of _ _ s (free l) Hr); clear Hr E; destruct Hb as (x & Hx & <-); cbn in Hx; intuition; try discriminate; match goal with H : ILabel _ = ILabel _ |- _ => injection H as <- end; vm_compute; repeat split.
  - intros b Hb. rewrite blocksL2' in Hb. destruct Hb as [<-|[]]. vm_compute. repeat constructor; cbn; intuition discriminate.
Qed.
Lemma completeL1 : complete hL1 newD sL1.
Proof.
  intros b Hb. rewrite blocksL1 in Hb. destruct Hb as [<-|[]].
  split; [repeat split; cbn; auto; repeat constructor|]; intros x Hx; vm_compute in Hx; intuition; subst; vm_compute in *; discriminate.
Qed.
Lemma completeL2 : complete hL2 sL1 sL2.
Proof.
  intros b Hb. rewrite blocksL2 in Hb. destruct Hb as [<-|[]].
  split; [repeat split; cbn; auto; repeat constructor|]; intros x Hx; vm_compute in Hx; intuition; subst; vm_compute in *; discriminate.
Qed.
Lemma stepL3 : step oL3 sL2 = Ok None sL3.
Proof.
  assert (E : match step oL3 sL2 with Ok None _ => true | _ => false end = true) by (vm_compute; reflexivity).
  unfold sL3, after. destruct (step oL3 sL2) as [[|] s|]; try discriminate E. reflexivity.
Qed.
Lemma stepL4 : step oL4 sL3 = Ok None sL4.
Proof.
  assert (E : match step oL4 sL3 with Ok None _ => true | _ => false end = true) by (vm_compute; reflexivity).
  unfold sL4, after. destruct (step oL4 sL3) as [[|] s|]; try discriminate E. reflexivity.
Qed.
Lemma pointL y : patch_point (blkL y) (lenvD "b") 3.
Proof. exists 2%nat, "b"%string. split; [reflexivity|]. split; [reflexivity|]. split; [lia|]. intros n i Hn. lia. Qed.
Lemma retargetL y z : retargeted (blkL y) 3 (lenvD z) (blkL z).
Proof. exists z, lenvD, (firstn 3 (bodyL y)), (IJmp (DestRel y)), (IJmp (DestRel z)), (skipn 4 (bodyL y)). repeat split; reflexivity. Qed.
Lemma livesL1 : lives newD sL1 [blkL "c"].
Proof. rewrite <- blocksL1. apply (lives_grow newD hL1 newD sL1 [] (lives_none newD)); [reflexivity|exact runL1|exact boundL1|exact completeL1]. Qed.
Lemma livesL2 : lives newD sL2 [blkL "c"; blkM].
Proof. change [blkL "c"; blkM] with ([blkL "c"] ++ [blkM]). rewrite <- blocksL2. apply (lives_grow newD hL2 sL1 sL2 _ livesL1); [reflexivity|exact runL2|exact boundL2|exact completeL2]. Qed.
Lemma livesL3 : lives newD sL3 [blkL "p"; blkM].
Proof.
  apply (lives_patch newD oL3 (lenvD "b") (lenvD "p") 3 None sL2 sL3 [] (blkL "c") (blkL "p") [blkM] livesL2 (pointL _)); [left; reflexivity|exact stepL3|apply retargetL].
Qed.
Lemma livesL4 : lives newD sL4 [blkL "c"; blkM].
Proof.
  apply (lives_patch newD oL4 (lenvD "b") (lenvD "c") 3 None sL3 sL4 [] (blkL "p") (blkL "c") [blkM] livesL3 (pointL _)); [|exact stepL4|apply retargetL].
  right. exists (base newD + 10). split; [vm_compute; reflexivity|reflexivity].
Qed.
Lemma case56 : reached newD /\ lives newD sL2 [blkL "c"; blkM] /\ lives newD sL3 [blkL "p"; blkM] /\ lives newD sL4 [blkL "c"; blkM] /\
  map (shownL sL2 [blkL "c"; blkM]) (seq 0 4) = [Some (At 0 1, 0); Some (At 0 3, 5); Some (At 0 5, 5); Some (At 0 6, 6)] /\
  map (shownL sL3 [blkL "p"; blkM]) (seq 0 6) = [Some (At 0 1, 0); Some (At 0 3, 5); Some (At 1 1, 5); Some (At 1 2, 15); Some (At 0 5, 15); Some (At 0 6, 16)] /\
  cpuL sL2 3 = Some 6 /\ cpuL sL3 5 = Some 16 /\ cpuL sL4 3 = Some 6.
Proof.
  split; [apply reached_new|]. split; [exact livesL2|]. split; [exact livesL3|]. split; [exact livesL4|]. split; [vm_compute; reflexivity|]. split; [vm_compute; reflexivity|].
  split; [vm_compute; reflexivity|]. split; vm_compute; reflexivity.
Qed.

(** b: je c; ret; c: ret; p: ret     patched at b to go to p. *)
Definition bodyJ : list inst := [ILabel "b"; IJcc CEq "c"; IRet; ILabel "c"; IRet; ILabel "p"; IRet].
Definition sJ : jit := the (run [OLabel; OLabel; OLabel; OLabel; asm bodyJ; OFinalize] newD).
Definition sJ' : jit := the (after oL3 sJ).
Lemma patched_jcc : exists s s' l d a,
  reached s /\ label_addr s l = Some a /\ label_addr s d <> None /\ (forall rest, decode (read (mem s) a 6 ++ rest) = Some (mkIns (Jcc 4) W64 [ORel 1], rest)) /\
  step (OPatch l d) s = Ok None s' /\ (forall rest, decode (read (mem s') a 6 ++ rest) = None).
Proof.
  exists sJ, sJ', (lenvD "b"), (lenvD "p"), 65536. split.
  { apply (reached_run [OLabel; OLabel; OLabel; OLabel; asm bodyJ; OFinalize] newD); [apply reached_new|reflexivity|]. apply some_the. vm_compute. reflexivity. }
  split; [vm_compute; reflexivity|]. split; [vm_compute; discriminate|]. split.
  - replace (read (mem sJ) 65536 6) with [15; 132; 1; 0; 0; 0] by (vm_compute; reflexivity). intro rest. reflexivity.
  - split.
    + assert (E : match step oL3 sJ with Ok None _ => true | _ => false end = true) by (vm_compute; reflexivity).
      unfold sJ', after. fold oL3. destruct (step oL3 sJ) as [[|] s|]; try discriminate E. reflexivity.
    + replace (read (mem sJ') 65536 6) with [15; 3; 0; 0; 0; 0] by (vm_compute; reflexivity). intro rest. reflexivity.
Qed.
