(** A concrete program: cases that meet the hypotheses of the statements about
    programs, and witnesses against the statements that do not hold as written. *)
From Verif Require Import Base ModelMem ModelEnc ModelSyntax ModelMacro SpecX86 SpecAsm SpecState SpecHist EncFacts MemRun MemThm MemDemo EncRefute SpecProg ProgExec ProgSim ProgSplit.
Local Notation length := List.length.
Local Open Scope list_scope.
Local Open Scope Z_scope.

(** movq rax, 0;  a: addq rax, 3;  cmpq rax, 10;  jge b;  jmp a;  dq 7;  b: movsd xmm0, [rip + c];  ret *)
Definition prog : list inst :=
  [IMovq (MovReg (RReg 0)) (MovImm (ELit 0) None);
   ILabel "a";
   IAdd QWORD (RmReg (RReg 0)) (RmiImm (ELit 3));
   ICmp QWORD (RmReg (RReg 0)) (RmiImm (ELit 10));
   IJcc CGe "b";
   IJmp (DestRel "a");
   II64 7;
   ILabel "b";
   IMovsd (XmXmm (ELit 0)) (XmInd (riprel "c"));
   IRet].
(** The labels a, b and the constant c exist; one instruction precedes the block. *)
Definition sG : jit := the (run [OLabel; OLabel; OCreate (KF64 0x3ff0000000000000); asm [IRet]] newD).
Definition opG : op := asm prog.
Definition sG1 : jit := outcome (step opG sG).
Definition hG : list op := [OSelect 1; asm [ICall (DestRel "a")]; OFinalize; asm [IRet]; OFinalize].
Definition sG4 : jit := the (run hG sG1).
Definition targetG (x : string) : Z :=
  if String.eqb x "a" then 65536 + 11 else if String.eqb x "b" then 65536 + 38 else 65536 + 48.

Lemma reachedG : reached sG.
Proof. apply (reached_run [OLabel; OLabel; OCreate (KF64 0x3ff0000000000000); asm [IRet]] newD); [apply reached_new|reflexivity|]. apply some_the. vm_compute. reflexivity. Qed.
Lemma stepG : step opG sG = Ok None sG1.
Proof. apply ok_none. vm_compute. reflexivity. Qed.
Lemma runG : run hG sG1 = Some sG4.
Proof. apply some_the. vm_compute. reflexivity. Qed.
Lemma linkedG x : In x (body_labels prog) -> linked hG sG1 (lenvD x) = Some (targetG x).
Proof. intros [<-|[<-|[<-|[]]]]; vm_compute; reflexivity. Qed.
Lemma plainG : Forall (plain evD rD) prog.
Proof.
  assert (B : forall l, Forall (fun e => match e with ELit _ => True | _ => False end) l -> Forall (imm_blind evD rD) l)
    by (intros l H; eapply Forall_impl; [|exact H]; intros [v|ts] He r' _; [reflexivity|destruct He]).
  repeat constructor; try (apply B; repeat constructor); intros; repeat split; try exact Logic.I; repeat constructor; vm_compute; discriminate.
Qed.
Lemma ownG : own_labels lenvD prog sG hG.
Proof.
  split; [vm_compute; repeat constructor; cbn; intuition discriminate|].
  intros x Hx. split; [|split].
  - destruct Hx as [<-|[<-|[]]]; vm_compute; lia.
  - intros q e He. destruct q; vm_compute in He; try contradiction. destruct He as [<-|[]]. cbn [snd]. destruct Hx as [<-|[<-|[]]]; vm_compute; discriminate.
  - intros o Ho Hb. destruct Ho as [<-|[<-|[<-|[<-|[<-|[]]]]]]; cbn in Hb; try contradiction; destruct Hb as (y & [K|[]] & _); discriminate K.
Qed.

(** A meaning of the instructions of [prog]: rax, and whether the last comparison found "greater or equal". *)
Definition semG (x : ins) (next : Z) (st : Z * bool) : option ((Z * bool) * ctl) :=
  match i_mnem x, i_ops x with
  | Mov, [OReg W64 0; OImm v] => Some ((v, snd st), Fall)
  | Alu ADD, [OReg W64 0; OImm v] => Some ((fst st + v, snd st), Fall)
  | Alu CMP, [OReg W64 0; OImm v] => Some ((fst st, v <=? fst st), Fall)
  | Jcc 13, _ => Some (st, if snd st then Taken else Fall)
  | Jmp, _ => Some (st, Taken)
  | MovF SD, _ => Some (st, Fall)
  | Ret, _ => Some (st, Jump 0)
  | _, _ => None
  end.
Lemma semG_same x y next st : same_ins x y -> semG x next st = semG y next st.
Proof. intros []; reflexivity. Qed.
Definition marksG : list Z := [1; 11; 11; 15; 19; 25; 30; 38; 38; 46; 47].
Definition atG (k : nat) : Z := 65536 + nth k marksG 0.

Lemma case34 : reached sG /\ Forall (plain evD rD) prog /\ step opG sG = Ok None sG1 /\ run hG sG1 = Some sG4 /\ own_labels lenvD prog sG hG /\
  (forall x, In x (body_labels prog) -> linked hG sG1 (lenvD x) = Some (targetG x)) /\
  srun (Z * bool) semG (denote (eval evD rD)) targetG atG prog 20 (Stmt 0) (5, false) = Gone 2 0 (12, true) /\
  mrun (Z * bool) semG (mem sG4) 18 (65536 + 1) (5, false) = Some (0, (12, true)).
Proof.
  split; [exact reachedG|]. split; [exact plainG|]. split; [exact stepG|]. split; [exact runG|]. split; [exact ownG|]. split; [exact linkedG|].
  split; vm_compute; reflexivity.
Qed.
Lemma case08 : bytes sG4 P0 1 46 =
  [0x48; 0xb8; 0; 0; 0; 0; 0; 0; 0; 0;  0x48; 0x83; 0xc0; 3;  0x48; 0x83; 0xf8; 10;  0x0f; 0x8d; 13; 0; 0; 0;
   0xe9; 0xed; 0xff; 0xff; 0xff;  7; 0; 0; 0; 0; 0; 0; 0;  0xf2; 0x0f; 0x10; 5; 2; 0; 0; 0;  0xc3].
Proof. vm_compute. reflexivity. Qed.

(** ** Witnesses *)
(** cvttsd2siq rax, xmm1 *)
Definition opV : op := asm [i_cvt].
Definition sV : jit := outcome (step opV newD).
Lemma stepV : step opV newD = Ok None sV. Proof. apply ok_none. vm_compute. reflexivity. Qed.
Lemma reachedN : reached newD. Proof. apply reached_new. Qed.
Lemma listing_cvt : exists ev lenv r body s o s1, reached s /\ Forall (ordinary ev r) body /\ body_labels body = [] /\ step (OAsm ev lenv r body) s = Ok o s1 /\
  forall target marks, hd_error marks = Some (cursor s) -> last marks 0 = cursor s1 -> ~ listing (denote (eval ev r)) target s1 (cur s) marks body.
Proof.
  exists evD, lenvD, rD, [i_cvt], newD, None, sV. split; [exact reachedN|]. split.
  { repeat constructor; try discriminate; intros v e H; destruct H. }
  split; [reflexivity|]. split; [exact stepV|]. intros target marks Hh Hl [Hn L].
  destruct marks as [|a [|b [|c marks]]]; try discriminate Hn. cbn in Hh, Hl. injection Hh as ->.
  specialize (L 0%nat _ _ _ eq_refl eq_refl eq_refl). rewrite Hl in L. destruct L as (_ & x & y & D & S & R). specialize (R []).
  vm_compute in D. injection D as <-. vm_compute in R. injection R as <-. inversion S.
Qed.
Definition semV (x : ins) (next : Z) (st : unit) : option (unit * ctl) := match i_width x with W64 => Some (st, Fall) | _ => None end.
Lemma run_cvt : exists mstate sem ev lenv r body s o s1, (forall x y next st, same_ins x y -> sem x next st = sem y next st) /\
  reached s /\ Forall (ordinary ev r) body /\ body_labels body = [] /\ defined body = [] /\ step (OAsm ev lenv r body) s = Ok o s1 /\
  exists st, forall target marks, hd_error marks = Some (cursor s) ->
    ~ same_run mstate sem (denote (eval ev r)) target (fun k => addr s1 (cur s) (nth k marks 0)) body (mem s1) 1 0 st.
Proof.
  exists unit, (fun x next st => match i_mnem x with Cvttf2si _ => semV x next st | _ => None end), evD, lenvD, rD, [i_cvt], newD, None, sV.
  split. { intros x y next st []; reflexivity. }
  split; [exact reachedN|]. split. { repeat constructor; try discriminate; intros v e H; destruct H. }
  split; [reflexivity|]. split; [reflexivity|]. split; [exact stepV|]. exists tt. intros target marks Hh.
  destruct marks as [|a marks]; [discriminate Hh|]. cbn in Hh. injection Hh as ->.
  unfold same_run. cbn [nth]. match goal with |- context [mrun ?A ?f ?m 1 ?a ?st] => replace (mrun A f m 1 a st) with (@None (Z * unit)) by (vm_compute; reflexivity) end.
  intro K. cbn in K. discriminate K.
Qed.
(** movq rax, 5; movq rbx, (imm)  in the scope of a variable imm = 3. *)
Definition evI : list tok -> env -> Z := fun _ r => r "imm"%string.
Definition rI : env := fun x => if String.eqb x "imm" then 3 else 0.
Definition imm_var : expr := EToks [].
Definition leakA : list inst := [IMovq (MovReg (RReg 0)) (MovImm (ELit 5) None)].
Definition leakB : list inst := [IMovq (MovReg (RReg 3)) (MovImm imm_var None)].
Lemma split_leak : exists ev lenv r a b s x y o1 o2, reached s /\ compile_all (a ++ b) <> None /\ step (OAsm ev lenv r (a ++ b)) s = Ok o1 x /\
  bind (step (OAsm ev lenv r a)) (fun _ => step (OAsm ev lenv r b)) s = Ok o2 y /\ exists p i, 0 <= i < cursor x /\ byte x p i <> byte y p i.
Proof.
  exists evI, lenvD, rI, leakA, leakB, newD. eexists. eexists. exists None, None. split; [exact reachedN|]. split; [vm_compute; discriminate|].
  split; [apply ok_none; vm_compute; reflexivity|]. split; [apply ok_none; vm_compute; reflexivity|]. exists P0, 12. split; vm_compute; [split; discriminate + reflexivity|discriminate].
Qed.
(** movq [R(imm)], 5  in the scope of a variable imm = 3. *)
Definition i_shadow : inst := IMovq (MovInd (mkInd (RExpr imm_var) PScaleNone (PImm 0))) (MovImm (ELit 5) None).
Lemma shadow : exists ev lenv r i g s r' s' x, is_instr i = true /\ wf_operands (eval ev r) i /\ roundpd_u8 ev r i /\ compile i = Some g /\
  exec ev lenv r g s = Ok r' s' /\ denote (eval ev r) (fun _ => 0) i = Some x /\ forall bs, grows s s' bs -> ~ reads_as bs x.
Proof.
  set (g := match compile i_shadow with Some g => g | None => GNil end).
  assert (E0 : is_ok (exec evI lenvD rI g newD) = true) by (vm_compute; reflexivity).
  destruct (ok_intro _ E0) as [r' E]. exists evI, lenvD, rI, i_shadow, g, newD, r', (state_of (exec evI lenvD rI g newD)). eexists.
  split; [reflexivity|]. split; [repeat constructor; vm_compute; discriminate|]. split; [exact Logic.I|]. split; [reflexivity|]. split; [exact E|]. split; [reflexivity|].
  intros bs G (y & Hs & Hy). apply grows_bytes in G. vm_compute in G. subst bs. specialize (Hy []).
  vm_compute in Hy. injection Hy as <-. vm_compute in Hs. inversion Hs.
Qed.
(** The same history at another address in memory with other contents. *)
Definition relG : list op := [OLabel; OLabel; OCreate (KF64 0x3ff0000000000000); asm [IRet]].
Lemma case31 : forallb relocatable relG = true /\ forallb relocatable hG = true /\ run relG newD = Some sG /\ step opG sG = Ok None sG1 /\ run hG sG1 = Some sG4 /\
  bytes (the (run (relG ++ opG :: hG) (jit_new 0x7f0000000000 (fun a => a mod 256)))) P0 1 46 = bytes sG4 P0 1 46.
Proof.
  split; [reflexivity|]. split; [reflexivity|]. split; [apply some_the; vm_compute; reflexivity|]. split; [exact stepG|]. split; [exact runG|]. vm_compute. reflexivity.
Qed.
Lemma case31s : compile_all prog <> None /\ Forall (blind evD rD) prog /\
  match bind (step (asm (firstn 5 prog))) (fun _ => step (asm (skipn 5 prog))) sG with Ok _ s => bytes s P0 1 46 = bytes sG1 P0 1 46 | Panic _ _ => False end.
Proof.
  split; [vm_compute; discriminate|]. split; [eapply Forall_impl; [|exact plainG]; intros i [H _]; exact H|]. vm_compute. reflexivity.
Qed.
