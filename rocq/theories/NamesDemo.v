(** A caller whose variables have the names the expansion takes. *)
From Verif Require Import Base ModelMem ModelEnc ModelSyntax ModelMacro ModelEff ModelLeave ModelFlow ModelNames SpecX86 SpecAsm SpecTaken SpecState SpecHist MemDemo SpecProg SpecScope SpecNames NamesFacts.
Local Open Scope list_scope.
Local Open Scope Z_scope.

(** (imm * 100), which wraps around in the type of imm; size_of_val(&x); (id(jit)); a variable *)
Definition evN (ts : list tok) (r : nenv) : Z :=
  let size v := match v with VInt b _ => b / 8 | VRm _ => 24 | VJit => 1 | VMine n => n end in
  match ts with
  | [TIdent "imm"; TPunct _; TInt k] => match r "imm"%string with VInt b v => signed (2 ^ b) (v * k) | _ => 0 end
  | [TIdent "size"; TIdent x] => size (r x)
  | [TIdent x] => match r x with VInt _ v => v | _ => 0 end
  | _ => 0
  end%string.
Definition vN (x : string) : expr := EToks [TIdent x].
Definition sizeN (x : string) : expr := EToks [TIdent "size"; TIdent x].
Definition hundred : expr := EToks [TIdent "imm"; TPunct "*"; TInt 100].
Definition rN : nenv := fun x =>
  if String.eqb x "n" then VInt 64 3 else if String.eqb x "imm" then VInt 16 70 else if String.eqb x "jit" then VMine 7 else VInt 64 5.
(** shlq [rax + (imm * 100)], (n) *)
Definition shlN : inst := IShl QWORD (RmInd (mkInd (RReg 0) PScaleNone (PExpr false hundred))) (RiImm (vN "n")).
(** addq rax, (size(imm)); movq rbx, (size(jit)); movq rbx, (size(rm_op)); movq rdx, xmm1; addq rax, (size(op1)); movq xmm1, rdx;
    addq rax, (size(op2)); shlq [rax + (imm * 100)], (n); addq rax, (imm) *)
Definition progN : list inst :=
  let add e := IAdd QWORD (RmReg (RReg 0)) (RmiImm e) in let mov e := IMovq (MovReg (RReg 3)) (MovImm e None) in
  [add (sizeN "imm"); mov (sizeN "jit"); mov (sizeN "rm_op"); IMovq (MovReg (RReg 2)) (MovXmm (ELit 1)); add (sizeN "op1");
   IMovq (MovXmm (ELit 1)) (MovReg (RReg 2)); add (sizeN "op2"); shlN; add (vN "imm")].
Definition litN (ks : list Z) : list inst :=
  let add k := IAdd QWORD (RmReg (RReg 0)) (RmiImm (ELit k)) in let mov k := IMovq (MovReg (RReg 3)) (MovImm (ELit k) None) in
  [add (nth 0 ks 0); mov (nth 1 ks 0); mov (nth 2 ks 0); IMovq (MovReg (RReg 2)) (MovXmm (ELit 1)); add (nth 3 ks 0);
   IMovq (MovXmm (ELit 1)) (MovReg (RReg 2)); add (nth 4 ks 0); IShl QWORD (RmInd (mkInd (RReg 0) PScaleNone (PExpr false (ELit (nth 5 ks 0))))) (RiImm (ELit 3)); add (nth 6 ks 0)].
Lemma case66 : compile_all progN <> None /\ labels_visible ["jit"%string] progN /\
  n_frozen evN (n_set "jit" VJit rN) progN = litN [2; 1; 24; 24; 24; 44; 3] /\
  i_frozen evN rN progN = litN [2; 7; 8; 8; 8; 300; 3].
Proof. split; [vm_compute; discriminate|]. split; [repeat split; intros y [[]|Hy]; discriminate Hy|]. split; vm_compute; reflexivity. Qed.

Definition viewx {W} (x : nres W) : list Z := match x with NOk _ _ y | NFail _ _ y | NLeft _ y => bytes (snd y) P0 0 8 end.
Definition viewy {A} (y : res A) : list Z := match y with Ok _ s | Panic _ s => bytes s P0 0 8 end.
Lemma ends_view {W} (x : nres W) w y : ends x w y -> viewx x = viewy y.
Proof. destruct x as [r [w1 s1]|e [w1 s1]|[w1 s1]], y; cbn; try contradiction; intros H; decompose [and] H; subst; reflexivity. Qed.
Lemma narrow_refuted : exists pev r body s x, n_macro unit (fun ts r y => (Some (pev ts r), y)) lenvD (fun _ _ _ => (tt, s)) [] r body tt = Some x /\
  ~ ends x tt (step (OAsm evD lenvD rD (i_frozen pev r body)) s).
Proof.
  exists evN, rN, [shlN], newD.
  assert (V : match n_macro unit (fun ts r y => (Some (evN ts r), y)) lenvD (fun _ _ _ => (tt, newD)) [] rN [shlN] tt with Some x => viewx x | None => [] end = [0x48; 0xc1; 0x60; 44; 3; 0xcc; 0xcc; 0xcc]) by (vm_compute; reflexivity).
  destruct (n_macro unit (fun ts r y => (Some (evN ts r), y)) lenvD (fun _ _ _ => (tt, newD)) [] rN [shlN] tt) as [x|]; [|discriminate V]. exists x. split; [reflexivity|].
  intro E. apply ends_view in E. rewrite V in E. revert E. vm_compute. discriminate.
Qed.
(** A label named imm: jmp imm; addq rax, 1 is a program, addq rax, 1; jmp imm is none. *)
Lemma labels66 : let add := IAdd QWORD (RmReg (RReg 0)) (RmiImm (ELit 1)) in
  labels_visible ["jit"%string] [IJmp (DestRel "imm"); add] /\ ~ labels_visible ["jit"%string] [add; IJmp (DestRel "imm")].
Proof.
  intro add. split.
  - split; [|split; [|exact I]].
    + intros y [[<-|[]]|Hy]; [|discriminate Hy]. cbn. intros [H|[]]. discriminate H.
    + intros y [[]|Hy]; discriminate Hy.
  - intros (_ & H & _). apply (H "imm"%string); cbn; auto.
Qed.
(** movq rax, (jit.get_current() + imm), where the caller's jit is another object; the block's assembler is at 3. *)
Definition evF (ts : list tok) (r : nenv) (x : unit * jit) : option Z * (unit * jit) :=
  match r "jit"%string with VJit => (Some (cursor (snd x) + match r "imm"%string with VInt _ v => v | _ => 0 end), x) | _ => (None, x) end.
Definition s3 : jit := outcome (step (asm [IRet; IRet; IRet]) newD).
Definition progF : list inst := [IMovq (MovReg (RReg 0)) (MovImm (vN "here") None)].
Lemma flow66 : Forall (fun i => Forall (fun e => forall y, mentions_no_rm (fun r => n_eval unit evF r e y)) (stmt_exprs i)) progF /\
  match n_macro unit evF lenvD (fun _ _ _ => (tt, s3)) [] rN progF tt with Some x => viewx x | None => [] end = [0xc3; 0xc3; 0xc3; 0x48; 0xb8; 73; 0; 0].
Proof.
  split; [|vm_compute; reflexivity]. constructor; [|constructor]. constructor; [|constructor]. intros y r r' A. cbn. unfold evF.
  pose proof (A "jit"%string) as J. pose proof (A "imm"%string) as M. cbn in J, M. rewrite J by (intuition discriminate).
  destruct (r' "jit"%string); try reflexivity. destruct M as [M|(n & m & v & M1 & M2)]; [intuition discriminate|rewrite M; reflexivity|rewrite M1, M2; reflexivity].
Qed.
(** addq rax, (n) and addq rax, (n); addq rax, (imm) *)
Definition addN (x : string) : inst := IAdd QWORD (RmReg (RReg 0)) (RmiImm (vN x)).
Lemma own66 : Forall (fun i => Forall (fun e => mentions_none (fun r => nval evN r e)) (stmt_exprs i)) [addN "n"] /\
  map (fz_inst (nval evN rN) (nval evN rN)) [addN "n"] = [IAdd QWORD (RmReg (RReg 0)) (RmiImm (ELit 3))].
Proof.
  split; [|vm_compute; reflexivity]. constructor; [|constructor]. constructor; [|constructor]. intros r r' H. cbn. rewrite (H "n"%string); [reflexivity|]. cbn. intuition discriminate.
Qed.
Lemma asm66 : Forall (fun i => Forall (fun e => mentions_no_rm (fun r => nval evN r e)) (stmt_exprs i)) [addN "n"; addN "imm"] /\
  let r1 := n_set "jit" VJit rN in frozen (fun ts q => evN ts (only_imm r1 q)) (ints r1) [addN "imm"; addN "n"; addN "imm"] = map (fun k => IAdd QWORD (RmReg (RReg 0)) (RmiImm (ELit k))) [70; 3; 3].
Proof.
  split; [|vm_compute; reflexivity]. constructor; [|constructor; [|constructor]]; (constructor; [|constructor]); intros r r' H; cbn.
  - pose proof (H "n"%string) as M. cbn in M. rewrite M by (intuition discriminate). reflexivity.
  - pose proof (H "imm"%string) as M. cbn in M. destruct M as [M|(n & m & v & M1 & M2)]; [intuition discriminate|rewrite M; reflexivity|rewrite M1, M2; reflexivity].
Qed.
