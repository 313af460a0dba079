(** A block reading a constant, a jump table and a datum, for C49. *)
From Verif Require Import Base ModelMem ModelEnc ModelSyntax ModelMacro SpecX86 SpecAsm SpecTaken SpecState SpecHist EncFacts MemRun MemThm MemDemo EncRefute SpecProg ProgExec ProgDemo SpecMachine SpecCpu MachDemo.
Local Notation length := List.length.
Local Open Scope list_scope.
Local Open Scope Z_scope.

(** movq rbx, [rip + c];  movsd xmm1, [rip + c];  movq [rip + v], rbx;  jmp [rip + t];  int3;  a: addq rbx, [rip + v];  ret *)
Definition progK : list inst :=
  [IMovq (MovReg (RReg 3)) (MovInd (at_label "c"));
   IMovsd (XmXmm (ELit 1)) (XmInd (at_label "c"));
   IMovq (MovInd (at_label "v")) (MovReg (RReg 3));
   IJmp (DestInd (at_label "t"));
   IInt3;
   ILabel "a";
   IAdd QWORD (RmReg (RReg 3)) (RmiInd (at_label "v"));
   IRet].
Definition lenvK (x : string) : label :=
  if String.eqb x "a" then 0%nat else if String.eqb x "c" then 1%nat else if String.eqb x "t" then 2%nat else 3%nat.
(** The label a, the constant c = 1000, the table entry t for a, the datum v = 5; one instruction precedes the block. *)
Definition hK0 : list op := [OLabel; OCreate (KI64 1000); OCreate (KAbs 0%nat); OCreate (DI64 5); asm [IRet]].
Definition sK : jit := the (run hK0 newD).
Definition opK : op := OAsm evD lenvK rD progK.
Definition sK1 : jit := outcome (step opK sK).
Definition hK : list op := [OFinalize].
Definition sK4 : jit := the (run hK sK1).
Definition targetK (x : string) : Z :=
  if String.eqb x "a" then 65566 else if String.eqb x "c" then 65584 else if String.eqb x "t" then 65592 else 536936448.

Lemma reach_prefix ops : forallb api ops = true -> match run ops newD with Some _ => true | None => false end = true -> reached (the (run ops newD)).
Proof. intros Ha E. apply (reached_run ops newD); [apply reached_new|exact Ha|]. apply some_the, E. Qed.
Lemma blindK l : Forall (fun e => match e with ELit _ => True | _ => False end) l -> Forall (imm_blind evD rD) l.
Proof. intro H. eapply Forall_impl; [|exact H]. intros [v|ts] He r' _; [reflexivity|destruct He]. Qed.
Lemma blockK : linked_block evD lenvK rD progK sK sK1 hK sK4 targetK.
Proof.
  constructor.
  - apply (reach_prefix hK0); vm_compute; reflexivity.
  - repeat constructor; try (apply blindK; repeat constructor); intros; repeat split; try exact Logic.I; repeat constructor; vm_compute; discriminate.
  - apply ok_none. vm_compute. reflexivity.
  - reflexivity.
  - apply some_the. vm_compute. reflexivity.
  - intros x Hx. repeat (destruct Hx as [<-|Hx]; [vm_compute; reflexivity|]). destruct Hx.
  - split; [vm_compute; repeat constructor; cbn; intuition discriminate|]. intros x [<-|[]]. split; [vm_compute; lia|]. split.
    + intros q e He. destruct q; vm_compute in He; try contradiction; repeat (destruct He as [<-|He]; [vm_compute; discriminate|]); contradiction.
    + intros o [<-|[]] Hb. exact Hb.
  - vm_compute. split; [discriminate|reflexivity].
Qed.
Lemma unboundK l : l <> 0%nat -> unbound_by lenvK progK hK l.
Proof. intro H. split; [intros x [<-|[]]; cbn; congruence|intros o [<-|[]] Hb; exact Hb]. Qed.
Lemma madeK u d v l : hK0 = u ++ OCreate d :: v -> match step (OCreate d) (the (run u newD)) with Ok (Some x) _ => x = l | _ => False end ->
  match run u newD with Some _ => true | None => false end = true -> 
  match step (OCreate d) (the (run u newD)) with Ok _ x => match run v x with Some _ => true | None => false end | _ => false end = true ->
  run hK0 newD = Some sK -> (forall o, In o v -> ~ binds_label o l) -> forallb api hK0 = true -> made d l sK.
Proof.
  intros E H1 H2 H3 H4 H5 Ha. rewrite E in H4, Ha. rewrite forallb_app in Ha. apply andb_true_iff in Ha. destruct Ha as [Hu Hv]. cbn [forallb] in Hv. apply andb_true_iff in Hv.
  destruct (run u newD) as [t|] eqn:Eu; [|discriminate]. cbn [the] in *. destruct (step (OCreate d) t) as [[x|] t'|] eqn:Es; try contradiction. subst x.
  exists t, t', v. split; [apply (reached_run u newD); [apply reached_new|exact Hu|exact Eu]|]. split; [exact Es|]. split; [apply Hv|]. split; [|exact H5].
  apply run_app in H4. destruct H4 as (t2 & E2 & H4). assert (t2 = t) by congruence. subst t2. cbn [run] in H4. unfold after in H4. rewrite Es in H4. exact H4.
Qed.
Lemma runK0 : run hK0 newD = Some sK. Proof. apply some_the. vm_compute. reflexivity. Qed.
Lemma case49 : linked_block evD lenvK rD progK sK sK1 hK sK4 targetK /\
  made (KI64 1000) (lenvK "c") sK /\ made (KAbs (lenvK "a")) (lenvK "t") sK /\ made (DI64 5) (lenvK "v") sK /\
  (forall x, x <> "a"%string -> unbound_by lenvK progK hK (lenvK x)) /\ loc_of sK (lenvK "a") = None /\
  read (mem sK4) (targetK "c") 8 = le 8 1000 /\ read (mem sK4) (targetK "t") 8 = le 8 (targetK "a") /\
  exists st, cpu 5 (65536 + 1) (stG (mem sK4)) = Some (65536 + 37, st) /\ regs st 3 = 2000 /\ xmms st 1 = 1000 /\ quad (mm st) (targetK "v") = 1000.
Proof.
  split; [exact blockK|].
  split; [apply (madeK [OLabel] _ [OCreate (KAbs 0%nat); OCreate (DI64 5); asm [IRet]]); try exact runK0; try (vm_compute; reflexivity); intros o [<-|[<-|[<-|[]]]] Hb; try destruct Hb as (y & [Hy|[]] & _); try exact Hb; discriminate Hy|].
  split; [apply (madeK [OLabel; OCreate (KI64 1000)] _ [OCreate (DI64 5); asm [IRet]]); try exact runK0; try (vm_compute; reflexivity); intros o [<-|[<-|[]]] Hb; try destruct Hb as (y & [Hy|[]] & _); try exact Hb; discriminate Hy|].
  split; [apply (madeK [OLabel; OCreate (KI64 1000); OCreate (KAbs 0%nat)] _ [asm [IRet]]); try exact runK0; try (vm_compute; reflexivity); intros o [<-|[]] Hb; try destruct Hb as (y & [Hy|[]] & _); try exact Hb; discriminate Hy|].
  split; [intros x Hx; apply unboundK; unfold lenvK; destruct (String.eqb x "a") eqn:E; [apply String.eqb_eq in E; contradiction|]; destruct (String.eqb x "c"), (String.eqb x "t"); discriminate|].
  split; [vm_compute; reflexivity|]. split; [vm_compute; reflexivity|]. split; [vm_compute; reflexivity|].
  assert (G : match cpu 5 (65536 + 1) (stG (mem sK4)) with Some (pc, st) => pc = 65536 + 37 /\ regs st 3 = 2000 /\ xmms st 1 = 1000 /\ quad (mm st) (targetK "v") = 1000 | None => False end)
    by (vm_compute; repeat split).
  destruct (cpu 5 _ _) as [[pc st]|]; [|contradiction]. destruct G as (-> & G). exists st. split; [reflexivity|exact G].
Qed.
