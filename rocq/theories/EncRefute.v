(** Concrete runs of the model: witnesses for the encoder statements that do not
    hold as written, and cases that meet the hypotheses of those that do. *)
From Verif Require Import Base ModelMem ModelEnc ModelSyntax ModelMacro SpecX86 SpecAsm SpecState EncFacts.

(** An empty assembler, expressions are literals, one label [x]. *)
Definition ev0 : list tok -> env -> Z := fun _ _ => 0.
Definition lenv0 : string -> label := fun _ => O.
Definition r0 : env := fun _ => 0.
Definition s0 : jit := jit_new 65536 (fun _ => 0xcc).
Definition s1 : jit := mkJit 65536 (fun _ => 0xcc) P0 (fun _ => page_new) [label_new].
Definition run0 (i : inst) (s : jit) : res env :=
  match compile i with Some g => exec ev0 lenv0 r0 g s | None => Panic Unimplemented s end.
Definition bytes0 (i : inst) (s : jit) : list Z :=
  let s' := state_of (run0 i s) in read (mem s') (here s) (Z.to_nat (counter (pages s' (cur s)) - cursor s)).

Definition lit (v : Z) : expr := ELit v.
Definition mem0 (b : Z) (d : Z) : ind_addr := mkInd (RReg b) PScaleNone (PImm d).
(** movq rax, [rbx + rsp] *)
Definition i_index_rsp : inst := IMovq (MovReg (RReg 0)) (MovInd (mkInd (RReg 3) (PS1 0 (RReg 4)) (PImm 0))).
(** cvttsd2siq rax, xmm1 *)
Definition i_cvt : inst := ICvttsd2siq (RReg 0) (XmXmm (lit 1)).
(** movq rax, [rbx + (0x1_0000_0008)] *)
Definition i_bigdisp : inst := IMovq (MovReg (RReg 0)) (MovInd (mkInd (RReg 3) PScaleNone (PExpr false (lit 4294967304)))).
(** roundpd xmm0, [rip + x], 1 *)
Definition i_round : inst := IRoundpd (lit 0) (XmInd (mkInd (RReg 16) PScaleNone (PLabel "x"))) (lit 1).
(** movq R(256), 1 *)
Definition i_reg256 : inst := IMovq (MovReg (RExpr (lit 256))) (MovReg (RReg 1)).
(** addw rax, 40000 *)
Definition i_addw : inst := IAdd WORD (RmReg (RReg 0)) (RmiImm (lit 40000)).
(** movq rax, [rbx + R(16)*1] *)
Definition i_index_rip : inst := IMovq (MovReg (RReg 0)) (MovInd (mkInd (RReg 3) (PS1 0 (RReg 16)) (PImm 0))).

Lemma run0_ok i s g : compile i = Some g -> is_ok (run0 i s) = true ->
  exists r', exec ev0 lenv0 r0 g s = Ok r' (state_of (run0 i s)).
Proof. unfold run0. intros -> H. apply ok_intro. exact H. Qed.
Ltac run0 := match goal with |- exists r', exec _ _ _ _ ?s = Ok r' (state_of (run0 ?i ?s)) => apply (run0_ok i s); reflexivity end.

Lemma index_rsp_refuted : exists ev lenv r i g s r' s',
  is_instr i = true /\ no_imm_var ev r i /\ compile i = Some g /\ exec ev lenv r g s = Ok r' s' /\ denote (eval ev r) (fun _ => 0) i = None.
Proof.
  exists ev0, lenv0, r0, i_index_rsp. eexists. exists s0.
  destruct (run0_ok i_index_rsp s0 _ eq_refl eq_refl) as [r' E]. exists r', (state_of (run0 i_index_rsp s0)).
  split; [reflexivity|]. split; [intros v e H; destruct H|]. split; [reflexivity|]. split; [exact E|reflexivity].
Qed.
Lemma index_rsp_ea : exists ev lenv r i g s r' s' a rf,
  is_instr i = true /\ no_imm_var ev r i /\ compile i = Some g /\ exec ev lenv r g s = Ok r' s' /\ mems_of i = [a] /\
  forall bs y m, grows s s' bs -> decode bs = Some (y, []) -> In (OMem m) (i_ops y) ->
    ea rf (here s + Z.of_nat (List.length bs)) m <> written_ea (eval ev r) (fun _ => 0) rf (here s + Z.of_nat (List.length bs)) a.
Proof.
  exists ev0, lenv0, r0, i_index_rsp. eexists. exists s0.
  destruct (run0_ok i_index_rsp s0 _ eq_refl eq_refl) as [r' E]. exists r', (state_of (run0 i_index_rsp s0)).
  eexists. exists (fun n => n). split; [reflexivity|]. split; [intros v e H; destruct H|]. split; [reflexivity|]. split; [exact E|]. split; [reflexivity|].
  intros bs y m G D Hm. apply grows_bytes in G. vm_compute in G. subst bs. vm_compute in D. injection D as <-.
  cbn [i_ops In] in Hm. destruct Hm as [Hm|[Hm|[]]]; [discriminate Hm|]. injection Hm as <-. vm_compute. discriminate.
Qed.
Lemma cvt_refuted : exists ev lenv r i g s r' s' x,
  ordinary ev r i /\ is_sse i = true /\ compile i = Some g /\ exec ev lenv r g s = Ok r' s' /\
  denote (eval ev r) (fun _ => 0) i = Some x /\ forall bs, grows s s' bs -> ~ reads_as bs x.
Proof.
  exists ev0, lenv0, r0, i_cvt. eexists. exists s0.
  destruct (run0_ok i_cvt s0 _ eq_refl eq_refl) as [r' E]. exists r', (state_of (run0 i_cvt s0)). eexists.
  split; [repeat split; repeat constructor; intros v e H; cbn in H; destruct H as [<-|[]]; reflexivity|].
  split; [reflexivity|]. split; [reflexivity|]. split; [exact E|]. split; [reflexivity|].
  intros bs G (y & Hs & Hy). apply grows_bytes in G. vm_compute in G. subst bs. specialize (Hy []).
  vm_compute in Hy. injection Hy as <-. inversion Hs.
Qed.
Lemma bigdisp_refuted : exists ev lenv r i g s r' s' a,
  is_instr i = true /\ no_imm_var ev r i /\ compile i = Some g /\ exec ev lenv r g s = Ok r' s' /\ mems_of i = [a] /\
  in_i32 (written_disp (eval ev r) (fun _ => 0) (ia_disp a)) = false /\
  forall bs y m, grows s s' bs -> decode bs = Some (y, []) -> In (OMem m) (i_ops y) ->
    m_disp m <> written_disp (eval ev r) (fun _ => 0) (ia_disp a).
Proof.
  exists ev0, lenv0, r0, i_bigdisp. eexists. exists s0.
  destruct (run0_ok i_bigdisp s0 _ eq_refl eq_refl) as [r' E]. exists r', (state_of (run0 i_bigdisp s0)).
  eexists. split; [reflexivity|]. split; [intros v e H; destruct H as [<-|[]]; reflexivity|]. split; [reflexivity|]. split; [exact E|].
  split; [reflexivity|]. split; [reflexivity|].
  intros bs y m G D Hm. apply grows_bytes in G. vm_compute in G. subst bs. vm_compute in D. injection D as <-.
  cbn [i_ops In] in Hm. destruct Hm as [Hm|[Hm|[]]]; [discriminate Hm|]. injection Hm as <-. vm_compute. discriminate.
Qed.
Lemma round_refuted : exists ev lenv r i g s r' s' l off pos,
  ordinary ev r i /\ compile i = Some g /\ exec ev lenv r g s = Ok r' s' /\
  new_refs s s' l [Rel (cur s) off pos] /\ pos + off <> cursor s'.
Proof.
  exists ev0, lenv0, r0, i_round. eexists. exists s1.
  destruct (run0_ok i_round s1 _ eq_refl eq_refl) as [r' E]. exists r', (state_of (run0 i_round s1)). exists O, 4, 5.
  split; [repeat split; repeat constructor; try (vm_compute; discriminate); intros v e H; cbn in H; destruct H as [<-|[]]; reflexivity|].
  split; [reflexivity|]. split; [exact E|]. split; vm_compute; [reflexivity|discriminate].
Qed.
Lemma reg256_refuted : exists ev lenv r i g s r' s' n,
  is_instr i = true /\ no_imm_var ev r i /\ In n (reg_values ev r i) /\ ~ (0 <= n <= 15) /\ compile i = Some g /\
  exec ev lenv r g s = Ok r' s' /\
  forall bs, grows s s' bs -> decode bs = Some (mkIns Mov W64 [OReg W64 0; OReg W64 1], []).
Proof.
  exists ev0, lenv0, r0, i_reg256. eexists. exists s0.
  destruct (run0_ok i_reg256 s0 _ eq_refl eq_refl) as [r' E]. exists r', (state_of (run0 i_reg256 s0)). exists 256.
  split; [reflexivity|]. split; [intros v e H; destruct H as [<-|[]]; reflexivity|]. split; [left; reflexivity|].
  split; [lia|]. split; [reflexivity|]. split; [exact E|].
  intros bs G. apply grows_bytes in G. vm_compute in G. subst bs. vm_compute. reflexivity.
Qed.
Lemma addw_refuted : exists ev lenv r i g s s',
  ordinary ev r i /\ compile i = Some g /\ exec ev lenv r g s = Panic ImmRange s' /\ cursor s' <> cursor s.
Proof.
  exists ev0, lenv0, r0, i_addw. eexists. exists s0, (state_of (run0 i_addw s0)).
  split; [repeat split; repeat constructor; intros v e []|]. split; [reflexivity|]. split; [reflexivity|]. vm_compute. discriminate.
Qed.
Lemma index_rip_refuted : exists ev lenv r i g s s',
  is_instr i = true /\ compile i = Some g /\ exec ev lenv r g s = Panic AssertFailed s' /\ cursor s' <> cursor s.
Proof.
  exists ev0, lenv0, r0, i_index_rip. eexists. exists s0, (state_of (run0 i_index_rip s0)).
  split; [reflexivity|]. split; [reflexivity|]. split; [reflexivity|]. vm_compute. discriminate.
Qed.

(** Cases that meet the hypotheses of the encoder theorems. *)
(** addq [r12 + r13*4 - 8], 1000 *)
Definition i_add : inst := IAdd QWORD (RmInd (mkInd (RReg 12) (PS1 2 (RReg 13)) (PExpr true (lit 8)))) (RmiImm (lit 1000)).
(** roundpd xmm9, [rbp + rax*2], 3 *)
Definition i_rnd : inst := IRoundpd (lit 9) (XmInd (mkInd (RReg 5) (PS1 1 (RReg 0)) (PImm 0))) (lit 3).
(** movb rsi, rbp *)
Definition i_movb : inst := IMovb (RmReg (RReg 6)) (RmiReg (RReg 5)).
(** cmpl [rip + x], 100000 *)
Definition i_cmp : inst := ICmp DWORD (RmInd (mkInd (RReg 16) PScaleNone (PLabel "x"))) (RmiImm (lit 100000)).
(** shlq r9, 3; addw rax, 40000; xchgq rax, [r13] *)
Definition i_shl : inst := IShl QWORD (RmReg (RReg 9)) (RiImm (lit 3)).
Definition i_xchg : inst := IXchg QWORD (RmReg (RReg 0)) (RmInd (mem0 13 0)).
(** movq R(16), rax: number 16 is rip, not a register *)
Definition i_reg16 : inst := IMovq (MovReg (RExpr (lit 16))) (MovReg (RReg 0)).
(** addq rax, 0x8000_0000 *)
Definition i_bigimm : inst := IAdd QWORD (RmReg (RReg 0)) (RmiImm (lit 2147483648)).

Ltac ord := repeat split; repeat constructor; try (vm_compute; discriminate);
  intros v e H; cbn in H; repeat (destruct H as [<-|H]); try reflexivity; destruct H.
Lemma ord_add : ordinary ev0 r0 i_add. Proof. ord. Qed.
Lemma ord_rnd : ordinary ev0 r0 i_rnd. Proof. ord. Qed.
Lemma ord_movb : ordinary ev0 r0 i_movb. Proof. ord. Qed.
Lemma ord_cmp : ordinary ev0 r0 i_cmp. Proof. ord. Qed.
Lemma ord_shl : ordinary ev0 r0 i_shl. Proof. ord. Qed.
Lemma ord_xchg : ordinary ev0 r0 i_xchg. Proof. ord. Qed.
Lemma ord_bigimm : ordinary ev0 r0 i_bigimm. Proof. ord. Qed.
Lemma ord_cvt : ordinary ev0 r0 i_cvt. Proof. ord. Qed.
