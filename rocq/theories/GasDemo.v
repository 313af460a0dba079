(** Witnesses for C67. *)
From Verif Require Import Base ModelMem ModelEnc ModelSyntax ModelMacro SpecX86 SpecAsm SpecState SpecHist SpecGas EncFacts EncRefute MemDemo SpecProg ProgDemo GasFacts.
Local Notation length := List.length.
Local Open Scope list_scope.
Local Open Scope Z_scope.
(** movq r9, 1; subw rax, 1000; shlq r9, 65 *)
Definition i_one : inst := IMovq (MovReg (RReg 9)) (MovImm (lit 1) None).
Definition i_rax : inst := ISub WORD (RmReg (RReg 0)) (RmiImm (lit 1000)).
Definition i_count : inst := IShl QWORD (RmReg (RReg 9)) (RiImm (lit 65)).
Lemma ord_one : ordinary ev0 r0 i_one. Proof. ord. Qed.
Lemma ord_rax : ordinary ev0 r0 i_rax. Proof. ord. Qed.
Lemma ord_count : ordinary ev0 r0 i_count. Proof. ord. Qed.
Lemma rip_cmp : rip_labels (eval ev0 r0) i_cmp. Proof. repeat constructor. Qed.
Lemma rip_prog : Forall (rip_labels (eval evD rD)) prog. Proof. repeat constructor. Qed.

Lemma longer_refuted : exists ev lenv r i g s r' s' x,
  ordinary ev r i /\ is_cvttsd2siq i = false /\ rip_labels (eval ev r) i /\ compile i = Some g /\ exec ev lenv r g s = Ok r' s' /\
  denote (eval ev r) (fun _ => 0) i = Some x /\ forall bs, grows s s' bs -> gas (count_written (eval ev r) i x) <> Some bs.
Proof.
  exists ev0, lenv0, r0, i_one. eexists. exists s0.
  destruct (run0_ok i_one s0 _ eq_refl eq_refl) as [r' E]. exists r', (state_of (run0 i_one s0)). eexists.
  split; [exact ord_one|]. split; [reflexivity|]. split; [constructor|]. split; [reflexivity|]. split; [exact E|]. split; [reflexivity|].
  intros bs G. apply grows_bytes in G. vm_compute in G. subst bs. vm_compute. discriminate.
Qed.
Lemma cvt_gas : exists ev lenv r i g s r' s' x,
  ordinary ev r i /\ rip_labels (eval ev r) i /\ compile i = Some g /\ exec ev lenv r g s = Ok r' s' /\
  denote (eval ev r) (fun _ => 0) i = Some x /\ forall bs, grows s s' bs -> ~ as_gas (count_written (eval ev r) i x) bs.
Proof.
  exists ev0, lenv0, r0, i_cvt. eexists. exists s0.
  destruct (run0_ok i_cvt s0 _ eq_refl eq_refl) as [r' E]. exists r', (state_of (run0 i_cvt s0)). eexists.
  split; [exact ord_cvt|]. split; [constructor|]. split; [reflexivity|]. split; [exact E|]. split; [reflexivity|].
  intros bs G. apply grows_bytes in G. vm_compute in G. subst bs. vm_compute. discriminate.
Qed.
Definition written0 (i : inst) : option ins := option_map (count_written (eval ev0 r0) i) (denote (eval ev0 r0) (fun _ => 0) i).
Definition gas0 (i : inst) : option (list Z) := match written0 i with Some x => gas x | None => None end.
