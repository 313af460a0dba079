(** Property C47: what is assembled for operands the machine does not have, that is, for
    any register number, any index, any displacement.  [ev], [lenv], [r] and [s] are as in
    Props_Enc; [assembled] (SpecTaken) is the instruction as it is taken. *)
From Verif Require Import Base ModelMem ModelEnc ModelSyntax ModelMacro ModelParse SpecX86 SpecAsm SpecTaken SpecState EncFacts EncRefute TakenFacts TakenDemo.

(** ** C47.  On a page with room an instruction is accepted exactly if, as taken, it is an x86
    instruction, and its bytes then read as that instruction. *)
Theorem C47 : forall ev lenv r i g s,
  is_instr i = true -> no_imm_var ev r i -> roundpd_u8 ev r i -> scales_written i -> compile i = Some g ->
  cursor s + 15 <= PAGE_SIZE -> (forall x, In x (inst_labels i) -> (lenv x < List.length (labels s))%nat) ->
  match assembled (eval ev r) (fun _ => 0) i with
  | Some x => exists r' s' bs, exec ev lenv r g s = Ok r' s' /\ grows s s' bs /\ reads_as bs x
  | None => exists e s', exec ev lenv r g s = Panic e s'
  end.
Proof. exact taken_total. Qed.
Print Assumptions C47.
(** Whatever is accepted, wherever the cursor is, reads as the instruction as taken. *)
Theorem C47_accepted : forall ev lenv r i g s r' s',
  is_instr i = true -> no_imm_var ev r i -> roundpd_u8 ev r i -> scales_written i -> compile i = Some g ->
  exec ev lenv r g s = Ok r' s' ->
  exists bs x, grows s s' bs /\ assembled (eval ev r) (fun _ => 0) i = Some x /\ reads_as bs x.
Proof. exact taken_accepted. Qed.
Print Assumptions C47_accepted.
(** Ordinary operands are taken as they are written. *)
Theorem C47_ordinary : forall ev r i, ordinary ev r i -> is_cvttsd2siq i = false ->
  assembled (eval ev r) (fun _ => 0) i = denote (eval ev r) (fun _ => 0) i.
Proof. exact taken_ordinary. Qed.
Print Assumptions C47_ordinary.
(** The condition on scale factors holds of everything the macro parses. *)
Theorem C47_scales : forall is_expr checks ts is i,
  p_stmts is_expr checks ts = Some is -> In i is -> scales_written i.
Proof. exact taken_scales. Qed.
Print Assumptions C47_scales.
Example C47_case : scales_written i_odd /\ a0 i_odd = denote (eval ev0 r0) (fun _ => 0) i_even /\
  denote (eval ev0 r0) (fun _ => 0) i_odd = None /\ is_ok (run0 i_odd s0) = true /\
  bytes0 i_odd s0 = [0x4d; 0x8b; 0x4c; 0xe2; 16].
Proof. split; [exact scales_odd|]. repeat split. Qed.
Example C47_refused_case : a0 i_rip_index = None /\ compile i_rip_index <> None /\ is_ok (run0 i_rip_index s0) = false /\
  a0 i_add_rip = None /\ compile i_add_rip <> None /\ is_ok (run0 i_add_rip s0) = false.
Proof. repeat split; discriminate. Qed.
