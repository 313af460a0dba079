(** Property C67: the bytes are those the GNU assembler writes, which is what the repository's test generator gen.rb
    checks for the operands it lists.  [gas] (SpecGas) is the choice of the GNU assembler; [count_written] only undoes
    that [denote] reduces shift counts, which assemblers do not.  [longer]: by how many bytes monoasm's encoding is longer.
    Distances to labels are 0 until finalize (C04, C34 say what they are then). *)
From Verif Require Import Base ModelMem ModelEnc ModelSyntax ModelMacro SpecX86 SpecAsm SpecState SpecHist SpecGas EncRefute MemDemo SpecProg ProgDemo GasFacts GasDemo.
Local Open Scope list_scope.
Local Open Scope Z_scope.

(** ** C67.  What an accepted instruction appends to the page. *)
Theorem C67 : forall ev lenv r i g s r' s',
  ordinary ev r i -> is_cvttsd2siq i = false -> rip_labels (eval ev r) i -> compile i = Some g -> exec ev lenv r g s = Ok r' s' ->
  exists bs x, grows s s' bs /\ denote (eval ev r) (fun _ => 0) i = Some x /\ as_gas (count_written (eval ev r) i x) bs.
Proof. exact gas_main. Qed.
Print Assumptions C67.
(** How much that is. *)
Theorem C67_length : forall ev lenv r i g s r' s',
  ordinary ev r i -> is_cvttsd2siq i = false -> rip_labels (eval ev r) i -> compile i = Some g -> exec ev lenv r g s = Ok r' s' ->
  exists b x, denote (eval ev r) (fun _ => 0) i = Some x /\ gas (count_written (eval ev r) i x) = Some b /\
    cursor s' = cursor s + Z.of_nat (List.length b) + longer (eval ev r) i.
Proof. exact gas_length. Qed.
Print Assumptions C67_length.
(** A block appends the bytes of its statements. *)
Theorem C67_block : forall ev lenv r body s q s1,
  reached s -> step (OAsm ev lenv r body) s = Ok q s1 -> Forall (plain ev r) body -> Forall (rip_labels (eval ev r)) body ->
  exists bss, Forall2 (stmt_bytes (eval ev r)) body bss /\ grows s s1 (List.concat bss).
Proof. exact block_gas. Qed.
Print Assumptions C67_block.
(** The bytes are not always gas's, and cvttsd2siq is encoded neither way. *)
Theorem C67_refuted : exists ev lenv r i g s r' s' x,
  ordinary ev r i /\ is_cvttsd2siq i = false /\ rip_labels (eval ev r) i /\ compile i = Some g /\ exec ev lenv r g s = Ok r' s' /\
  denote (eval ev r) (fun _ => 0) i = Some x /\ forall bs, grows s s' bs -> gas (count_written (eval ev r) i x) <> Some bs.
Proof. exact longer_refuted. Qed.
Print Assumptions C67_refuted.
Theorem C67_cvttsd2siq_refuted : exists ev lenv r i g s r' s' x,
  ordinary ev r i /\ rip_labels (eval ev r) i /\ compile i = Some g /\ exec ev lenv r g s = Ok r' s' /\
  denote (eval ev r) (fun _ => 0) i = Some x /\ forall bs, grows s s' bs -> ~ as_gas (count_written (eval ev r) i x) bs.
Proof. exact cvt_gas. Qed.
Print Assumptions C67_cvttsd2siq_refuted.

(** addq [r12 + r13*4 - 8], 1000; cmpl [rip + x], 100000; shlq r9, 65 *)
Example C67_case : ordinary ev0 r0 i_add /\ ordinary ev0 r0 i_cmp /\ ordinary ev0 r0 i_count /\ rip_labels (eval ev0 r0) i_cmp /\
  gas0 i_add = Some [0x4b; 0x81; 0x44; 0xac; 0xf8; 0xe8; 3; 0; 0] /\ bytes0 i_add s0 = [0x4b; 0x81; 0x44; 0xac; 0xf8; 0xe8; 3; 0; 0] /\
  gas0 i_cmp = Some [0x81; 0x3d; 0; 0; 0; 0; 0xa0; 0x86; 1; 0] /\ bytes0 i_cmp s1 = [0x81; 0x3d; 0; 0; 0; 0; 0xa0; 0x86; 1; 0] /\
  gas0 i_count = Some [0x49; 0xc1; 0xe1; 65] /\ bytes0 i_count s0 = [0x49; 0xc1; 0xe1; 65].
Proof. exact (conj ord_add (conj ord_cmp (conj ord_count (conj rip_cmp (conj eq_refl (conj eq_refl (conj eq_refl (conj eq_refl (conj eq_refl eq_refl))))))))). Qed.
(** movq r9, 1 is 3 bytes longer than gas's, subw rax, 1000 is one byte longer. *)
Example C67_case_longer : ordinary ev0 r0 i_one /\ ordinary ev0 r0 i_rax /\ longer (eval ev0 r0) i_one = 3 /\ longer (eval ev0 r0) i_rax = 1 /\
  gas0 i_one = Some [0x49; 0xc7; 0xc1; 1; 0; 0; 0] /\ bytes0 i_one s0 = [0x49; 0xb9; 1; 0; 0; 0; 0; 0; 0; 0] /\
  gas0 i_rax = Some [0x66; 0x2d; 0xe8; 3] /\ bytes0 i_rax s0 = [0x66; 0x81; 0xe8; 0xe8; 3].
Proof. exact (conj ord_one (conj ord_rax (conj eq_refl (conj eq_refl (conj eq_refl (conj eq_refl (conj eq_refl eq_refl))))))). Qed.
Example C67_case_block : reached sG /\ step (OAsm evD lenvD rD prog) sG = Ok None sG1 /\ Forall (plain evD rD) prog /\ Forall (rip_labels (eval evD rD)) prog.
Proof. exact (conj reachedG (conj stepG (conj plainG rip_prog))). Qed.
