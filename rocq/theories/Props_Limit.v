(** Property C76: no instruction is longer than 12 bytes, so a page takes at least as many instructions as it has room for 12 bytes.
    [cursor] is the next free byte of the selected page; [least] and [most] (SpecLimit) are the bounds for a statement. *)
From Verif Require Import Base ModelMem ModelEnc ModelSyntax ModelMacro SpecX86 SpecAsm SpecState SpecHist EncFacts EncRefute SpecLimit LimitFacts LimitDemo.
Local Open Scope list_scope.
Local Open Scope Z_scope.

(** ** C76.  Any instruction with any operands and expressions, in any state. *)
Theorem C76 : forall ev lenv r i g s r' s', is_instr i = true -> compile i = Some g -> exec ev lenv r g s = Ok r' s' ->
  cursor s + 1 <= cursor s' <= cursor s + 12.
Proof. exact instr_takes. Qed.
Print Assumptions C76.
(** Every statement, with its bounds; those that have one size: [fixed i = Some n]. *)
Theorem C76_stmt : forall ev lenv r i g s r' s', compile i = Some g -> exec ev lenv r g s = Ok r' s' -> cursor s + least i <= cursor s' <= cursor s + most i.
Proof. exact stmt_bounds. Qed.
Print Assumptions C76_stmt.
(** Blocks. *)
Theorem C76_block : forall ev lenv r body s o s', step (OAsm ev lenv r body) s = Ok o s' ->
  cursor s + sum least body <= cursor s' <= cursor s + sum most body.
Proof. exact block_takes. Qed.
Print Assumptions C76_block.
(** The page is full only when it has no room for these. *)
Theorem C76_full : forall ev lenv r body s s', step (OAsm ev lenv r body) s = Panic PageOverflow s' -> PAGE_SIZE < cursor s + sum most body.
Proof. exact block_overflow. Qed.
Print Assumptions C76_full.
(** Both bounds are reached. *)
Example C76_case : is_instr longest = true /\ is_ok (run0 longest s0) = true /\ cursor (state_of (run0 longest s0)) = cursor s0 + 12 /\
  bytes0 longest s0 = [0x4b; 0xc7; 0x84; 0xc8; 0xe8; 3; 0; 0; 0xa0; 0x86; 1; 0] /\
  is_instr IRet = true /\ is_ok (run0 IRet s0) = true /\ cursor (state_of (run0 IRet s0)) = cursor s0 + 1.
Proof. exact longest_takes. Qed.
(** A label, a move, a datum and a jump. *)
Example C76_block_case : is_ok (step (OAsm ev0 lenv0 r0 mixed) s1) = true /\ sum least mixed = 15 /\ sum most mixed = 26 /\
  cursor (state_of (step (OAsm ev0 lenv0 r0 mixed) s1)) = cursor s1 + 24.
Proof. exact mixed_takes. Qed.
(** With eleven bytes left. *)
Example C76_full_case : cursor nearly + sum most [longest] = PAGE_SIZE + 1 /\ is_full (step (OAsm ev0 lenv0 r0 [longest]) nearly) = true /\
  is_ok (step (OAsm ev0 lenv0 r0 (repeat IRet 11)) nearly) = true /\ cursor (state_of (step (OAsm ev0 lenv0 r0 (repeat IRet 11)) nearly)) = PAGE_SIZE /\
  is_full (step (OAsm ev0 lenv0 r0 (repeat IRet 12)) nearly) = true.
Proof. exact nearly_full. Qed.
