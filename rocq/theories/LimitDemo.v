(** Cases for C76. *)
From Coq Require Import Lia.
From Verif Require Import Base ModelMem ModelEnc ModelSyntax ModelMacro SpecX86 SpecAsm SpecState SpecHist EncFacts EncRefute SpecLimit.
Local Open Scope list_scope.
Local Open Scope Z_scope.

(** movq [r8 + r9*8 + 1000], 100000, with 12 bytes; ret, with one. *)
Definition longest : inst := IMovq (MovInd (mkInd (RReg 8) (PS1 3 (RReg 9)) (PImm 1000))) (MovImm (ELit 100000) None).
Lemma longest_takes : is_instr longest = true /\ is_ok (run0 longest s0) = true /\ cursor (state_of (run0 longest s0)) = cursor s0 + 12 /\
  bytes0 longest s0 = [0x4b; 0xc7; 0x84; 0xc8; 0xe8; 3; 0; 0; 0xa0; 0x86; 1; 0] /\
  is_instr IRet = true /\ is_ok (run0 IRet s0) = true /\ cursor (state_of (run0 IRet s0)) = cursor s0 + 1.
Proof. repeat split; vm_compute; reflexivity. Qed.
(** A state with 11 bytes left, where the first one panics and the second fits eleven times. *)
Definition nearly : jit := mkJit 65536 (fun _ => 0xcc) P0 (fun _ => with_counter (PAGE_SIZE - 11) page_new) [].
Definition is_full (x : res (option label)) : bool := match x with Panic PageOverflow _ => true | _ => false end.
Lemma nearly_full : cursor nearly + sum most [longest] = PAGE_SIZE + 1 /\ is_full (step (OAsm ev0 lenv0 r0 [longest]) nearly) = true /\
  is_ok (step (OAsm ev0 lenv0 r0 (repeat IRet 11)) nearly) = true /\ cursor (state_of (step (OAsm ev0 lenv0 r0 (repeat IRet 11)) nearly)) = PAGE_SIZE /\
  is_full (step (OAsm ev0 lenv0 r0 (repeat IRet 12)) nearly) = true.
Proof. repeat split; vm_compute; reflexivity. Qed.
Definition mixed : list inst := [ILabel "a"; IMovq (MovReg (RReg 0)) (MovImm (ELit 7) None); II64 5; IJcc CEq "a"].
Lemma mixed_takes : is_ok (step (OAsm ev0 lenv0 r0 mixed) s1) = true /\ sum least mixed = 15 /\ sum most mixed = 26 /\
  cursor (state_of (step (OAsm ev0 lenv0 r0 mixed) s1)) = cursor s1 + 24.
Proof. repeat split; vm_compute; reflexivity. Qed.
