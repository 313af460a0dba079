(** Cases for C77. *)
From Coq Require Import Lia.
From Verif Require Import Base ModelMem ModelEnc ModelSyntax ModelMacro SpecX86 SpecAsm SpecTaken SpecState SpecHist EncFacts EncRefute SpecProg SpecScope SpecLimit LimitDemo.
Local Open Scope list_scope.
Local Open Scope Z_scope.

(** The block [mixed] takes 24 bytes in [s1]; the same page with [n] bytes left, on another base and with other contents. *)
Definition left (n : Z) : jit := mkJit 131072 (fun x => x mod 7) P1 (fun p => match p with P1 => with_counter (PAGE_SIZE - n) page_new | _ => page_new end) [label_new; label_new].
Definition block (body : list inst) : jit -> res (option label) := step (OAsm ev0 lenv0 r0 body).
Lemma fits24 : is_ok (block mixed s1) = true /\ cursor s1 = 0 /\ cursor (state_of (block mixed s1)) = 24 /\
  is_ok (block mixed (left 24)) = true /\ cursor (state_of (block mixed (left 24))) = PAGE_SIZE /\
  bytes (state_of (block mixed (left 24))) P1 (PAGE_SIZE - 24) 24 = bytes (state_of (block mixed s1)) P0 0 24 /\ is_full (block mixed (left 23)) = true.
Proof. repeat (apply conj; [vm_compute; reflexivity|]); vm_compute; reflexivity. Qed.
(** addq rax, 0x100000000 after the block: rejected everywhere with room before it, elsewhere the page is full first. *)
Definition wide : list inst := mixed ++ [IAdd QWORD (RmReg (RReg 0)) (RmiImm (ELit 4294967296))].
Definition is_range (x : res (option label)) : bool := match x with Panic ImmRange _ => true | _ => false end.
Lemma wide_rejected : is_range (block wide s1) = true /\ is_range (block wide (left 24)) = true /\ is_full (block wide (left 23)) = true.
Proof. repeat (apply conj; [vm_compute; reflexivity|]); vm_compute; reflexivity. Qed.
(** 26 bytes are granted, where 15 for each statement are 60. *)
Lemma mixed_accepted : typed ev0 r0 mixed /\ compile_all mixed <> None /\ cursor (left 26) + sum most mixed = PAGE_SIZE /\ PAGE_SIZE < cursor (left 26) + 15 * Z.of_nat (List.length mixed) /\
  (forall x, In x (body_labels mixed) \/ In x (defined mixed) -> (lenv0 x < List.length (labels (left 26)))%nat) /\ is_ok (block mixed (left 26)) = true.
Proof.
  split; [repeat constructor; cbn; repeat split; lia|]. split; [vm_compute; discriminate|]. split; [vm_compute; reflexivity|]. split; [vm_compute; reflexivity|]. split; [|vm_compute; reflexivity].
  intros x _. exact (le_S _ _ (le_n 1)).
Qed.
