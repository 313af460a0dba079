(** Property C74: the linked bytes of a block are those of a two-pass assembler.  [two_pass] (SpecTwo) knows only the values of the
    expressions, the address where the block starts and the addresses of labels outside it; it has the encodings of the GNU
    assembler ([gas], SpecGas), but for the two forms of C67. *)
From Verif Require Import Base ModelMem ModelEnc ModelSyntax ModelMacro SpecX86 SpecAsm SpecState SpecHist SpecGas MemDemo EncRefute SpecProg SpecTwo ProgDemo TwoFacts TwoDemo.
Local Open Scope list_scope.
Local Open Scope Z_scope.

(** ** C74.  A block assembled after any history, with any calls after it, among them finalize: its bytes are those the two passes
    write, and its labels are where the first pass puts them. *)
Theorem C74 : forall ev lenv r body s o s1 ops s4 ext, reached s -> Forall (plain ev r) body -> Forall (rip_labels (eval ev r)) body ->
  step (OAsm ev lenv r body) s = Ok o s1 -> forallb api ops = true -> run ops s1 = Some s4 -> In OFinalize ops -> own_labels lenv body s ops ->
  (forall x, In x (body_labels body) -> ~ In x (defined body) -> linked ops s1 (lenv x) = Some (ext x)) ->
  exists bs, two_pass (eval ev r) ext (here s) body = Some bs /\ bytes s4 (cur s) (cursor s) (List.length bs) = bs /\ cursor s1 = cursor s + Z.of_nat (List.length bs) /\
    forall x a, symbol (eval ev r) (here s) body x = Some a -> label_addr s4 (lenv x) = Some a.
Proof. exact two_passes. Qed.
Print Assumptions C74.
(** Whatever the labels are bound to: the second pass with the addresses they are linked to. *)
Theorem C74_linked : forall ev lenv r body s o s1 ops s4 target, reached s -> Forall (plain ev r) body -> Forall (rip_labels (eval ev r)) body ->
  step (OAsm ev lenv r body) s = Ok o s1 -> forallb api ops = true -> run ops s1 = Some s4 ->
  (forall x, In x (body_labels body) -> linked ops s1 (lenv x) = Some (target x)) ->
  exists bs, written (eval ev r) target (here s) body = Some bs /\ bytes s4 (cur s) (cursor s) (List.length bs) = bs /\ cursor s1 = cursor s + Z.of_nat (List.length bs).
Proof. exact second_pass. Qed.
Print Assumptions C74_linked.
(** A loop, a forward branch, a datum and a constant. *)
Example C74_case : reached sG /\ Forall (plain evD rD) prog /\ Forall (rip_labels (eval evD rD)) prog /\ step opG sG = Ok None sG1 /\ run hG sG1 = Some sG4 /\ In OFinalize hG /\ own_labels lenvD prog sG hG /\
  (forall x, In x (body_labels prog) -> ~ In x (defined prog) -> linked hG sG1 (lenvD x) = Some (extG x)) /\ here sG = 65536 + 1 /\
  symbol (eval evD rD) (65536 + 1) prog "a" = Some (65536 + 11) /\ symbol (eval evD rD) (65536 + 1) prog "b" = Some (65536 + 38) /\
  two_pass (eval evD rD) extG (65536 + 1) prog =
    Some [0x48; 0xb8; 0; 0; 0; 0; 0; 0; 0; 0;  0x48; 0x83; 0xc0; 3;  0x48; 0x83; 0xf8; 10;  0x0f; 0x8d; 13; 0; 0; 0;
          0xe9; 0xed; 0xff; 0xff; 0xff;  7; 0; 0; 0; 0; 0; 0; 0;  0xf2; 0x0f; 0x10; 5; 2; 0; 0; 0;  0xc3].
Proof. exact case74. Qed.
