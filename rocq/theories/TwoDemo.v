(** C74: the program of ProgDemo in two passes. *)
From Verif Require Import Base ModelMem ModelEnc ModelSyntax ModelMacro SpecX86 SpecAsm SpecState SpecHist SpecGas MemDemo EncRefute SpecProg SpecTwo ProgDemo GasDemo.
Local Open Scope list_scope.
Local Open Scope Z_scope.

(** The address of the constant c. *)
Definition extG (x : string) : Z := 65536 + 48.
Lemma extG_linked x : In x (body_labels prog) -> ~ In x (defined prog) -> linked hG sG1 (lenvD x) = Some (extG x).
Proof. intros Hx Hn. rewrite (linkedG x Hx). destruct Hx as [<-|[<-|[<-|[]]]]; [elim Hn; right; left; reflexivity|elim Hn; left; reflexivity|reflexivity]. Qed.
Lemma case74 : reached sG /\ Forall (plain evD rD) prog /\ Forall (rip_labels (eval evD rD)) prog /\ step opG sG = Ok None sG1 /\ run hG sG1 = Some sG4 /\ In OFinalize hG /\ own_labels lenvD prog sG hG /\
  (forall x, In x (body_labels prog) -> ~ In x (defined prog) -> linked hG sG1 (lenvD x) = Some (extG x)) /\ here sG = 65536 + 1 /\
  symbol (eval evD rD) (65536 + 1) prog "a" = Some (65536 + 11) /\ symbol (eval evD rD) (65536 + 1) prog "b" = Some (65536 + 38) /\
  two_pass (eval evD rD) extG (65536 + 1) prog =
    Some [0x48; 0xb8; 0; 0; 0; 0; 0; 0; 0; 0;  0x48; 0x83; 0xc0; 3;  0x48; 0x83; 0xf8; 10;  0x0f; 0x8d; 13; 0; 0; 0;
          0xe9; 0xed; 0xff; 0xff; 0xff;  7; 0; 0; 0; 0; 0; 0; 0;  0xf2; 0x0f; 0x10; 5; 2; 0; 0; 0;  0xc3].
Proof.
  repeat (split; [first [exact reachedG|exact plainG|exact rip_prog|exact stepG|exact runG|right; right; left; reflexivity|exact ownG|exact extG_linked|vm_compute; reflexivity]|]). vm_compute. reflexivity.
Qed.
