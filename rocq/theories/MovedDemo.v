(** One session in two allocations. *)
From Verif Require Import Base ModelMem ModelEnc ModelSyntax ModelMacro SpecState SpecHist SpecShare MemDemo SpecWhen SpecMoved MovedRun.
Local Notation length := List.length.
Local Open Scope list_scope.
Local Open Scope Z_scope.

(** a: jmp b; b: call a; ret      abs_address(b); data_i32(9)      finalize *)
Definition hM : list op :=
  [OLabel; OLabel; asm [ILabel "a"; IJmp (DestRel "b"); ILabel "b"; ICall (DestRel "a"); IRet]; OCreate (KAbs 1%nat); OCreate (DI32 9); OFinalize].
Definition at1 : jit := jit_new 0x10000000 (fun _ => 0).
Definition at2 : jit := jit_new 0x7fff20000000 (fun _ => 0).
Definition viewM (s : jit) : option (list Z * list Z * list Z) := option_map (fun s => (bytes s P0 0 11, bytes s P0 16 8, bytes s P2 0 4)) (run hM s).
Lemma case71 : forallb api hM = true /\
  viewM at1 = Some ([0xe9; 0; 0; 0; 0; 0xe8; 0xf6; 0xff; 0xff; 0xff; 0xc3], [5; 0; 0; 0x10; 0; 0; 0; 0], [9; 0; 0; 0]) /\
  viewM at2 = Some ([0xe9; 0; 0; 0; 0; 0xe8; 0xf6; 0xff; 0xff; 0xff; 0xc3], [5; 0; 0; 0x20; 0xff; 0x7f; 0; 0], [9; 0; 0; 0]).
Proof. split; [reflexivity|]. split; vm_compute; reflexivity. Qed.
Definition hM2 : list op :=
  [OLabel; OLabel; asm [ILabel "a"; IJmp (DestRel "b"); ILabel "b"; ICall (DestRel "a"); IRet]; OCreate (KI64 7); OCreate (DI32 9); OFinalize].
Lemma case71_plain : forallb api hM2 = true /\ forallb unaddressed hM2 = true /\ (forall k, mem at1 (base at1 + k) = mem at2 (base at2 + k)) /\
  match run hM2 at1, run hM2 at2 with
  | Some s1, Some s2 => bytes s1 P0 0 11 = [0xe9; 0; 0; 0; 0; 0xe8; 0xf6; 0xff; 0xff; 0xff; 0xc3] /\ bytes s1 P0 16 8 = [7; 0; 0; 0; 0; 0; 0; 0] /\ bytes s1 P2 0 4 = [9; 0; 0; 0] /\
      bytes s2 P0 0 11 = bytes s1 P0 0 11 /\ bytes s2 P0 16 8 = bytes s1 P0 16 8 /\ bytes s2 P2 0 4 = bytes s1 P2 0 4
  | _, _ => False
  end.
Proof. split; [reflexivity|]. split; [reflexivity|]. split; [reflexivity|]. vm_compute. repeat split. Qed.
