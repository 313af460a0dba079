(** Property C58: labels bound more than once.  bind_label (monoasm/src/jit_memory.rs 378-385) stores the new position and
    does not look whether there was one. *)
From Verif Require Import Base ModelMem ModelEnc ModelSyntax ModelMacro SpecX86 SpecState SpecHist MemDemo RebindFacts.
Local Open Scope list_scope.
Local Open Scope Z_scope.

(** ** C58.  A reference goes to where its label was bound last before the finalize that links it: whenever the
    reference was made, in [sr] before that binding, in [s1], or in [s2] behind it, and whatever earlier bindings there
    were in [ops] and [mid]. *)
Theorem C58 : forall s0 l s ops sr mid s1 rest s2 s3 x t, reached s0 -> step OLabel s0 = Ok (Some l) s ->
  forallb api (ops ++ mid ++ rest) = true -> no_finalize (mid ++ rest) = true ->
  run ops s = Some sr -> run mid sr = Some s1 -> label_addr s1 l = Some x -> run rest s1 = Some s2 -> (forall o, In o rest -> ~ binds_label o l) ->
  after OFinalize s2 = Some s3 -> In t (refs sr l) \/ In t (refs s1 l) \/ In t (refs s2 l) -> points_to s3 t x.
Proof. exact takes_last. Qed.
Print Assumptions C58.
(** Once linked it stays with that binding, whatever is done, and wherever the label is bound, later. *)
Theorem C58_kept : forall s l t s1 x ops s2, reached s -> In t (refs s l) -> after OFinalize s = Some s1 -> label_addr s1 l = Some x ->
  forallb api ops = true -> run ops s1 = Some s2 -> points_to s2 t x.
Proof. exact never_retaken. Qed.
Print Assumptions C58_kept.
(** Binding a label that is bound is accepted, without any sign, and moves this label only: to the position of the
    current page. *)
Theorem C58_accepted : forall s l, (l < List.length (labels s))%nat ->
  exists s', step (OBind l) s = Ok None s' /\ label_addr s' l = Some (addr s (cur s) (cursor s)) /\ forall k, k <> l -> label_addr s' k = label_addr s k.
Proof. exact bind_again. Qed.
Print Assumptions C58_accepted.
(** So a label does not keep its address, and binding it twice is not refused. *)
Theorem C58_moves : exists s l x s', reached s /\ label_addr s l = Some x /\ step (OBind l) s = Ok None s' /\ label_addr s' l <> Some x.
Proof. exact silent. Qed.
Print Assumptions C58_moves.
(** a: ret; jmp a; a: ret; ret; finalize; a: ret; jmp a; finalize.  The first jump, at 1, goes to the second a, at 6,
    though the first a stands right above it; the second jump goes to the third a, at 8, and the first stays. *)
Example C58_case : step OLabel newD = Ok (Some 0%nat) s0R /\ run onceR s0R = Some s1R /\ run againR s1R = Some s2R /\ run [asm [IRet]] s2R = Some s3R /\
  after OFinalize s3R = Some s4R /\ run thenR s4R = Some s5R /\ refs s1R 0%nat = [Rel P0 4 2] /\
  label_addr s1R 0%nat = Some 65536 /\ label_addr s2R 0%nat = Some (65536 + 6) /\ label_addr s5R 0%nat = Some (65536 + 8) /\
  bytes s5R P0 0 14 = [0xc3; 0xe9; 0; 0; 0; 0; 0xc3; 0xc3; 0xc3; 0xe9; 0xfa; 0xff; 0xff; 0xff].
Proof. exact case58. Qed.
