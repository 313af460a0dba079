(** Property C71: the same session in another allocation gives the same image. *)
From Verif Require Import Base ModelMem ModelSyntax ModelMacro SpecState SpecHist SpecShare MemDemo SpecWhen SpecMoved MovedRun MovedDemo.
Local Open Scope list_scope.
Local Open Scope Z_scope.

(** ** C71.  Two assemblers with memory anywhere, of any contents, and one history of calls: every call returns or panics alike
    in both, the history ends in both or in neither, and then selected page, cursors, code blocks, labels and what is still
    unresolved are the same.  Counted from the start of the allocation every byte is the same in both, or belongs to eight
    bytes that hold the address of one place, or has not been written. *)
Theorem C71 : forall b1 m1 b2 m2 ops, forallb api ops = true ->
  let a1 := jit_new b1 m1 in let a2 := jit_new b2 m2 in
  answered ops a1 = answered ops a2 /\
  match run ops a1, run ops a2 with
  | Some s1, Some s2 => same_session s1 s2 /\ base s1 = b1 /\ base s2 = b2 /\ same_image a1 a2 s1 s2
  | None, None => True
  | _, _ => False
  end.
Proof. exact moved. Qed.
Print Assumptions C71.
(** Without abs_address the images are the same, if the memory was. *)
Theorem C71_plain : forall b1 m1 b2 m2 ops, forallb api ops = true -> forallb unaddressed ops = true -> (forall k, m1 (b1 + k) = m2 (b2 + k)) ->
  match run ops (jit_new b1 m1), run ops (jit_new b2 m2) with
  | Some s1, Some s2 => forall k, at_offset s1 k = at_offset s2 k
  | None, None => True
  | _, _ => False
  end.
Proof. exact moved_plain. Qed.
Print Assumptions C71_plain.
(** Two jumps, a constant that holds the address of a label, and a datum. *)
Example C71_case : forallb api hM = true /\
  viewM at1 = Some ([0xe9; 0; 0; 0; 0; 0xe8; 0xf6; 0xff; 0xff; 0xff; 0xc3], [5; 0; 0; 0x10; 0; 0; 0; 0], [9; 0; 0; 0]) /\
  viewM at2 = Some ([0xe9; 0; 0; 0; 0; 0xe8; 0xf6; 0xff; 0xff; 0xff; 0xc3], [5; 0; 0; 0x20; 0xff; 0x7f; 0; 0], [9; 0; 0; 0]).
Proof. exact case71. Qed.
Example C71_plain_case : forallb api hM2 = true /\ forallb unaddressed hM2 = true /\ (forall k, mem at1 (base at1 + k) = mem at2 (base at2 + k)) /\
  match run hM2 at1, run hM2 at2 with
  | Some s1, Some s2 => bytes s1 P0 0 11 = [0xe9; 0; 0; 0; 0; 0xe8; 0xf6; 0xff; 0xff; 0xff; 0xc3] /\ bytes s1 P0 16 8 = [7; 0; 0; 0; 0; 0; 0; 0] /\ bytes s1 P2 0 4 = [9; 0; 0; 0] /\
      bytes s2 P0 0 11 = bytes s1 P0 0 11 /\ bytes s2 P0 16 8 = bytes s1 P0 16 8 /\ bytes s2 P2 0 4 = bytes s1 P2 0 4
  | _, _ => False
  end.
Proof. exact case71_plain. Qed.
