(** Property C72: the numbers of labels do not matter. *)
From Verif Require Import Base ModelMem ModelSyntax ModelMacro SpecState SpecHist SpecShare MemDemo SpecRename RenameRun RenameDemo.
Local Open Scope list_scope.
Local Open Scope Z_scope.

(** ** C72.  Two histories whose calls are the same but for when, in which order, and how many labels they create — every label
    exists before it is used, and label [l] of the first is [f l] in the second.  Every call returns, answers and panics alike in
    both, the history ends in both or in neither, and then every byte of memory, the selected page, the cursors and the
    code blocks are equal; labels and what waits for finalize are so up to their numbers. *)
Theorem C72 : forall f b0 m0 a b, (forall x y, f x = f y -> x = y) -> alike f 0 0 a b -> forallb api a = true ->
  let s := jit_new b0 m0 in
  map (named f) (replies a s) = replies b s /\
  match run a s, run b s with Some s1, Some s2 => same_but_names f s1 s2 | None, None => True | _, _ => False end.
Proof. exact renaming. Qed.
Print Assumptions C72.
(** Two jumps, a call, a constant that holds the address of a label, and a datum. *)
Example C72_case : (forall x y, fAB x = fAB y -> x = y) /\ alike fAB 0 0 hA hB /\ forallb api hA = true /\
  replies hA newD = [inl None; inl None; inl (Some 2%nat); inl (Some 3%nat); inl None] /\
  replies hB newD = [inl None; inl None; inl (Some 3%nat); inl (Some 4%nat); inl None] /\
  match run hA newD, run hB newD with
  | Some s1, Some s2 => bytes s1 P0 0 16 = [0xe9; 0xfb; 0xff; 0xff; 0xff; 0xe9; 0; 0; 0; 0; 0xe8; 0xf1; 0xff; 0xff; 0xff; 0xc3] /\
      bytes s1 P0 16 8 = [10; 0; 1; 0; 0; 0; 0; 0] /\ bytes s1 P2 0 4 = [9; 0; 0; 0] /\
      bytes s2 P0 0 24 = bytes s1 P0 0 24 /\ bytes s2 P2 0 4 = bytes s1 P2 0 4
  | _, _ => False
  end.
Proof. exact case72. Qed.
