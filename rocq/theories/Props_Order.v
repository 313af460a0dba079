(** Property C73: the order of work on different pages does not matter. *)
From Verif Require Import Base ModelMem ModelSyntax ModelMacro SpecState SpecHist SpecShare MemDemo SpecOrder OrderRun OrderDemo.
Local Open Scope list_scope.
Local Open Scope Z_scope.

(** ** C73.  Histories in which every call comes with the page it selects.  Calls that emit code or bind labels may change places with
    neighbours that work on another page and bind no common label, any number of times.  Either both histories survive or
    neither; if they do, then on every page the calls answered and panicked alike, memory, cursors, constants, data and
    code blocks are equal, every label is bound to the same place, and the same references are left. *)
Theorem C73 : forall b0 m0 a b, Forall selectable a -> Forall (fun u => api (snd u) = true) a -> reordered a b ->
  let s := jit_new b0 m0 in
  match run (calls a) s, run (calls b) s with
  | Some s1, Some s2 => same_but_order s1 s2 /\ forall k, heard k a s = heard k b s
  | None, None => True
  | _, _ => False
  end.
Proof. exact reordering. Qed.
Print Assumptions C73.
(** Two pages that jump to each other, written in turn, and one after the other. *)
Example C73_case : let a := hO [uA1; uB1; uA2; uB2] in let b := hO [uB1; uB2; uA1; uA2] in
  Forall selectable a /\ Forall (fun u => api (snd u) = true) a /\ reordered a b /\
  viewO [uA1; uB1; uA2; uB2] = Some ([0xe9; 0xfb; 0xff; 0xff; 0x0f; 0xe9; 0xf6; 0xff; 0xff; 0x0f; 0xc3], [0xe8; 0xfb; 0xff; 0xff; 0xef; 0x90], [0; 0; 1; 0; 0; 0; 0; 0]) /\
  viewO [uB1; uB2; uA1; uA2] = viewO [uA1; uB1; uA2; uB2].
Proof. exact case73. Qed.
