(** Property C70: when finalize is called does not matter. *)
From Verif Require Import Base ModelMem ModelSyntax ModelMacro SpecState SpecHist SpecShare MemDemo SpecWhen WhenRun WhenDemo.
Local Open Scope list_scope.
Local Open Scope Z_scope.

(** ** C70.  Calls of finalize in the middle of a history, made when no constant is to be placed, can be left out if there
    is one at the end, provided labels are bound only while unbound: every other call returns or panics alike, one history
    ends if and only if the other does, and then memory, cursors, labels and what is still unresolved are the same. *)
Theorem C70 : forall s ops, reached s -> forallb api ops = true -> well_timed ops s ->
  answered (put_off ops) s = answered ops s /\
  match run (put_off ops ++ [OFinalize]) s, run (ops ++ [OFinalize]) s with
  | Some s1, Some s2 => same_code s1 s2
  | None, None => True
  | _, _ => False
  end.
Proof. exact when. Qed.
Print Assumptions C70.
(** Hence two histories that differ only in where they call finalize. *)
Theorem C70_two : forall s a b, reached s -> forallb api a = true -> forallb api b = true -> well_timed a s -> well_timed b s -> put_off a = put_off b ->
  answered a s = answered b s /\
  match run (a ++ [OFinalize]) s, run (b ++ [OFinalize]) s with
  | Some s1, Some s2 => same_code s1 s2
  | None, None => True
  | _, _ => False
  end.
Proof. exact when_two. Qed.
Print Assumptions C70_two.
(** And whatever is done afterwards, with more calls of finalize at any time, goes alike. *)
Theorem C70_then : forall s ops rest, reached s -> forallb api ops = true -> well_timed ops s -> forallb api rest = true ->
  answered (put_off ops ++ OFinalize :: rest) s = answered (ops ++ OFinalize :: rest) s /\
  match run (put_off ops ++ OFinalize :: rest) s, run (ops ++ OFinalize :: rest) s with
  | Some s1, Some s2 => same_code s1 s2
  | None, None => True
  | _, _ => False
  end.
Proof. exact when_then. Qed.
Print Assumptions C70_then.
(** Three blocks that jump forwards and back, with two early calls of finalize and without. *)
Example C70_case : reached newD /\ forallb api hW = true /\ well_timed hW newD /\ put_off hW = lateW /\
  viewW (hW ++ [OFinalize]) = Some
    ([0xe9; 0; 0; 0; 0; 0xe9; 0; 0; 0; 0; 0xe8; 0xf6; 0xff; 0xff; 0xff; 0xe9; 0; 0; 0; 0; 0xe8; 0xf1; 0xff; 0xff; 0xff; 0xc3; 0xcc; 0xcc], [7; 0; 0; 0; 0; 0; 0; 0], [9; 0; 0; 0],
     [Some (P0, 5); Some (P0, 10); Some (P0, 20); Some (P0, 32); Some (P2, 0)], [(0, 10, 10); (10, 20, 20); (20, 26, 40)]) /\
  viewW (lateW ++ [OFinalize]) = Some
    ([0xe9; 0; 0; 0; 0; 0xe9; 0; 0; 0; 0; 0xe8; 0xf6; 0xff; 0xff; 0xff; 0xe9; 0; 0; 0; 0; 0xe8; 0xf1; 0xff; 0xff; 0xff; 0xc3; 0xcc; 0xcc], [7; 0; 0; 0; 0; 0; 0; 0], [9; 0; 0; 0],
     [Some (P0, 5); Some (P0, 10); Some (P0, 20); Some (P0, 32); Some (P2, 0)], [(0, 26, 40)]).
Proof. exact case70. Qed.
(** Both conditions are needed.  A label bound again: the jump goes to the first binding if finalize is called between. *)
Example C70_again : timed hW2 newD = false /\
  option_map (fun s => bytes s P0 0 7) (run (hW2 ++ [OFinalize]) newD) = Some [0xe9; 0; 0; 0; 0; 0xc3; 0xc3] /\
  option_map (fun s => bytes s P0 0 7) (run (put_off hW2 ++ [OFinalize]) newD) = Some [0xe9; 1; 0; 0; 0; 0xc3; 0xc3].
Proof. exact case70_again. Qed.
(** A constant waiting: finalize places it, and the code goes on after it. *)
Example C70_constant : timed hW3 newD = false /\
  option_map (fun s => bytes s P0 0 9) (run (hW3 ++ [OFinalize]) newD) = Some [0xc3; 0xcc; 0xcc; 0xcc; 7; 0; 0; 0; 0xc3] /\
  option_map (fun s => bytes s P0 0 9) (run (put_off hW3 ++ [OFinalize]) newD) = Some [0xc3; 0xc3; 0xcc; 0xcc; 7; 0; 0; 0; 0xcc].
Proof. exact case70_constant. Qed.
