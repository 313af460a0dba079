(** Property C78: exactly which sessions go through, and where each page ends.  [planned ops blank] (SpecPlan) adds up the sizes
    that a two-pass assembler would give, call by call; [returns] and [numbered] as in C65. *)
From Verif Require Import Base ModelMem ModelSyntax ModelMacro SpecX86 SpecAsm SpecState SpecHist MemDemo SpecProg SpecGas SpecTwo SpecBudget BudgetDemo SpecPlan PlanFacts PlanDemo.
Local Open Scope list_scope.
Local Open Scope Z_scope.

(** ** C78.  A session of calls that make sense returns from all of them if and only if it can be planned, and then its pages end
    where the plan says, wherever the memory is and whatever it contains. *)
Theorem C78 : forall b junk ops, all_sensible 0 ops ->
  match planned ops blank with
  | Some x => exists s, returns ops (jit_new b junk) = Some (numbered 0 ops, s) /\ run ops (jit_new b junk) = Some s /\ forall p, counter (pages s p) = ends x p
  | None => returns ops (jit_new b junk) = None
  end.
Proof. exact session_planned. Qed.
Print Assumptions C78.
(** From every reached state. *)
Theorem C78_on : forall ops s, reached s -> known_targets s -> all_sensible (List.length (labels s)) ops ->
  match planned ops (plan_of s) with
  | Some x => exists s', returns ops s = Some (numbered (List.length (labels s)) ops, s') /\ run ops s = Some s' /\ (forall p, counter (pages s' p) = ends x p) /\ cur s' = chosen x
  | None => returns ops s = None
  end.
Proof. exact session_on. Qed.
Print Assumptions C78_on.
(** It stops at the first call that cannot be planned. *)
Theorem C78_stops : forall a o b s x, reached s -> known_targets s -> all_sensible (List.length (labels s)) (a ++ o :: b) -> planned a (plan_of s) = Some x -> next o x = None ->
  exists s' e t, run a s = Some s' /\ step o s' = Panic e t.
Proof. exact session_stops_on. Qed.
Print Assumptions C78_stops.
(** Blocks on two pages, constants, data, alignment, two finalize(). *)
Example C78_case : all_sensible 0 session65 /\ option_map (fun x => (ends x P0, ends x P1, ends x P2)) (planned session65 blank) = Some (48, 40, 4096).
Proof. exact case78. Qed.
(** A constant that reaches to the last byte of the page behind 16 bytes, and does not fit behind 17. *)
Example C78_full_case : all_sensible 0 (tail 16) /\ option_map (fun x => ends x P0) (planned (tail 16) blank) = Some PAGE_SIZE /\ all_sensible 0 (tail 17) /\ planned (tail 17) blank = None.
Proof. exact case_tail. Qed.
(** An instruction without code. *)
Example C78_stops_case : planned nocode blank = None /\ option_map (fun x => ends x P0) (planned [asm [IRet]] blank) = Some 1 /\ returns nocode newD = None.
Proof. exact case_nocode. Qed.
