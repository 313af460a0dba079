(** Property C65: a session told from its calls alone to stay within the pages never panics.  [within room n c ops]
    (SpecBudget.v) counts, call by call, the bytes each page can lose and the labels that exist; [returns] gives the
    answers of calls that all return, [numbered] the labels in the order in which they are made. *)
From Verif Require Import Base ModelMem ModelSyntax ModelMacro SpecX86 SpecAsm SpecState SpecHist MemDemo SpecProg SpecScope SpecBudget BudgetFacts BudgetDemo.
Local Open Scope list_scope.
Local Open Scope Z_scope.

(** ** C65.  Whatever the address and the old contents of the memory, all calls of a session within PAGE_SIZE bytes per
    page return, finalize() included, and the labels they return are 0, 1, 2, ... *)
Theorem C65 : forall b junk ops, within (fun _ => PAGE_SIZE) 0 P0 ops ->
  exists s, returns ops (jit_new b junk) = Some (numbered 0 ops, s) /\ run ops (jit_new b junk) = Some s.
Proof. exact session_new. Qed.
Print Assumptions C65.
(** The same from every reached state with what is left of its pages after the constants that wait, however these are
    aligned; and afterwards no more is used than was granted, so that sessions can follow one another. *)
Theorem C65_on : forall ops s room, reached s -> known_targets s -> (forall p, 0 <= room p /\ used s p + room p <= PAGE_SIZE) -> within room (List.length (labels s)) (cur s) ops ->
  exists s', returns ops s = Some (numbered (List.length (labels s)) ops, s') /\ run ops s = Some s' /\ known_targets s' /\ forall p, used s' p <= used s p + room p.
Proof. exact session. Qed.
Print Assumptions C65_on.
(** No smaller page would do: a page takes PAGE_SIZE bytes, and of one byte more the last call panics. *)
Theorem C65_tight : forall b junk, let ops := repeat (OPage None (CEmitb 144)) (Z.to_nat PAGE_SIZE) in
  within (fun _ => PAGE_SIZE) 0 P0 ops /\ exists s, returns ops (jit_new b junk) = Some (numbered 0 ops, s) /\ (exists t, step (OPage None (CEmitb 144)) s = Panic PageOverflow t).
Proof. exact session_tight. Qed.
Print Assumptions C65_tight.
(** Two blocks on two pages, a float, an address, data, alignment, bytes, labels bound by hand, two finalize(). *)
Example C65_case :
  within (fun _ => PAGE_SIZE) 0 P0 session65 /\
  numbered 0 session65 = [Some 0; Some 1; Some 2; Some 3; None; Some 4; Some 5; Some 6; None; None; None; None; Some 7; None; None; None; Some 8; None; None]%nat /\
  option_map fst (returns session65 newD) = Some (numbered 0 session65) /\
  option_map (fun x => (counter (pages (snd x) P0), counter (pages (snd x) P1), counter (pages (snd x) P2))) (returns session65 newD) = Some (48, 40, 4096).
Proof. exact case65. Qed.
