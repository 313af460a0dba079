(** Property C79: labels, code and data of a whole session, told from the calls.  [charted ops blank void] (SpecChart) gives the place
    of every label, beside the plan of C78; [settles] the place that references are linked to; [place_in b] the address in memory at [b]. *)
From Verif Require Import Base ModelMem ModelSyntax ModelMacro SpecX86 SpecAsm SpecState SpecHist MemDemo SpecProg LiveDemo SpecGas SpecTwo SpecBudget BudgetDemo SpecPlan SpecChart ChartFacts ChartDemo.
Local Open Scope list_scope.
Local Open Scope Z_scope.

(** ** C79.  After a session of calls that make sense every label is where the chart says, or not bound if the chart says nothing. *)
Theorem C79 : forall b junk ops, all_sensible 0 ops ->
  match charted ops blank void with
  | Some y => exists s, returns ops (jit_new b junk) = Some (numbered 0 ops, s) /\ forall l, label_addr s l = option_map (place_in b) (spot y l)
  | None => returns ops (jit_new b junk) = None
  end.
Proof. exact labels_charted. Qed.
Print Assumptions C79.
(** From every reached state. *)
Theorem C79_on : forall ops s, reached s -> known_targets s -> all_sensible (List.length (labels s)) ops ->
  match charted ops (plan_of s) (chart_of s) with
  | Some y => exists s', returns ops s = Some (numbered (List.length (labels s)) ops, s') /\ forall l, label_addr s' l = option_map (place_in (base s)) (spot y l)
  | None => returns ops s = None
  end.
Proof. exact labels_on. Qed.
Print Assumptions C79_on.
(** Every block whose references are linked is in memory, where the plan says, as the second pass (SpecTwo) writes it with the places
    of the chart. *)
Theorem C79_code : forall b junk pre ev lenv r body rest x y z target, all_sensible 0 (pre ++ OAsm ev lenv r body :: rest) ->
  planned pre blank = Some x -> charted pre blank void = Some y -> planned (OAsm ev lenv r body :: rest) x = Some z ->
  (forall v, In v (body_labels body) -> settles (OAsm ev lenv r body :: rest) x y (lenv v) = Some (target v)) ->
  exists s bs, run (pre ++ OAsm ev lenv r body :: rest) (jit_new b junk) = Some s /\
    written (eval ev r) (fun v => place_in b (target v)) (place_in b (chosen x, ends x (chosen x))) body = Some bs /\ bytes s (chosen x) (ends x (chosen x)) (List.length bs) = bs.
Proof. exact code_from_new. Qed.
Print Assumptions C79_code.
(** From every reached state. *)
Theorem C79_code_on : forall pre ev lenv r body rest s x y z target, reached s -> known_targets s -> all_sensible (List.length (labels s)) (pre ++ OAsm ev lenv r body :: rest) ->
  planned pre (plan_of s) = Some x -> charted pre (plan_of s) (chart_of s) = Some y -> planned (OAsm ev lenv r body :: rest) x = Some z ->
  (forall v, In v (body_labels body) -> settles (OAsm ev lenv r body :: rest) x y (lenv v) = Some (target v)) ->
  exists s4 bs, run (pre ++ OAsm ev lenv r body :: rest) s = Some s4 /\
    written (eval ev r) (fun v => place_in (base s) (target v)) (place_in (base s) (chosen x, ends x (chosen x))) body = Some bs /\ bytes s4 (chosen x) (ends x (chosen x)) (List.length bs) = bs.
Proof. exact code_on. Qed.
Print Assumptions C79_code_on.
(** Every constant and datum is in memory at the place its label has at the next finalize; an address is the one that the
    references to its label are linked to. *)
Theorem C79_data : forall b junk pre d mid rest x y x2 y2 z, all_sensible 0 (pre ++ OCreate d :: mid ++ OFinalize :: rest) -> no_finalize mid = true ->
  planned pre blank = Some x -> charted pre blank void = Some y -> planned (OCreate d :: mid) x = Some x2 -> charted (OCreate d :: mid) x y = Some y2 -> planned (OFinalize :: rest) x2 = Some z ->
  exists s p m, run (pre ++ OCreate d :: mid ++ OFinalize :: rest) (jit_new b junk) = Some s /\ spot (marks OFinalize x2 y2) (known y) = Some (p, m) /\
    (is_abs d = false -> bytes s p m (List.length (dat_bytes d)) = dat_bytes d) /\
    (forall t v, d = KAbs t -> settles (OFinalize :: rest) x2 y2 t = Some v -> bytes s p m 8 = le 8 (place_in b v)).
Proof. exact data_from_new. Qed.
Print Assumptions C79_data.
(** The session of C65: labels of blocks, constants, data, one bound by bind_label and one of a constant that was bound elsewhere before. *)
Example C79_case : all_sensible 0 session65 /\
  option_map (fun y => map (spot y) (seq 0 9)) (charted session65 blank void) =
    Some [Some (P0, 0); Some (P0, 10); Some (P0, 15); Some (P1, 0); Some (P0, 32); Some (P0, 40); Some (P2, 0); Some (P1, 10); Some (P1, 16)].
Proof. exact case79. Qed.
(** Its second block, which jumps to the other page. *)
Example C79_code_case : session65 = pre79 ++ asm bodyM :: post79 /\
  match planned pre79 blank, charted pre79 blank void with
  | Some x, Some y => (chosen x, ends x (chosen x)) = (P1, 0) /\ planned (asm bodyM :: post79) x <> None /\
      forall v, In v (body_labels bodyM) -> settles (asm bodyM :: post79) x y (lenvD v) = Some (target79 v)
  | _, _ => False
  end /\
  written (eval evD rD) (fun v => place_in 65536 (target79 v)) (place_in 65536 (P1, 0)) bodyM = Some [72; 131; 192; 10; 233; 6; 0; 0; 240].
Proof. exact case79_code. Qed.
(** Its constant that holds the address of label 1. *)
Example C79_data_case : session65 = pre79d ++ OCreate (KAbs 1%nat) :: mid79d ++ OFinalize :: post79d /\ no_finalize mid79d = true /\
  match planned pre79d blank, charted pre79d blank void with
  | Some x, Some y => known y = 5%nat /\
      match planned (OCreate (KAbs 1%nat) :: mid79d) x, charted (OCreate (KAbs 1%nat) :: mid79d) x y with
      | Some x2, Some y2 => option_map (fun z => ends z P2) (planned (OFinalize :: post79d) x2) = Some 4096 /\ spot (marks OFinalize x2 y2) 5%nat = Some (P0, 40) /\ settles (OFinalize :: post79d) x2 y2 1%nat = Some (P0, 10)
      | _, _ => False
      end
  | _, _ => False
  end /\ le 8 (place_in 65536 (P0, 10)) = [10; 0; 1; 0; 0; 0; 0; 0].
Proof. exact case79_data. Qed.
