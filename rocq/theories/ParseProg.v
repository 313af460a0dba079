(** From source text to code: the parser composed with the theorems about blocks. *)
From Verif Require Import Base ModelMem ModelEnc ModelSyntax ModelMacro ModelParse SpecX86 SpecAsm SpecState SpecHist SpecGrammar ParseOk ParseStmt ParseFacts.
From Verif Require Import SpecProg ProgExec ProgSim.
Local Open Scope list_scope.
Local Open Scope Z_scope.

Lemma source_listing is_expr checks text body : g_block (fun ts => is_expr ts = true) checks false text body ->
  exists parsed, p_stmts is_expr checks text = Some parsed /\
  forall ev lenv r s o s1 ops s4 target,
    reached s -> Forall (plain ev r) body -> step (OAsm ev lenv r parsed) s = Ok o s1 -> forallb api ops = true -> run ops s1 = Some s4 ->
    (forall x, In x (body_labels body) -> linked ops s1 (lenv x) = Some (target x)) ->
    exists marks, listing (denote (eval ev r)) target s4 (cur s) marks body /\ hd_error marks = Some (cursor s) /\ last marks 0 = cursor s1.
Proof.
  intros Hg. exists body. split; [apply roundtrip_block; exact Hg|]. intros. eapply block_listing; eauto.
Qed.
