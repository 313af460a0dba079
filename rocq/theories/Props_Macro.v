(** Properties C27-C30, C38, C39, C42, C43: the input language of monoasm!.
    [is_expr]: which token lists are Rust expressions; [checks]: whether the macro is
    compiled with overflow checks.  [p_inst ts = Some (i, rest)]: one statement is read from
    [ts], leaving [rest]; None: the program does not compile. *)
From Verif Require Import Base ModelMem ModelSyntax ModelMacro ModelParse SpecX86 SpecAsm SpecState SpecHist SpecGrammar SpecProg ParseFacts ParseStmt ParseProg MacroRefuse.
Open Scope string_scope. Open Scope list_scope. Open Scope Z_scope.

(** ** C27.  [family x]: the spellings jX, setX, cmovXq, cmovXl, cmovXw. *)
Theorem C27 : forall is_expr checks x s ts i rest,
  In s (family x) -> s <> "jmp" -> p_inst is_expr checks (TIdent s :: ts) = Some (i, rest) -> hd_error ts <> Some (TPunct ":") ->
  exists c, cc_code x = Some (cc_of c) /\
    ((exists l, i = IJcc c l) \/ (exists a, i = ISetcc c a) \/ (exists w a b, i = ICmovcc w c a b)).
Proof. exact family_code. Qed.
Print Assumptions C27.
Theorem C27_machine : forall is_expr checks x s ts i rest,
  In s (family x) -> s <> "jmp" -> p_inst is_expr checks (TIdent s :: ts) = Some (i, rest) -> hd_error ts <> Some (TPunct ":") ->
  exists cc, cc_code x = Some cc /\ forall val rel m, denote val rel i = Some m -> condition (i_mnem m) = Some cc.
Proof. exact family_denote. Qed.
Print Assumptions C27_machine.
(** Which suffixes are accepted: all of the manual's but nb, and for jumps l and g. *)
Theorem C27_set : forall is_expr checks x,
  (exists i, p_inst is_expr checks [TIdent ("set" ++ x); TIdent "rax"; TPunct ";"] = Some (i, [])) <-> cc_code x <> None /\ x <> "nb".
Proof. exact set_accepts. Qed.
Print Assumptions C27_set.
Theorem C27_cmov : forall is_expr checks x,
  (exists i, p_inst is_expr checks [TIdent ("cmov" ++ x ++ "q"); TIdent "rax"; TPunct ","; TIdent "rdx"; TPunct ";"] = Some (i, [])) <->
  cc_code x <> None /\ x <> "nb".
Proof. exact cmov_accepts. Qed.
Print Assumptions C27_cmov.
Theorem C27_jump : forall is_expr checks x, x <> "mp" ->
  ((exists i, p_inst is_expr checks [TIdent ("j" ++ x); TIdent "l"; TPunct ";"] = Some (i, [])) <-> cc_code x <> None /\ ~ In x ["nb"; "l"; "g"]).
Proof. exact j_accepts. Qed.
Print Assumptions C27_jump.
Example C27_case : p_inst any_expr true [TIdent "cmovngeq"; TIdent "rax"; TPunct ","; TIdent "rdx"; TPunct ";"] =
  Some (ICmovcc QWORD CLt (RReg 0) (RmReg (RReg 2)), []) /\ In "cmovngeq" (family "nge") /\ cc_code "nge" = Some 12.
Proof. exact (conj eq_refl (conj (or_intror (or_intror (or_introl eq_refl))) eq_refl)). Qed.

(** ** C28.  [entries]: the mnemonics, what they name, operand width and number of operands. *)
Theorem C28 : forall is_expr checks s ts i rest,
  p_inst is_expr checks (TIdent s :: ts) = Some (i, rest) -> hd_error ts <> Some (TPunct ":") ->
  (s = "dq" /\ is_instr i = false /\ exists w, one_operand w /\ ts = w ++ TPunct ";" :: rest) \/
  exists e ws, In e entries /\ e_name e = s /\ ts = commas ws ++ TPunct ";" :: rest /\ Forall one_operand ws /\ List.length ws = e_arity e /\
    forall val rel x, denote val rel i = Some x -> In (i_mnem x) (e_ops e) /\ i_width x = e_width e /\ List.length (i_ops x) = e_arity e.
Proof. exact mnemonic_means. Qed.
Print Assumptions C28.
Theorem C28_unknown : forall is_expr checks s ts,
  (forall e, In e entries -> e_name e <> s) -> s <> "dq" -> hd_error ts <> Some (TPunct ":") -> p_inst is_expr checks (TIdent s :: ts) = None.
Proof. exact mnemonic_unknown. Qed.
Print Assumptions C28_unknown.
(** Every mnemonic of the table but seven is accepted with some operands. *)
Example C28_case : Forall (fun e => In (e_name e) not_accepted \/ existsb (accepted_with (e_name e)) candidates = true) entries.
Proof. exact all_accepted. Qed.

(** ** C29.  [g_stmt .. false w i]: the tokens [w] are the statement [i] in the documented syntax. *)
Theorem C29 : forall is_expr checks i w rest,
  g_stmt (fun ts => is_expr ts = true) checks false w i -> p_inst is_expr checks (w ++ rest) = Some (i, rest).
Proof. exact roundtrip. Qed.
Print Assumptions C29.
Theorem C29_block : forall is_expr checks is w,
  g_block (fun ts => is_expr ts = true) checks false w is -> p_stmts is_expr checks w = Some is.
Proof. exact roundtrip_block. Qed.
Print Assumptions C29_block.
Theorem C29_show : forall is_expr checks i rest,
  writable (fun ts => is_expr ts = true) i -> p_inst is_expr checks (show i ++ rest) = Some (i, rest).
Proof. exact show_parse. Qed.
Print Assumptions C29_show.
Theorem C29_show_block : forall is_expr checks is,
  Forall (writable (fun ts => is_expr ts = true)) is -> p_stmts is_expr checks (show_block is) = Some is.
Proof. exact show_parse_block. Qed.
Print Assumptions C29_show_block.
Example C29_case : g_block (fun ts => any_expr ts = true) true false t_block i_block /\ p_stmts any_expr true t_block = Some i_block.
Proof. exact (conj t_block_written t_block_parse). Qed.
Example C29_show_case : Forall (writable (fun ts => any_expr ts = true))
  [ISub DWORD (RmInd (mkInd (RReg 13) (PS1 2 (RReg 12)) (PImm (-8)))) (RmiImm (EToks [TIdent "n"])); IJcc CLt "loop0"; IRoundpd (ELit 3) (XmXmm (EToks [TInt 4])) (ELit 1);
   ICall (DestRel "f"); ILea (RmReg (RReg 0)) (RmInd (mkInd (RReg 16) PScaleNone (PLabel "data")))].
Proof. exact writable_case. Qed.

(** ** C30.  Literals and expressions after a minus sign are negated.  Missing from the full
    statement: names after a minus sign, and the literal -2^31; both are wrong. *)
Theorem C30_partial : forall is_expr checks wb b wd d rest,
  g_register (fun ts => is_expr ts = true) wb b -> g_disp (fun ts => is_expr ts = true) wd d -> d <> PImm (- 2 ^ 31) ->
  exists a, p_ind is_expr checks (TGroup Bracket (wb ++ TPunct "-" :: wd) :: rest) = Some (a, rest) /\ ia_base a = b /\ ia_scale a = PScaleNone /\
    forall val rel, disp_value val rel (ia_disp a) = - disp_value val rel d.
Proof. exact minus_base. Qed.
Print Assumptions C30_partial.
Theorem C30_index_partial : forall is_expr checks wb b wi r ws k wd d rest,
  g_register (fun ts => is_expr ts = true) wb b -> g_register (fun ts => is_expr ts = true) wi r -> g_scale ws k ->
  g_disp (fun ts => is_expr ts = true) wd d -> d <> PImm (- 2 ^ 31) ->
  exists a, p_ind is_expr checks (TGroup Bracket (wb ++ TPunct "+" :: wi ++ ws ++ TPunct "-" :: wd) :: rest) = Some (a, rest) /\
    ia_base a = b /\ ia_scale a = PS1 k r /\ forall val rel, disp_value val rel (ia_disp a) = - disp_value val rel d.
Proof. exact minus_index. Qed.
Print Assumptions C30_index_partial.
(** [rip - data] is [rip + data]; [rax - rcx] is [rax + rcx] with rcx a label; [rax - -2147483648] is [rax - 2147483648] without checks. *)
Theorem C30_refuted : exists is_expr checks a rel,
  p_ind is_expr checks [TGroup Bracket [TIdent "rip"; TPunct "-"; TIdent "data"]] = Some (a, []) /\
  forall val, disp_value val rel (ia_disp a) = disp_value val rel (PLabel "data") /\ disp_value val rel (PLabel "data") <> - disp_value val rel (PLabel "data").
Proof. exact minus_label. Qed.
Print Assumptions C30_refuted.
Theorem C30_register_refuted : exists is_expr checks a,
  p_ind is_expr checks [TGroup Bracket [TIdent "rax"; TPunct "-"; TIdent "rcx"]] = Some (a, []) /\ ia_disp a = PLabel "rcx".
Proof. exact minus_register. Qed.
Print Assumptions C30_register_refuted.
Theorem C30_min_refuted : exists is_expr a,
  p_ind is_expr false [TGroup Bracket [TIdent "rax"; TPunct "-"; TPunct "-"; TInt 2147483648]] = Some (a, []) /\
  forall val rel, disp_value val rel (ia_disp a) = - 2 ^ 31.
Proof. exact minus_min. Qed.
Print Assumptions C30_min_refuted.
Example C30_case : p_ind any_expr true [TGroup Bracket [TIdent "rbp"; TPunct "-"; TInt 8]] = Some (mkInd (RReg 5) PScaleNone (PImm (-8)), []).
Proof. exact eq_refl. Qed.

(** ** C38.  What is accepted, exactly: the documented syntax and the listed additions. *)
Theorem C38 : forall is_expr checks ts i rest,
  p_inst is_expr checks ts = Some (i, rest) <-> exists w, ts = w ++ rest /\ g_stmt (fun ts => is_expr ts = true) checks true w i.
Proof. exact inst_exact. Qed.
Print Assumptions C38.
Theorem C38_block : forall is_expr checks ts is,
  p_stmts is_expr checks ts = Some is <-> g_block (fun ts => is_expr ts = true) checks true ts is.
Proof. exact stmts_exact. Qed.
Print Assumptions C38_block.
Example C38_case : p_inst any_expr true ([TIdent "lea"; TIdent "rax"; TPunct ","; TGroup Bracket [TIdent "rip"; TPunct "-"; TIdent "data"]; TPunct ";"] ++ [TIdent "x"]) =
  Some (ILea (RmReg (RReg 0)) (RmInd (mkInd (RReg 16) PScaleNone (PLabel "data"))), [TIdent "x"]).
Proof. exact eq_refl. Qed.

(** ** C39.  Source text to disassembly: composition of C29 and C08. *)
Theorem C39 : forall is_expr checks text body, g_block (fun ts => is_expr ts = true) checks false text body ->
  exists parsed, p_stmts is_expr checks text = Some parsed /\
  forall ev lenv r s o s1 ops s4 target,
    reached s -> Forall (plain ev r) body -> step (OAsm ev lenv r parsed) s = Ok o s1 -> forallb api ops = true -> run ops s1 = Some s4 ->
    (forall x, In x (body_labels body) -> linked ops s1 (lenv x) = Some (target x)) ->
    exists marks, listing (denote (eval ev r)) target s4 (cur s) marks body /\ hd_error marks = Some (cursor s) /\ last marks 0 = cursor s1.
Proof. exact source_listing. Qed.
Print Assumptions C39.
Example C39_case : g_block (fun ts => any_expr ts = true) true false t_block i_block.
Proof. exact t_block_written. Qed.

(** ** C42.  Full statement: without the exception.  xchgl, xchgw and xchgb are listed in
    the README and never expand. *)
Theorem C42_partial : forall is_expr checks s, In s readme -> ~ In s ["xchgl"; "xchgw"; "xchgb"] ->
  exists ws i g, p_inst is_expr checks (TIdent s :: commas ws ++ [TPunct ";"]) = Some (i, []) /\ compile i = Some g.
Proof. exact readme_usable. Qed.
Print Assumptions C42_partial.
Theorem C42_xchg : forall is_expr checks s ts i rest, In s ["xchgl"; "xchgw"; "xchgb"] ->
  p_inst is_expr checks (TIdent s :: ts) = Some (i, rest) -> hd_error ts <> Some (TPunct ":") -> compile i = None.
Proof. exact readme_xchg. Qed.
Print Assumptions C42_xchg.
Theorem C42_refuted : exists s, In s readme /\ forall is_expr checks ts i rest,
  p_inst is_expr checks (TIdent s :: ts) = Some (i, rest) -> hd_error ts <> Some (TPunct ":") -> compile i = None.
Proof. exact readme_refuted. Qed.
Print Assumptions C42_refuted.
Example C42_case : In "cmovgtq" readme /\ ~ In "cmovgtq" ["xchgl"; "xchgw"; "xchgb"].
Proof. exact readme_in. Qed.

(** ** C43.  [compile i = None]: the macro panics while expanding, or rustc rejects what it expands to; the program does not compile. *)
Theorem C43 : forall is_expr checks s ts i rest, p_inst is_expr checks (TIdent s :: ts) = Some (i, rest) -> hd_error ts <> Some (TPunct ":") ->
  (compile i = None <-> impossible i = true \/ left_out i = true).
Proof. exact refused_text. Qed.
Print Assumptions C43.
Theorem C43_impossible : forall i val rel, impossible i = true -> denote val rel i = None.
Proof. exact impossible_denote. Qed.
Print Assumptions C43_impossible.
Example C43_case : p_inst any_expr true [TIdent "imul"; TIdent "rax"; TPunct ","; TInt 5; TPunct ";"] = Some (IImul (RmiReg (RReg 0)) (RmiImm (ELit 5)), []) /\
  left_out (IImul (RmiReg (RReg 0)) (RmiImm (ELit 5))) = true /\
  p_inst any_expr true [TIdent "addq"; TGroup Bracket [TIdent "rax"]; TPunct ","; TGroup Bracket [TIdent "rdi"]; TPunct ";"] =
    Some (IAdd QWORD (RmInd (mkInd (RReg 0) PScaleNone (PImm 0))) (RmiInd (mkInd (RReg 7) PScaleNone (PImm 0))), []) /\
  compile (IImul (RmiReg (RReg 0)) (RmiReg (RReg 1))) <> None.
Proof. exact refused_case. Qed.
