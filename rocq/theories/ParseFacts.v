(** Lemmas behind the properties of the macro's input language (C27-C30). *)
From Coq Require Import Lia ZifyBool ZifyNat.
From Verif Require Import Base ModelSyntax ModelParse SpecX86 SpecAsm SpecGrammar ParseOk ParseStmt.
Open Scope string_scope.
Local Open Scope list_scope.
Local Open Scope Z_scope.
Local Notation length := List.length.

Ltac names_of := match goal with H : In ?s _ |- _ => cbn [In spelled sized sized2 suffix append map cc_names jcc_names filter String.eqb Ascii.eqb Bool.eqb negb orb] in H; repeat (destruct H as [<-|H]; [|]); try destruct H end.

(** ** What the mnemonics denote *)
Definition entry_of (s : string) : option entry := find (fun e => String.eqb (e_name e) s) entries.
Lemma entry_in s e : entry_of s = Some e -> In e entries /\ e_name e = s.
Proof. unfold entry_of. intros H. apply find_some in H. destruct H as [H K]. apply String.eqb_eq in K. auto. Qed.
Definition is_op (m : mnem) (w : width) (n : nat) (o : option ins) : Prop :=
  forall x, o = Some x -> i_mnem x = m /\ i_width x = w /\ length (i_ops x) = n.
Ltac odestruct := repeat match goal with
  | H : obind ?o _ = Some _ |- _ => destruct o; [cbn [obind] in H|discriminate H]
  end.
Lemma op_two m w a b : is_op m w 2 (d_two m w a b).
Proof. intros x H. unfold d_two in H. odestruct. injection H as <-. auto. Qed.
Lemma op_one m w a : is_op m w 1 (d_one m w a).
Proof. intros x H. unfold d_one in H. odestruct. injection H as <-. auto. Qed.
Lemma op_guard m w n b k : is_op m w n k -> is_op m w n (obind (guard b) (fun _ => k)).
Proof. intros H x K. destruct b; [exact (H x K)|discriminate]. Qed.
Lemma op_none m w n : is_op m w n None. Proof. intros x H. discriminate. Qed.
Lemma op_const m w l : is_op m w (length l) (Some (mkIns m w l)). Proof. intros x [= <-]. auto. Qed.
Lemma op_shift val rel o w a b : is_op (Shift o) w 2 (d_shift val rel o w a b).
Proof. destruct b; cbn [d_shift]; apply op_guard, op_two. Qed.
Lemma op_dest val rel m d : is_op m W64 1 (d_dest val rel m d).
Proof. intros x H. destruct d; cbn [d_dest] in H; odestruct; injection H as <-; auto. Qed.
Lemma op_round val rel a b e : is_op Roundpd W64 3 (denote val rel (IRoundpd a b e)).
Proof. intros x H. cbn [denote] in H. odestruct. injection H as <-. auto. Qed.
Lemma op_movq val rel a b x : d_movq val rel a b = Some x -> In (i_mnem x) [Mov; MovX] /\ i_width x = W64 /\ length (i_ops x) = 2%nat.
Proof.
  intros H. assert (K : is_op Mov W64 2 (Some x) \/ is_op MovX W64 2 (Some x)).
  { rewrite <- H. destruct a as [e [[]|]|r|y|m]; destruct b as [e' [[]|]|r'|y'|m']; cbn [d_movq]; first [left; apply op_two|right; apply op_two|left; apply op_none]. }
  destruct K as [K|K]; destruct (K x eq_refl) as [-> [-> ->]]; cbn; auto.
Qed.
Definition entry_ok (e : entry) (i : inst) : Prop :=
  forall val rel x, denote val rel i = Some x -> In (i_mnem x) (e_ops e) /\ i_width x = e_width e /\ length (i_ops x) = e_arity e.
Lemma entry_op s m w n i : (forall val rel, is_op m w n (denote val rel i)) -> entry_ok (mkEntry s [m] w n) i.
Proof. intros H val rel x K. destruct (H val rel x K) as [-> [-> ->]]. cbn. auto. Qed.
Ltac solve_op := intros val rel; cbn [denote];
  first [ apply op_none | apply op_round | apply op_shift | apply op_dest | apply op_two | apply op_one | apply op_guard, op_two
        | apply (op_const _ _ []) | apply (op_const _ _ [ORel _])
        | match goal with |- is_op _ _ _ (match ?o with _ => _ end) => destruct o; first [apply op_none|apply op_dest|apply op_two|
              match goal with |- is_op _ _ _ (match ?o with _ => _ end) => destruct o; first [apply op_none|apply op_two] end] end ].
Lemma spelled_entry i s : In s (spelled i) -> is_instr i = true ->
  exists e, In e entries /\ e_name e = s /\ e_arity e = length (args i) /\ entry_ok e i.
Proof.
  intros Hs Hi. destruct i; try discriminate Hi; try destruct sz; try destruct c; names_of;
    match goal with |- exists e, _ /\ _ = ?s /\ _ => let r := eval vm_compute in (entry_of s) in
      match r with Some ?e => exists e; destruct (entry_in s e) as [E1 E2]; [vm_compute; reflexivity|]; split; [exact E1|]; split; [exact E2|]; split; [reflexivity|] end end;
    first [ intros val rel x K; exact (op_movq val rel a b x K) | apply entry_op; solve_op ].
Qed.

Lemma forall2_len {A B} (P : A -> B -> Prop) l m : Forall2 P l m -> length l = length m.
Proof. induction 1; cbn; congruence. Qed.
(** Operand texts have no separators. *)
Lemma g_int_sep w v : g_int w v -> one_operand w.
Proof. intros []; (split; [discriminate|repeat constructor]). Qed.
Lemma arg_one E ck q w a : g_arg E ck q w a -> one_operand w.
Proof.
  assert (R : forall r, g_register E w r -> one_operand w) by (intros r []; (split; [discriminate|repeat constructor])).
  assert (M : forall r, g_mem E ck q w r -> one_operand w) by (intros r []; (split; [discriminate|repeat constructor])).
  assert (X : forall r, g_xmm w r -> one_operand w) by (intros r []; (split; [discriminate|repeat constructor])).
  assert (I : forall w r, g_imm w r -> one_operand w) by (intros w' r []; (split; [discriminate|repeat constructor])).
  intros H. destruct a as [r|[]|[]|[]|e|[]|[e [[]|]| | |]|e|[]|x|v|b]; cbn in H; try (solve [eauto]); try (destruct H; fail).
  - destruct H as [w' [-> H]]. apply I in H. split; [discriminate|]. constructor; [reflexivity|]. apply H.
  - destruct H as [s [-> _]]. split; [discriminate|repeat constructor].
  - destruct H as [-> _]. split; [discriminate|repeat constructor].
  - destruct H as [s [-> _]]. split; [discriminate|repeat constructor].
  - destruct H as [-> _]. split; [discriminate|repeat constructor].
  - destruct H as [H _]. apply g_int_sep in H. exact H.
  - destruct H; (split; [discriminate|repeat constructor]).
Qed.

Section Facts.
Variable is_expr : list tok -> bool.
Variable checks : bool.
Local Notation E := (fun ts => is_expr ts = true).

Lemma inst_word s ts i rest : p_inst is_expr checks (TIdent s :: ts) = Some (i, rest) -> hd_error ts <> Some (TPunct ":") ->
  exists ws, ts = commas ws ++ TPunct ";" :: rest /\ In s (spelled i) /\ Forall2 (g_arg E checks true) ws (args i).
Proof.
  intros H Hc. apply inst_exact in H. destruct H as [w [Ew Hw]]. destruct Hw as [x Hx|s' ws i Hs Hw].
  - cbn in Ew. injection Ew as -> ->. cbn in Hc. congruence.
  - cbn [app] in Ew. injection Ew as -> ->. exists ws. split; [rewrite <- app_assoc; reflexivity|]. auto.
Qed.
Lemma mnemonic_means s ts i rest : p_inst is_expr checks (TIdent s :: ts) = Some (i, rest) -> hd_error ts <> Some (TPunct ":") ->
  (s = "dq" /\ is_instr i = false /\ exists w, one_operand w /\ ts = w ++ TPunct ";" :: rest) \/
  exists e ws, In e entries /\ e_name e = s /\ ts = commas ws ++ TPunct ";" :: rest /\ Forall one_operand ws /\ length ws = e_arity e /\
    forall val rel x, denote val rel i = Some x -> In (i_mnem x) (e_ops e) /\ i_width x = e_width e /\ length (i_ops x) = e_arity e.
Proof.
  intros H Hc. destruct (inst_word _ _ _ _ H Hc) as [ws [-> [Hs Hw]]]. destruct (is_instr i) eqn:Ei.
  - right. destruct (spelled_entry i s Hs Ei) as [e [H1 [H2 [H3 H4]]]]. exists e, ws. repeat (split; [assumption || reflexivity|]).
    split; [|split; [rewrite H3; exact (forall2_len _ _ _ Hw)|exact H4]].
    clear -Hw. induction Hw; constructor; [eapply arg_one; eassumption|assumption].
  - left. destruct i; try discriminate Ei; cbn in Hs; [destruct Hs| |]; (destruct Hs as [<-|[]]; split; [reflexivity|]; split; [reflexivity|];
      inversion Hw as [|w a l l' H1 H2 E1 E2]; subst; inversion H2; subst; exists w; split; [eapply arg_one; exact H1|reflexivity]).
Qed.
Lemma mnemonic_unknown s ts : (forall e, In e entries -> e_name e <> s) -> s <> "dq" -> hd_error ts <> Some (TPunct ":") ->
  p_inst is_expr checks (TIdent s :: ts) = None.
Proof.
  intros H1 H2 Hc. destruct (p_inst is_expr checks (TIdent s :: ts)) as [[i rest]|] eqn:Ep; [|reflexivity].
  destruct (mnemonic_means _ _ _ _ Ep Hc) as [[-> _]|[e [ws [He [Hn _]]]]]; [congruence|]. destruct (H1 e He Hn).
Qed.

(** ** Documented syntax *)
Lemma offset_up ck q ix w d : g_offset E ck false ix w d -> g_offset E ck q ix w d.
Proof.
  intros H. destruct H; [apply go_plus|apply go_plus_label|apply go_minus_lit|apply go_minus_expr|discriminate|discriminate|discriminate]; assumption.
Qed.
Lemma mem_up q w a : g_mem E checks false w a -> g_mem E checks q w a.
Proof.
  intros [w' a' H]. constructor. destruct H; [apply ga_base|apply ga_disp|apply ga_index|apply ga_full]; try assumption; apply offset_up; assumption.
Qed.
Lemma arg_up q w a : g_arg E checks false w a -> g_arg E checks q w a.
Proof. destruct a as [r|[]|[]|[]|e|[]|[]|e|[]|x|v|b]; cbn; auto; apply mem_up. Qed.
Lemma stmt_up q w i : g_stmt E checks false w i -> g_stmt E checks q w i.
Proof.
  intros [x Hx|s ws i' Hs Hw]; [constructor; exact Hx|]. constructor; [exact Hs|]. clear Hs. induction Hw; constructor; [apply arg_up|]; assumption.
Qed.
Lemma roundtrip i w rest : g_stmt E checks false w i -> p_inst is_expr checks (w ++ rest) = Some (i, rest).
Proof. intros H. apply inst_exact. exists w. split; [reflexivity|]. apply stmt_up. exact H. Qed.
Lemma roundtrip_block is w : g_block E checks false w is -> p_stmts is_expr checks w = Some is.
Proof.
  intros H. apply stmts_exact. induction H; constructor; [apply stmt_up|]; assumption.
Qed.

(** The printer. *)
Lemma show_int_ok v : g_int (show_int v) v.
Proof. unfold show_int. destruct (v <? 0); [|constructor]. replace v with (- - v) at 2 by lia. constructor. Qed.
Lemma reg_text_ok n : 0 <= n <= 16 -> register_name (reg_text n) n.
Proof.
  intros H. apply reg_spec. assert (D : In n [0; 1; 2; 3; 4; 5; 6; 7; 8; 9; 10; 11; 12; 13; 14; 15; 16]) by (cbn; lia).
  cbn [In] in D. repeat (destruct D as [<-|D]; [reflexivity|]). destruct D.
Qed.
Lemma num_text_ok n : 0 <= n <= 15 -> decimal (num_text n) n.
Proof.
  intros H. apply decimal_spec. assert (D : In n [0; 1; 2; 3; 4; 5; 6; 7; 8; 9; 10; 11; 12; 13; 14; 15]) by (cbn; lia).
  cbn [In] in D. repeat (destruct D as [<-|D]; [split; [discriminate|reflexivity]|]). destruct D.
Qed.
Lemma show_reg_ok r : reg_ok E r -> g_register E (show_reg r) r.
Proof. destruct r as [n|[v|e]]; cbn; intros H; [constructor; apply reg_text_ok; exact H|destruct H|constructor; exact H]. Qed.
Lemma show_xmm_ok e : xmm_ok e -> g_xmm (show_xmm e) e.
Proof. destruct e as [n|g]; cbn [xmm_ok show_xmm]; intros H; [|constructor]. apply gx_name; [apply num_text_ok; exact H|lia]. Qed.
Lemma show_imm_ok e : g_imm (show_imm e) e.
Proof. destruct e; constructor. Qed.
Lemma show_disp_ok ix d :
  match d with PImm v => in_i32 v = true | PExpr _ (EToks e) => is_expr e = true | PExpr _ (ELit _) => False | PLabel x => label_name x /\ x <> "R" end ->
  g_offset E checks false ix (show_disp d) d.
Proof.
  destruct d as [v|n [v|e]|x]; cbn [show_disp]; intros H.
  - destruct ((v <? 0) && negb (v =? - 2 ^ 31)) eqn:L.
    + replace (PImm v) with (PImm (- - v)) by (f_equal; lia). apply go_minus_lit; [constructor| |]; unfold in_i32 in *; lia.
    + apply go_plus. constructor; [apply show_int_ok|exact H].
  - destruct H.
  - destruct n; [apply go_minus_expr; exact H|apply go_plus; constructor; exact H].
  - apply go_plus_label; [apply H|right; apply H].
Qed.
Lemma show_scale_ok k : 0 <= k <= 3 -> g_scale [TPunct "*"; TInt (2 ^ k)] k.
Proof. intros H. apply (gs_times [TInt (2 ^ k)]); [exact H|constructor]. Qed.
Lemma show_mem_ok a : mem_ok E a -> g_mem E checks false (show_mem a) a.
Proof.
  destruct a as [b sc d]. unfold mem_ok, show_mem. cbn [ia_base ia_scale ia_disp]. intros [Hb [Hs Hd]]. constructor.
  destruct sc as [|k r]; cbn [app].
  - apply ga_disp; [apply show_reg_ok; exact Hb|]. apply show_disp_ok. exact Hd.
  - rewrite <- app_assoc. apply ga_full; [apply show_reg_ok; exact Hb|apply show_reg_ok; apply Hs|apply show_scale_ok; apply Hs|apply show_disp_ok; exact Hd].
Qed.
Lemma show_arg_ok a : arg_ok E a -> g_arg E checks false (show_arg a) a.
Proof.
  destruct a as [r|[]|[]|[]|e|[]|[e [[]|]| | |]|e|[n|x|[v|g]|m]|x|v|b]; cbn [arg_ok g_arg show_arg];
    try (solve [apply show_reg_ok|apply show_mem_ok|apply show_xmm_ok|intros _; apply show_imm_ok]); try tauto.
  - intros _. eexists. split; [reflexivity|apply show_imm_ok].
  - intros H. eexists. split; [reflexivity|apply reg_text_ok; exact H].
  - intros _. eexists. split; reflexivity.
  - intros H. split; [apply show_int_ok|exact H].
  - intros _. destruct (b <? 2 ^ 63); [constructor|]. replace b with (b - 2 ^ 63 + 2 ^ 63) at 2 by lia. constructor.
Qed.
Lemma show_ok i : writable E i -> g_stmt E checks false (show i) i.
Proof.
  intros H. assert (D : (exists x, i = ILabel x) \/ (show i = TIdent (hd "" (spelled i)) :: commas (map show_arg (args i)) ++ [TPunct ";"] /\ spelled i <> [] /\ Forall (arg_ok E) (args i))).
  { destruct i; first [left; eexists; reflexivity|right; split; [reflexivity|exact H]]. }
  destruct D as [[x ->]|[-> [Hs Ha]]]; [constructor; exact H|]. constructor.
  - destruct (spelled i); [congruence|left; reflexivity].
  - induction Ha; constructor; [apply show_arg_ok|]; assumption.
Qed.
Lemma show_parse i rest : writable E i -> p_inst is_expr checks (show i ++ rest) = Some (i, rest).
Proof. intros H. apply roundtrip, show_ok, H. Qed.
Lemma show_parse_block is : Forall (writable E) is -> p_stmts is_expr checks (show_block is) = Some is.
Proof. intros H. apply roundtrip_block. induction H; cbn; constructor; [apply show_ok|]; assumption. Qed.

(** ** Condition codes *)
Definition chop (t : string) : string := String.substring 0 (String.length t - 1) t.
Lemma chop_snoc x a t : (x ++ String a "")%string = t -> x = chop t /\ last_char t = Some a.
Proof.
  intros <-. split; [|symmetry; symmetry; apply last_snoc]. unfold chop. rewrite length_snoc.
  replace (S (String.length x) - 1)%nat with (String.length x) by lia. symmetry. apply substring_snoc.
Qed.
Lemma family_code x s ts i rest : In s (family x) -> s <> "jmp" -> p_inst is_expr checks (TIdent s :: ts) = Some (i, rest) -> hd_error ts <> Some (TPunct ":") ->
  exists c, cc_code x = Some (cc_of c) /\
    ((exists l, i = IJcc c l) \/ (exists a, i = ISetcc c a) \/ (exists w a b, i = ICmovcc w c a b)).
Proof.
  intros Hf Hj H Hc. destruct (inst_word _ _ _ _ H Hc) as [ws [_ [Hs _]]]. clear H Hc.
  unfold family in Hf. cbn [In append] in Hf.
  destruct i; try destruct sz; try (match goal with c : cond |- _ => destruct c end); names_of; try congruence;
    (destruct Hf as [Hf|[Hf|[Hf|[Hf|[Hf|[]]]]]]; try discriminate Hf;
     first [injection Hf as Hf; apply chop_snoc in Hf; destruct Hf as [Hf Hl]; vm_compute in Hl; vm_compute in Hf; try discriminate Hl; subst x
           |injection Hf as ->];
     (eexists; (split; cycle 1; [solve [eauto 8]|reflexivity]))).
Qed.
Lemma family_denote x s ts i rest : In s (family x) -> s <> "jmp" -> p_inst is_expr checks (TIdent s :: ts) = Some (i, rest) -> hd_error ts <> Some (TPunct ":") ->
  exists cc, cc_code x = Some cc /\ forall val rel m, denote val rel i = Some m -> condition (i_mnem m) = Some cc.
Proof.
  intros Hf Hj H Hc. destruct (family_code _ _ _ _ _ Hf Hj H Hc) as [c [Hx D]]. exists (cc_of c). split; [exact Hx|].
  intros val rel m Hm. destruct D as [[l ->]|[[a ->]|[w [a [b ->]]]]]; cbn [denote] in Hm.
  - injection Hm as <-. reflexivity.
  - destruct (op_one _ _ _ _ Hm) as [-> _]. reflexivity.
  - destruct (op_two _ _ _ _ _ Hm) as [-> _]. reflexivity.
Qed.
Lemma cc_cases x : cc_code x <> None -> In x (map fst (intel_cc ++ readme_cc)).
Proof.
  unfold cc_code. generalize (intel_cc ++ readme_cc). intros l. induction l as [|[k v] l IH]; cbn; [congruence|].
  destruct (String.eqb x k) eqn:Ek; [apply String.eqb_eq in Ek; auto|auto].
Qed.
Lemma set_accepts x : (exists i, p_inst is_expr checks [TIdent ("set" ++ x); TIdent "rax"; TPunct ";"] = Some (i, [])) <-> cc_code x <> None /\ x <> "nb".
Proof.
  split.
  - intros [i H]. split; [|intros ->; discriminate H]. destruct (family_code x ("set" ++ x)%string _ _ _ (or_intror (or_introl eq_refl)) ltac:(discriminate) H ltac:(discriminate)) as [c [-> _]]. discriminate.
  - intros [H1 H2]. apply cc_cases in H1. cbn in H1. repeat (destruct H1 as [<-|H1]; [try congruence; eexists; reflexivity|]). destruct H1.
Qed.
Lemma cmov_accepts x : (exists i, p_inst is_expr checks [TIdent ("cmov" ++ x ++ "q"); TIdent "rax"; TPunct ","; TIdent "rdx"; TPunct ";"] = Some (i, [])) <-> cc_code x <> None /\ x <> "nb".
Proof.
  split.
  - intros [i H]. split; [|intros ->; discriminate H].
    destruct (family_code x ("cmov" ++ x ++ "q")%string _ _ _ (or_intror (or_intror (or_introl eq_refl))) ltac:(discriminate) H ltac:(discriminate)) as [c [-> _]]. discriminate.
  - intros [H1 H2]. apply cc_cases in H1. cbn in H1. repeat (destruct H1 as [<-|H1]; [try congruence; eexists; reflexivity|]). destruct H1.
Qed.
Lemma j_accepts x : x <> "mp" ->
  ((exists i, p_inst is_expr checks [TIdent ("j" ++ x); TIdent "l"; TPunct ";"] = Some (i, [])) <-> cc_code x <> None /\ ~ In x ["nb"; "l"; "g"]).
Proof.
  intros Hj. split.
  - intros [i H]. split; [|intros K; cbn in K; repeat (destruct K as [<-|K]; [discriminate H|]); destruct K].
    destruct (family_code x ("j" ++ x)%string _ _ _ (or_introl eq_refl) ltac:(cbn; congruence) H ltac:(discriminate)) as [c [-> _]]. discriminate.
  - intros [H1 H2]. apply cc_cases in H1. cbn in H1. repeat (destruct H1 as [<-|H1]; [try (exfalso; apply H2; cbn; tauto); eexists; reflexivity|]). destruct H1.
Qed.

(** ** Minus signs *)
Lemma minus_base wb b wd d rest : g_register E wb b -> g_disp E wd d -> d <> PImm (- 2 ^ 31) ->
  exists a, p_ind is_expr checks (TGroup Bracket (wb ++ TPunct "-" :: wd) :: rest) = Some (a, rest) /\ ia_base a = b /\ ia_scale a = PScaleNone /\
    forall val rel, disp_value val rel (ia_disp a) = - disp_value val rel d.
Proof.
  intros Hb Hd Hm. destruct Hd as [w v Hv Hi|e He].
  - exists (mkInd b PScaleNone (PImm (- v))). split; [|repeat split].
    apply (mem_complete is_expr checks [_]). constructor. apply ga_disp; [exact Hb|]. apply go_minus_lit; [exact Hv|exact Hi|]. apply in_i32_neg; [exact Hi|congruence].
  - exists (mkInd b PScaleNone (PExpr true (EToks e))). split; [|repeat split].
    apply (mem_complete is_expr checks [_]). constructor. apply ga_disp; [exact Hb|]. apply go_minus_expr. exact He.
Qed.
Lemma minus_index wb b wi r ws k wd d rest : g_register E wb b -> g_register E wi r -> g_scale ws k -> g_disp E wd d -> d <> PImm (- 2 ^ 31) ->
  exists a, p_ind is_expr checks (TGroup Bracket (wb ++ TPunct "+" :: wi ++ ws ++ TPunct "-" :: wd) :: rest) = Some (a, rest) /\ ia_base a = b /\ ia_scale a = PS1 k r /\
    forall val rel, disp_value val rel (ia_disp a) = - disp_value val rel d.
Proof.
  intros Hb Hi Hs Hd Hm. destruct Hd as [w v Hv Hv'|e He].
  - exists (mkInd b (PS1 k r) (PImm (- v))). split; [|repeat split].
    apply (mem_complete is_expr checks [_]). constructor. apply ga_full; try assumption. apply go_minus_lit; [exact Hv|exact Hv'|]. apply in_i32_neg; [exact Hv'|congruence].
  - exists (mkInd b (PS1 k r) (PExpr true (EToks e))). split; [|repeat split].
    apply (mem_complete is_expr checks [_]). constructor. apply ga_full; try assumption. apply go_minus_expr. exact He.
Qed.
End Facts.

(** [rip - data], [rax - rcx], [rax - -2147483648] *)
Definition no_expr (_ : list tok) : bool := false.
Lemma minus_label : exists is_expr checks a rel, p_ind is_expr checks [TGroup Bracket [TIdent "rip"; TPunct "-"; TIdent "data"]] = Some (a, []) /\
  forall val, disp_value val rel (ia_disp a) = disp_value val rel (PLabel "data") /\ disp_value val rel (PLabel "data") <> - disp_value val rel (PLabel "data").
Proof. exists no_expr, true, (mkInd (RReg 16) PScaleNone (PLabel "data")), (fun _ => 1). split; [vm_compute; reflexivity|]. intros val. split; [reflexivity|discriminate]. Qed.
Lemma minus_register : exists is_expr checks a, p_ind is_expr checks [TGroup Bracket [TIdent "rax"; TPunct "-"; TIdent "rcx"]] = Some (a, []) /\ ia_disp a = PLabel "rcx".
Proof. exists no_expr, true. eexists. split; [vm_compute; reflexivity|reflexivity]. Qed.
Lemma minus_min : exists is_expr a, p_ind is_expr false [TGroup Bracket [TIdent "rax"; TPunct "-"; TPunct "-"; TInt 2147483648]] = Some (a, []) /\
  forall val rel, disp_value val rel (ia_disp a) = - 2 ^ 31.
Proof. exists no_expr. eexists. split; [vm_compute; reflexivity|]. reflexivity. Qed.

(** Concrete statements. *)
Definition any_expr (_ : list tok) : bool := true.
Definition t_rax := [TIdent "rax"].
Definition t_mem := [TGroup Bracket [TIdent "rbp"; TPunct "+"; TIdent "R"; TGroup Paren [TIdent "i"]; TPunct "*"; TInt 8; TPunct "-"; TGroup Paren [TIdent "x_ofs"]]].
Definition candidates : list (list (list tok)) :=
  [[]; [t_rax]; [[TIdent "l"]]; [t_rax; t_mem]; [[TIdent "xmm3"]; [TIdent "xmm"; TGroup Paren [TIdent "f"]]]; [[TIdent "xmm3"]; [TIdent "xmm15"]; [TInt 3]];
   [t_rax; [TInt 5]]; [t_rax; [TIdent "xmm2"]]; [t_rax; [TIdent "CL"]]; [[TIdent "xmm3"]; t_mem]].
Definition accepted_with (s : string) (ws : list (list tok)) : bool :=
  match p_inst any_expr true (TIdent s :: commas ws ++ [TPunct ";"]) with Some (_, []) => true | _ => false end.
Definition not_accepted : list string := ["jnb"; "setnb"; "cmovnbq"; "cmovnbl"; "cmovnbw"; "jl"; "jg"].
Lemma all_accepted : Forall (fun e => In (e_name e) not_accepted \/ existsb (accepted_with (e_name e)) candidates = true) entries.
Proof.
  apply Forall_forall. intros e He.
  assert (H : forallb (fun e => existsb (String.eqb (e_name e)) not_accepted || existsb (accepted_with (e_name e)) candidates) entries = true) by (vm_compute; reflexivity).
  rewrite forallb_forall in H. specialize (H e He). apply orb_true_iff in H. destruct H as [H|H]; [left|right; exact H].
  apply existsb_exists in H. destruct H as [x [Hx Ex]]. apply String.eqb_eq in Ex. rewrite Ex. exact Hx.
Qed.
(** movq [rbp + R(i)*8 - (x_ofs)], qword 7;  l:  setne R8;  dq -1; *)
Definition t_block : list tok :=
  TIdent "movq" :: t_mem ++ [TPunct ","; TIdent "qword"; TInt 7; TPunct ";"] ++ [TIdent "l"; TPunct ":"] ++
  [TIdent "setne"; TIdent "R8"; TPunct ";"] ++ [TIdent "dq"; TPunct "-"; TInt 1; TPunct ";"].
Definition i_block : list inst :=
  [IMovq (MovInd (mkInd (RReg 5) (PS1 3 (RExpr (EToks [TIdent "i"]))) (PExpr true (EToks [TIdent "x_ofs"])))) (MovImm (ELit 7) (Some QWORD));
   ILabel "l"; ISetcc CNe (RmReg (RReg 8)); II64 (-1)].
Lemma t_block_parse : p_stmts any_expr true t_block = Some i_block.
Proof. vm_compute. reflexivity. Qed.
Lemma t_block_written : g_block (fun ts => any_expr ts = true) true false t_block i_block.
Proof.
  assert (R8 : register_name "R8" 8) by (apply reg_spec; reflexivity).
  assert (RBP : register_name "rbp" 5) by (apply reg_spec; reflexivity).
  assert (N : name "l") by (apply is_ident_spec; reflexivity).
  unfold t_block, i_block.
  refine (g_next _ _ _ (TIdent "movq" :: commas [t_mem; [TIdent "qword"; TInt 7]] ++ [TPunct ";"]) _ _ _ _ _).
  { apply g_instr; [left; reflexivity|]. constructor; [|constructor; [|constructor]].
    - cbn. constructor.
      refine (ga_full _ _ _ [TIdent "rbp"] _ [TIdent "R"; TGroup Paren [TIdent "i"]] _ [TPunct "*"; TInt 8] _ [TPunct "-"; TGroup Paren [TIdent "x_ofs"]] _ _ _ _ _);
        [constructor; exact RBP|constructor; reflexivity|apply (gs_times [TInt 8] 3); [lia|constructor]|apply go_minus_expr; reflexivity].
    - cbn. eexists. split; [reflexivity|constructor]. }
  refine (g_next _ _ _ [TIdent "l"; TPunct ":"] _ _ _ _ _); [apply g_label; exact N|].
  refine (g_next _ _ _ (TIdent "setne" :: commas [[TIdent "R8"]] ++ [TPunct ";"]) _ _ _ _ _).
  { apply g_instr; [left; reflexivity|]. constructor; [|constructor]. cbn. constructor. exact R8. }
  refine (g_next _ _ _ (TIdent "dq" :: commas [[TPunct "-"; TInt 1]] ++ [TPunct ";"]) _ [] _ _ _); [|constructor].
  apply g_instr; [left; reflexivity|]. constructor; [|constructor]. split; [constructor|lia].
Qed.
(** subl [r13 + r12*4 - 8], (n);  and its spelling with other letter case and scale *)
Lemma writable_case : Forall (writable (fun ts => any_expr ts = true))
  [ISub DWORD (RmInd (mkInd (RReg 13) (PS1 2 (RReg 12)) (PImm (-8)))) (RmiImm (EToks [TIdent "n"])); IJcc CLt "loop0"; IRoundpd (ELit 3) (XmXmm (EToks [TInt 4])) (ELit 1);
   ICall (DestRel "f"); ILea (RmReg (RReg 0)) (RmInd (mkInd (RReg 16) PScaleNone (PLabel "data")))].
Proof.
  assert (L : forall x, is_ident x = true -> reg_from_str x = None -> label_name x) by (intros x H K; split; [apply is_ident_spec; exact H|apply reg_none; exact K]).
  repeat match goal with |- Forall _ (_ :: _) => apply Forall_cons | |- Forall _ [] => apply Forall_nil | |- Forall _ (args _) => cbn [args] | |- writable _ _ => split; [discriminate|] end;
    unfold arg_ok, mem_ok, reg_ok, xmm_ok; cbn [ia_base ia_scale ia_disp]; try lia; try reflexivity; try exact Logic.I; try (apply is_ident_spec; reflexivity); try (apply L; reflexivity).
  - split; [lia|split; [split; lia|reflexivity]].
  - split; [lia|split; [exact Logic.I|split; [apply L; reflexivity|discriminate]]].
Qed.
