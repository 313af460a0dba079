(** Lemmas behind C75: what the Display implementations print is read back. *)
From Coq Require Import Lia ZifyBool.
From Verif Require Import Base ModelSyntax ModelParse ModelMacro SpecX86 SpecAsm EncDec Fidelity ModelShow SpecShow.
Local Open Scope string_scope.
Local Open Scope list_scope.
Local Open Scope Z_scope.

Section Back.
Variables (is_expr : list tok -> bool) (checks : bool) (ev : list tok -> Z) (rel : string -> Z).
Notation val := (value ev).
Hypothesis R : rust is_expr ev.

Lemma int_has v : has is_expr ev (d_int v) v.
Proof.
  unfold d_int. destruct (v <? 0) eqn:E; [|apply (r_int _ _ R); lia].
  replace v with (- - v) at 2 by lia. apply (r_neg _ _ R). lia.
Qed.
(** A register. *)
Lemma reg_back r rest : reg_read is_expr r ->
  exists ts, display_reg r ++ rest = TIdent "R" :: TGroup Paren ts :: rest /\ is_expr ts = true /\ ev ts = reg_no val r.
Proof.
  destruct r as [n|[v|ts]]; cbn [reg_read display_reg reg_no value app d_toks]; intros H; [|destruct H|].
  - exists (d_int n). destruct (int_has n) as [A B]. auto.
  - exists ts. auto.
Qed.
Lemma p_register_R ts rest : is_expr ts = true -> p_register is_expr (TIdent "R" :: TGroup Paren ts :: rest) = Some (RExpr (EToks ts), rest).
Proof. intros H. unfold p_register, parse_register, p_paren_expr. cbn. rewrite H. reflexivity. Qed.
Lemma parse_register_R ts rest : is_expr ts = true -> parse_register is_expr "R" (TGroup Paren ts :: rest) = Some (RExpr (EToks ts), rest).
Proof. intros H. unfold parse_register, p_paren_expr. cbn. rewrite H. reflexivity. Qed.
Lemma d_reg_back w r ts x : ev ts = reg_no val r -> d_reg val w r = Some x -> d_reg val w (RExpr (EToks ts)) = Some x.
Proof. unfold d_reg. cbn [reg_no value]. intros ->. auto. Qed.
(** A displacement. *)
Lemma disp_back d z : match d with PImm _ => True | PExpr _ e => tight is_expr ev e | PLabel _ => False end -> d_disp val rel d = Some z ->
  has is_expr ev (display_disp d) z.
Proof.
  destruct d as [v|n e|x]; cbn [d_disp display_disp]; [| |tauto].
  - intros _. destruct (in_i32 v); cbn; [|discriminate]. intros E. injection E as <-. apply int_has.
  - destruct e as [v|ts]; cbn [tight]; [tauto|]. intros [K H]. unfold as_i32. cbn [value d_toks].
    destruct n; cbn [guard obind].
    + destruct (in_i32 (- ev ts)) eqn:I; cbn; [|discriminate]. intros E. injection E as <-.
      assert (Q : - ev ts = i32 (- i32 (ev ts))) by (rewrite (i32_neg (fun ts _ => ev ts) (fun _ => 0)); symmetry; apply i32_id; exact I). rewrite Q. apply (r_minus _ _ R). exact H.
    + destruct (in_i32 (ev ts)) eqn:I; cbn; [|discriminate]. intros E. injection E as <-. rewrite <- (i32_id _ I) at 1. exact H.
Qed.
(** A memory operand. *)
Lemma ind_back a x rest : simple is_expr ev a -> d_mem val rel a = Some x ->
  exists g a', display_ind a ++ rest = TGroup Bracket g :: rest /\ p_ind is_expr checks (TGroup Bracket g :: rest) = Some (a', rest) /\ d_mem val rel a' = Some x.
Proof.
  intros (B & S & D) M. destruct a as [b s d]; cbn [ia_base ia_scale ia_disp] in *. subst s.
  unfold d_mem in M. cbn [ia_base ia_scale ia_disp] in M. destruct (d_disp val rel d) as [z|] eqn:E; [|discriminate M]. cbn [obind] in M.
  destruct (disp_back d z D E) as [X V].
  assert (I : in_i32 z = true).
  { destruct d as [v|n e|y]; cbn [d_disp] in E; [| |destruct D].
    - destruct (in_i32 v) eqn:I; cbn in E; [injection E as <-; exact I|discriminate].
    - destruct (in_i32 (if n then - val e else val e)) eqn:I; cbn in E; [injection E as <-; exact I|discriminate]. }
  destruct (reg_back b [TPunct "+"; TGroup Paren (display_disp d)] B) as (ts & T & P & N).
  exists (display_reg b ++ [TPunct "+"; TGroup Paren (display_disp d)]), (mkInd (RExpr (EToks ts)) PScaleNone (PExpr false (EToks (display_disp d)))).
  split; [reflexivity|]. split.
  - unfold p_ind. rewrite T. unfold p_ind_body. rewrite (p_register_R _ _ P).
    cbn -[display_disp]. unfold p_disp, p_paren_expr. cbn -[display_disp]. rewrite X. reflexivity.
  - unfold d_mem. cbn [ia_base ia_scale ia_disp d_disp value reg_no]. rewrite V, I. cbn [guard obind]. rewrite N. exact M.
Qed.

Lemma rm_shown w o : rm_simple is_expr ev o -> shows (p_rm is_expr checks) (d_rm val rel w) (fun _ => True) (display_rm o) o.
Proof.
  intros H x rest M _. destruct o as [r|a]; cbn [rm_simple display_rm d_rm] in *.
  - destruct (reg_back r rest H) as (ts & -> & P & N). exists (RmReg (RExpr (EToks ts))). split; [|exact (d_reg_back w r ts x N M)].
    unfold p_rm. change (peek_ident _) with true. cbn iota. rewrite (p_register_R _ _ P). reflexivity.
  - destruct (ind_back a x rest H M) as (g & a' & -> & P & N). exists (RmInd a'). split; [|exact N].
    unfold p_rm. change (peek_ident _) with false. change (peek_bracket _) with true. cbn iota. rewrite P. reflexivity.
Qed.
Lemma single_lit v rest : ended rest -> peek_lit (TInt v :: rest) && is_single (TInt v :: rest) = true.
Proof. intros (r & [-> | ->]); reflexivity. Qed.
Lemma lit_text e rest : literal e -> ended rest ->
  exists v, e = ELit v /\ d_toks e ++ rest = TInt v :: rest /\ peek_lit (TInt v :: rest) && is_single (TInt v :: rest) = true.
Proof.
  destruct e as [v|ts]; cbn [literal]; [|tauto]. intros H E. exists v. split; [reflexivity|]. split; [|exact (single_lit v rest E)].
  cbn [d_toks]. unfold d_int. destruct (v <? 0) eqn:L; [lia|]. reflexivity.
Qed.
Lemma rmi_shown w o : rmi_simple is_expr ev o -> shows (p_rmi is_expr checks) (d_rmi val rel w) ended (display_rmi o) o.
Proof.
  intros H x rest M E. destruct o as [e|r|a]; cbn [rmi_simple display_rmi d_rmi] in *.
  - destruct (lit_text e rest H E) as (v & -> & -> & S). exists (RmiImm (ELit v)). split; [|exact M].
    unfold p_rmi. change (peek_ident _) with false. cbn iota. rewrite S. reflexivity.
  - destruct (reg_back r rest H) as (ts & -> & P & N). exists (RmiReg (RExpr (EToks ts))). split; [|exact (d_reg_back w r ts x N M)].
    unfold p_rmi. change (peek_ident _) with true. cbn iota. change (p_ident (TIdent "R" :: TGroup Paren ts :: rest)) with (Some ("R", TGroup Paren ts :: rest)).
    cbn iota beta. rewrite (parse_register_R _ _ P). reflexivity.
  - destruct (ind_back a x rest H M) as (g & a' & -> & P & N). exists (RmiInd a'). split; [|exact N].
    unfold p_rmi. change (peek_ident _) with false. change (peek_lit _) with false. change (peek_bracket _) with true. cbn iota. cbn [andb]. rewrite P. reflexivity.
Qed.
Lemma ri_shown w o : ri_simple is_expr o -> shows (p_ri is_expr) (d_ri val w) ended (display_ri o) o.
Proof.
  intros H x rest M E. destruct o as [e|r]; cbn [ri_simple display_ri d_ri] in *.
  - destruct (lit_text e rest H E) as (v & -> & -> & S). exists (RiImm (ELit v)). split; [|exact M].
    unfold p_ri. change (peek_ident _) with false. cbn iota. rewrite S. reflexivity.
  - destruct (reg_back r rest H) as (ts & -> & P & N). exists (RiReg (RExpr (EToks ts))). split; [|exact (d_reg_back w r ts x N M)].
    unfold p_ri. change (peek_ident _) with true. cbn iota. rewrite (p_register_R _ _ P). reflexivity.
Qed.
Lemma xmm_text e x rest : d_xmm val e = Some x ->
  exists ts, display_xmm e ++ rest = TIdent "xmm" :: TGroup Paren ts :: rest /\ d_xmm val (EToks ts) = Some x.
Proof.
  intros M. unfold display_xmm. exists (d_xmm_toks e). split; [reflexivity|].
  destruct e as [n|ts]; cbn [d_xmm_toks]; [|exact M]. unfold d_xmm in *. cbn [value] in *.
  destruct (is_gpr n) eqn:G; [|discriminate M]. assert (Q : 0 <= n <= 15) by (unfold is_gpr in G; lia).
  destruct (r_u64 _ _ R n Q) as [_ V]. unfold d_int. destruct (n <? 0) eqn:L; [lia|]. cbn [app]. rewrite V, G. exact M.
Qed.
Lemma xm_shown o : xm_simple is_expr ev o -> shows (p_xm is_expr checks) (d_xm val rel) (fun _ => True) (display_xm o) o.
Proof.
  intros H x rest M _. destruct o as [e|a]; cbn [xm_simple display_xm d_xm] in *.
  - destruct (xmm_text e x rest M) as (ts & -> & V). exists (XmXmm (EToks ts)). split; [reflexivity|exact V].
  - destruct (ind_back a x rest H M) as (g & a' & -> & P & N). exists (XmInd a'). split; [|exact N].
    unfold p_xm. change (peek_ident _) with false. change (peek_bracket _) with true. cbn iota. rewrite P. reflexivity.
Qed.
Lemma mov_shown o : mov_simple is_expr ev o -> shows (p_mov is_expr checks) (d_mov val rel) ended (display_mov o) o.
Proof.
  intros H x rest M E. destruct o as [e s|r|e|a]; cbn [mov_simple display_mov d_mov] in *.
  - destruct H as [H ->]. destruct (lit_text e rest H E) as (v & -> & -> & S). exists (MovImm (ELit v) None). split; [|exact M].
    unfold p_mov. change (peek_ident _) with false. cbn iota. rewrite S. reflexivity.
  - destruct (reg_back r rest H) as (ts & -> & P & N). exists (MovReg (RExpr (EToks ts))). split; [|exact (d_reg_back W64 r ts x N M)].
    unfold p_mov. change (peek_ident _) with true. cbn iota. change (p_ident (TIdent "R" :: TGroup Paren ts :: rest)) with (Some ("R", TGroup Paren ts :: rest)).
    cbn iota beta. change (String.eqb "R" "qword") with false. change (starts_with "xmm" "R") with false. cbn iota. rewrite (parse_register_R _ _ P). reflexivity.
  - destruct (xmm_text e x rest M) as (ts & -> & V). exists (MovXmm (EToks ts)). split; [reflexivity|exact V].
  - destruct (ind_back a x rest H M) as (g & a' & -> & P & N). exists (MovInd a'). split; [|exact N].
    unfold p_mov. change (peek_ident _) with false. change (peek_lit _) with false. change (peek_bracket _) with true. cbn iota. cbn [andb]. rewrite P. reflexivity.
Qed.
End Back.
