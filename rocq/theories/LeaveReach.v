(** The assembler after a block that is left is in a state reached by calls. *)
From Verif Require Import Base ModelMem ModelEnc ModelSyntax ModelMacro ModelEff ModelLeave SpecX86 SpecAsm SpecState SpecHist MemRun ProgBlock SpecLeave LeaveFacts LeaveBlock.
Local Notation length := List.length.
Local Open Scope list_scope.
Local Open Scope Z_scope.

Definition plain_call (c : gcall) : Prop := match c with GSaveReloc _ _ => False | _ => True end.
Fixpoint plain (g : ecode) : Prop :=
  match g with ENil | EPanic => True | EDo c k => plain_call c /\ plain k | EImm _ k => plain k | EEval _ k => forall v, plain (k v) | EIf _ t e k => plain t /\ plain e /\ plain k end.
Section Run.
Variable W : Type.
Variable ev : list tok -> env -> W -> option Z * W.
Variable lenv : string -> label.
Notation run := (l_exec W ev lenv).
(** States reached, but for a panic because the page is full. *)
Definition ends_reached (x : lres W) : Prop :=
  match x with LOk _ _ _ s | LLeft _ _ s => reached s | LFail _ e _ s => e <> PageOverflow -> reached s end.
Lemma call_reached r c s : plain_call c -> reached s -> match run_call none lenv r c s with Ok _ s1 => reached s1 | Panic e s1 => e <> PageOverflow -> reached s1 end.
Proof.
  intros P R. assert (E : step (OEnc none lenv r c) s = nolabel (run_call none lenv r c) s) by (destruct c; try reflexivity; elim P).
  unfold nolabel, bind in E. destruct (run_call none lenv r c s) as [u s1|e s1].
  - apply (reached_api (OEnc none lenv r c) s s1 R eq_refl). unfold after. rewrite E. reflexivity.
  - intro N. apply (reached_api (OEnc none lenv r c) s s1 R eq_refl). unfold after. rewrite E. destruct e; try reflexivity. congruence.
Qed.
Lemma code_reached : forall g, plain g -> forall r w s, reached s -> ends_reached (run r g w s).
Proof.
  induction g as [| |c k IH|e k IH|v k IH|c t IHt e IHe k IHk]; intros P r w s R; cbn [l_exec plain] in *; try (cbn; auto; fail).
  - destruct P as [Pc Pk]. pose proof (call_reached r c s Pc R). destruct (run_call none lenv r c s); [apply IH; auto|exact H].
  - destruct (l_eval W ev r e w) as [[v|] w1]; [apply IH; auto|exact R].
  - destruct P as (Pt & Pe & Pk). destruct (run_cond none r c) as [b r']. specialize (IHt Pt r' w s R). specialize (IHe Pe r w s R).
    destruct b; [destruct (run r' t w s)|destruct (run r e w s)]; cbn in *; auto.
Qed.
Lemma plain_reg g k : (forall x, plain (k x)) -> plain (e_reg g k). Proof. intro H. destruct g; cbn; auto. Qed.
Lemma plain_rm x k : (forall x, plain (k x)) -> plain (e_rm x k).
Proof.
  intro H. destruct x as [g|[b sc d]]; unfold e_rm; [cbn; auto|]. apply plain_reg. intro b'. cbn [ia_disp ia_scale].
  assert (S : forall d', plain (e_scale sc (fun sc => k (GRmInd (mkInd b' sc d'))))) by (intro d'; destruct sc; cbn [e_scale]; [auto|apply plain_reg; auto]).
  destruct d; cbn [e_disp]; [apply S|intro v; apply S|apply S].
Qed.
Lemma plain_e_call c k : plain_call c -> plain k -> plain (e_call c k).
Proof.
  intros P Q. destruct c; unfold e_call; cbv zeta; try (split; assumption); try (elim P);
    try (apply plain_rm; intro; split; [exact Logic.I|exact Q]); try (intro v; cbn [plain]; try (apply plain_rm; intro); split; [exact Logic.I|exact Q]).
Qed.
Fixpoint g_plain (g : gcode) : Prop :=
  match g with GNil | GPanic => True | GDo c k => plain_call c /\ g_plain k | GLetImm _ k => g_plain k | GIf _ t e k => g_plain t /\ g_plain e /\ g_plain k end.
Lemma plain_code m : forall g, g_plain g -> plain (e_code m g).
Proof.
  induction g; cbn [g_plain e_code]; intro P; try (cbn; auto; fail).
  - destruct P. apply plain_e_call; auto.
  - destruct P as (P1 & P2 & P3). destruct c; cbn [e_cond]; try intro v; cbn; auto.
  - destruct m; cbn; auto.
Qed.
Definition direct_call (i : inst) : Prop := match i with ICall (DestRel _) => True | _ => False end.
Lemma compile_plain i g : e_compile i = Some g -> direct_call i \/ plain g.
Proof.
  intro H. destruct i; ops; cbn [e_compile message compile option_map movq movl movw movb binary_op binary_opq binary_opl binary_opw binary_opb shift_op divide_op push_pop count_op xchg testq testb binary_sd_op grm_of_rmi] in H;
    try (destruct (float_ok bits); cbn [option_map] in H); try discriminate H; injection H as <-; first [left; exact Logic.I|right].
  all: repeat first [exact Logic.I | apply plain_e_call | progress cbn [e_code e_panic e_cond g1 g2] | match goal with |- plain (e_code _ _) => fail 1 | |- _ /\ _ => split | |- forall _, _ => intro | |- plain (EEval _ _) => intro | |- plain _ => progress cbn [plain] end].
Qed.
Lemma statement_reached i g r w s : e_compile i = Some g -> reached s -> ends_reached (run r g w s).
Proof.
  intros Hc R. destruct (compile_plain i g Hc) as [D|P]; [|apply code_reached; assumption].
  destruct i; try (elim D; fail). destruct d; try (elim D; fail). injection Hc as <-.
  match goal with |- ends_reached (run r _ w s) => set (x := run r _ w s) end.
  assert (E : step (OAsm none lenv r [ICall (DestRel ident)]) s = match x with LOk _ _ _ s1 | LLeft _ _ s1 => Ok None s1 | LFail _ e _ s1 => Panic e s1 end).
  { subst x. cbn [step compile_all compile exec_all exec g2 g1 e_code]. unfold e_call. cbn [l_exec]. unfold bind. cbn [run_call].
    destruct (emitb 0xe8 s) as [[] s1|]; [|reflexivity]. destruct (save_reloc (lenv ident) 4 s1) as [[] s2|]; [|reflexivity].
    destruct (emitl 0 s2) as [[] s3|]; reflexivity. }
  clearbody x. unfold ends_reached. destruct x as [r1 w1 s1|e w1 s1|w1 s1]; [| |];
    try (intro N); apply (reached_api (OAsm none lenv r [ICall (DestRel ident)]) s s1 R eq_refl); unfold after; rewrite E; try reflexivity.
  destruct e; try reflexivity; congruence.
Qed.
Theorem block_reached : forall body r w s, reached s -> e_compile_all body <> None -> ends_reached (l_block W ev lenv r body w s).
Proof.
  unfold l_block. induction body as [|i body IH]; intros r w s R N; cbn [e_compile_all] in *; [exact R|].
  destruct (e_compile i) as [g|] eqn:Eg; [|congruence]. destruct (e_compile_all body) as [gs|]; [|congruence].
  cbn [l_exec_all]. pose proof (statement_reached i g r w s Eg R) as S. destruct (run r g w s) as [r1 w1 s1|e w1 s1|w1 s1]; [|exact S|exact S].
  apply IH; [exact S|discriminate].
Qed.
End Run.
