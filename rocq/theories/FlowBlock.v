(** Blocks whose expressions use the assembler and may leave: statement by statement. *)
From Verif Require Import Base ModelMem ModelEnc ModelSyntax ModelMacro ModelEff ModelLeave ModelUse ModelFlow SpecX86 SpecAsm SpecState SpecHist SpecProg SpecScope ScopeFacts ScopeBlock SpecEff EffFacts SpecLeave LeaveReach SpecFlow FlowStmt.
Local Notation length := List.length.
Local Open Scope list_scope.
Local Open Scope Z_scope.

Section Block.
Variable W : Type.
Variable ev : list tok -> env -> W * jit -> option Z * (W * jit).
Variable lenv : string -> label.
Lemma flow_step r i g x ev' q : evaluated_once i -> prefix_of i = None -> e_compile i = Some g ->
  match refusal W ev r i x with Some z => ended (f_exec W ev lenv r g x) = z | None =>
  let '((i', r1), y) := v_inst _ (until_left W ev) r i (inl x) in
  match y with
  | inr x1 => f_exec W ev lenv r g x = LLeft W (fst x1) (snd x1)
  | inl (w1, s1) => match f_exec W ev lenv r g x with
      | LOk _ r2 w2 s2 => step (OAsm ev' lenv q [i']) s1 = Ok None s2 /\ r2 = r1 /\ w2 = w1
      | LFail _ e _ _ => exists s2, step (OAsm ev' lenv q [i']) s1 = Panic e s2
      | LLeft _ _ _ => False
      end
  end end.
Proof.
  intros O N C. pose proof (flow_statement W ev lenv r i O N g x C) as A.
  destruct (refusal W ev r i x); [exact A|].
  pose proof (v_frozen _ (until_left W ev) none [i] r (inl x) r) as Z. cbn [v_body] in Z. unfold andthen, into, yields, andthen in Z.
  destruct (v_inst _ (until_left W ev) r i (inl x)) as [[i' r1] [[w1 s1]|x1]]; cbn [fst snd agrees run] in *; [|exact A].
  destruct A as (g' & C' & A). pose proof (block_frozen none ev' lenv r q [i'] s1) as B. rewrite Z in B. rewrite <- B.
  cbn [step compile_all]. rewrite C'. cbn [exec_all]. unfold bind.
  destruct (f_exec W ev lenv r g x) as [r2 w2 s2|e w2 s2|w2 s2]; [| |exact A].
  - destruct A as (-> & -> & ->). auto.
  - destruct A as [s3 ->]. eauto.
Qed.
Lemma refusal_ends r i x z : refusal W ev r i x = Some z -> match z with Through _ => False | _ => True end.
Proof.
  unfold refusal, panics. destruct (checked i) as [[e ok]|]; [|discriminate]. destruct (value _ _ r e (inl x)) as [v [x1|x1]]; [|discriminate].
  destruct (ok v); [discriminate|]. intros [= <-]. destruct (shown _ _ _) as [[r2 e2]|]; [|exact I]. destruct (value _ _ r2 e2 _) as [v2 [x2|x2]]; exact I.
Qed.
Theorem block_flow : forall body r w s ev' q, Forall (fun i => evaluated_once i /\ prefix_of i = None) body -> e_compile_all body <> None ->
  ended (f_block W ev lenv r body w s) = values_flow W ev lenv ev' q r body (w, s).
Proof.
  intros body r w s ev' q F N. unfold f_block. destruct (e_compile_all body) as [gs|] eqn:Es; [|congruence]. clear N.
  revert gs Es r w s F. induction body as [|i body IH]; intros gs Es r w s F; cbn [e_compile_all] in Es; [injection Es as <-; reflexivity|].
  destruct (e_compile i) as [g|] eqn:Eg; [|discriminate]. destruct (e_compile_all body) as [gs'|]; [|discriminate]. injection Es as <-.
  inversion F as [|? ? [Fo Fp] Fb]; subst. pose proof (flow_step r i g (w, s) ev' q Fo Fp Eg) as S.
  cbn [f_exec_all values_flow]. destruct (refusal W ev r i (w, s)) as [z|] eqn:Ez.
  { apply refusal_ends in Ez. destruct (f_exec W ev lenv r g (w, s)); [subst z; elim Ez|exact S|exact S]. }
  destruct (v_inst _ (until_left W ev) r i (inl (w, s))) as [[i' r1] [[w1 s1]|[w1 s1]]]; [|rewrite S; reflexivity].
  destruct (f_exec W ev lenv r g (w, s)) as [r2 w2 s2|e w2 s2|w2 s2]; [| |elim S].
  - destruct S as (-> & -> & ->). apply (IH gs' eq_refl r1 w1 s2 Fb).
  - destruct S as [s3 ->]. reflexivity.
Qed.

(** ** When no expression leaves *)
Definition to_u (x : lres W) : option (eres W) := match x with LOk _ r w s => Some (EOk W r w s) | LFail _ e w s => Some (EFail W e w s) | LLeft _ _ _ => None end.
Lemma flow_code : forall g r x y, to_u (f_exec W ev lenv r g x) = Some y -> u_exec W (staying ev) lenv r g x = y.
Proof.
  induction g as [| |c k IH|e k IH|v k IH|c t IHt e IHe k IHk]; intros r x y E; cbn [f_exec u_exec] in *; try (cbn in E; congruence).
  - destruct (run_call none lenv r c (snd x)); [apply IH, E|cbn in E; congruence].
  - assert (Z : forall v x1, f_eval W ev r e x = (Some v, x1) -> u_eval W (staying ev) r e x = (v, x1)).
    { intros v x1. destruct e; cbn; [congruence|unfold staying; destruct (ev ts r x) as [[v'|] x2]; congruence]. }
    destruct (f_eval W ev r e x) as [[v|] x1]; [|discriminate]. rewrite (Z v x1 eq_refl). apply IH, E.
  - apply IH, E.
  - destruct (run_cond none r c) as [b r']. specialize (IHt r' x). specialize (IHe r x).
    destruct b; [destruct (f_exec W ev lenv r' t x)|destruct (f_exec W ev lenv r e x)]; cbn [to_u] in *; try discriminate E;
      (rewrite (IHt _ eq_refl) || rewrite (IHe _ eq_refl)); try congruence; apply IHk, E.
Qed.
Theorem flow_stays r body w s : match f_block W ev lenv r body w s with
  | LOk _ r1 w1 s1 => u_block W (staying ev) lenv r body w s = EOk W r1 w1 s1
  | LFail _ e w1 s1 => u_block W (staying ev) lenv r body w s = EFail W e w1 s1
  | LLeft _ _ _ => True
  end.
Proof.
  assert (A : forall gs r x y, to_u (f_exec_all W ev lenv r gs x) = Some y -> u_exec_all W (staying ev) lenv r gs x = y).
  { clear. induction gs as [|g gs IH]; intros r x y E; cbn [f_exec_all u_exec_all] in *; [cbn in E; congruence|].
    pose proof (flow_code g r x) as S. destruct (f_exec W ev lenv r g x); cbn [to_u] in *; try discriminate E; rewrite (S _ eq_refl); [apply IH, E|congruence]. }
  unfold f_block, u_block. destruct (e_compile_all body) as [gs|]; [|reflexivity]. pose proof (A gs r (w, s)) as S.
  destruct (f_exec_all W ev lenv r gs (w, s)); try exact Logic.I; apply S; reflexivity.
Qed.

(** ** The state of the assembler *)
Hypothesis Kept : forall ts r w s, reached s -> reached (snd (snd (ev ts r (w, s)))).
Lemma flow_code_reached : forall g, plain g -> forall r x, reached (snd x) -> ends_reached W (f_exec W ev lenv r g x).
Proof.
  induction g as [| |c k IH|e k IH|v k IH|c t IHt e IHe k IHk]; intros P r x R; cbn [f_exec plain] in *; try (cbn; auto; fail).
  - destruct P as [Pc Pk]. pose proof (call_reached lenv r c (snd x) Pc R). destruct (run_call none lenv r c (snd x)); [apply IH; auto|exact H].
  - assert (R1 : reached (snd (snd (f_eval W ev r e x)))) by (destruct e; [exact R|destruct x; apply Kept, R]).
    destruct (f_eval W ev r e x) as [[v|] x1]; [apply IH; auto|exact R1].
  - destruct P as (Pt & Pe & Pk). destruct (run_cond none r c) as [b r']. specialize (IHt Pt r' x R). specialize (IHe Pe r x R).
    destruct b; [destruct (f_exec W ev lenv r' t x)|destruct (f_exec W ev lenv r e x)]; cbn in *; auto.
Qed.
Lemma flow_statement_reached i g r x : e_compile i = Some g -> reached (snd x) -> ends_reached W (f_exec W ev lenv r g x).
Proof.
  intros Hc R. destruct (compile_plain i g Hc) as [D|P]; [|apply flow_code_reached; assumption].
  destruct i; try (elim D; fail). destruct d; try (elim D; fail). injection Hc as <-. destruct x as [w s]. cbn [snd] in R.
  match goal with |- ends_reached W (f_exec W ev lenv r _ (w, s)) => set (y := f_exec W ev lenv r _ (w, s)) end.
  assert (E : step (OAsm none lenv r [ICall (DestRel ident)]) s = match y with LOk _ _ _ s1 | LLeft _ _ s1 => Ok None s1 | LFail _ e _ s1 => Panic e s1 end).
  { subst y. cbn [step compile_all compile exec_all exec g2 g1 e_code]. unfold e_call. cbn [f_exec fst snd]. unfold bind. cbn [run_call].
    destruct (emitb 0xe8 s) as [[] s1|]; [|reflexivity]. cbn [fst snd]. destruct (save_reloc (lenv ident) 4 s1) as [[] s2|]; [|reflexivity].
    cbn [fst snd]. destruct (emitl 0 s2) as [[] s3|]; reflexivity. }
  clearbody y. unfold ends_reached. destruct y as [r1 w1 s1|e w1 s1|w1 s1];
    try (intro N); apply (reached_api (OAsm none lenv r [ICall (DestRel ident)]) s s1 R eq_refl); unfold after; rewrite E; try reflexivity.
  destruct e; try reflexivity; congruence.
Qed.
Theorem flow_block_reached : forall body r w s, reached s -> e_compile_all body <> None ->
  match f_block W ev lenv r body w s with
  | LOk _ _ _ s1 | LLeft _ _ s1 => reached s1
  | LFail _ e _ s1 => e <> PageOverflow -> reached s1
  end.
Proof.
  intros body r w s R N. unfold f_block. destruct (e_compile_all body) as [gs|] eqn:Es; [|congruence]. clear N.
  assert (G : forall body gs, e_compile_all body = Some gs -> forall r x, reached (snd x) -> ends_reached W (f_exec_all W ev lenv r gs x)); [|apply (G body gs Es r (w, s) R)].
  clear body gs Es r w s R. induction body as [|i body IH]; intros gs Es r x R; cbn [e_compile_all] in Es; [injection Es as <-; exact R|].
  destruct (e_compile i) as [g|] eqn:Eg; [|discriminate]. destruct (e_compile_all body) as [gs'|]; [|discriminate]. injection Es as <-.
  cbn [f_exec_all]. pose proof (flow_statement_reached i g r x Eg R) as S. destruct (f_exec W ev lenv r g x) as [r1 w1 s1|e w1 s1|w1 s1]; [|exact S|exact S].
  apply (IH gs' eq_refl). exact S.
Qed.
End Block.
