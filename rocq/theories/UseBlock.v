(** Blocks whose expressions use the assembler: statement by statement, values first. *)
From Verif Require Import Base ModelMem ModelEnc ModelSyntax ModelMacro ModelEff ModelUse SpecX86 SpecAsm SpecState SpecHist SpecProg SpecScope ScopeFacts ScopeBlock SpecEff EffFacts SpecLeave SpecUse UseStmt.
Local Notation length := List.length.
Local Open Scope list_scope.
Local Open Scope Z_scope.

Section Block.
Variable W : Type.
Variable ev : list tok -> env -> W * jit -> Z * (W * jit).
Variable lenv : string -> label.
Lemma statement_step r i g x ev' q : evaluated_once i -> prefix_of i = None -> e_compile i = Some g ->
  let '((i', r1), (w1, s1)) := v_inst (W * jit) ev r i x in
  match u_exec W ev lenv r g x with
  | EOk _ r2 w2 s2 => step (OAsm ev' lenv q [i']) s1 = Ok None s2 /\ r2 = r1 /\ w2 = w1
  | EFail _ e _ _ => exists s2, step (OAsm ev' lenv q [i']) s1 = Panic e s2
  end.
Proof.
  intros O N C. destruct (use_statement W ev lenv r i O N g x C) as (g' & C' & A).
  pose proof (v_frozen (W * jit) ev none [i] r x r) as Z. cbn [v_body] in Z. unfold andthen, into, yields, andthen in Z.
  destruct (v_inst (W * jit) ev r i x) as [[i' r1] [w1 s1]]. cbn [fst snd] in *.
  pose proof (block_frozen none ev' lenv r q [i'] s1) as B. rewrite Z in B. rewrite <- B.
  cbn [step compile_all]. rewrite C'. cbn [exec_all]. unfold bind.
  destruct (u_exec W ev lenv r g x) as [r2 w2 s2|e w2 s2]; cbn [agrees] in A.
  - destruct A as (-> & -> & ->). auto.
  - destruct A as [s3 ->]. eauto.
Qed.
Theorem block_use : forall body r w s ev' q, Forall (fun i => evaluated_once i /\ prefix_of i = None) body -> e_compile_all body <> None ->
  match u_block W ev lenv r body w s with
  | EOk _ _ w1 s1 => values_first W ev lenv ev' q r body (w, s) = Ok (w1, s1) s1
  | EFail _ e _ _ => exists s1, values_first W ev lenv ev' q r body (w, s) = Panic e s1
  end.
Proof.
  intros body r w s ev' q F N. unfold u_block. destruct (e_compile_all body) as [gs|] eqn:Es; [|congruence]. clear N.
  revert gs Es r w s F. induction body as [|i body IH]; intros gs Es r w s F; cbn [e_compile_all] in Es; [injection Es as <-; reflexivity|].
  destruct (e_compile i) as [g|] eqn:Eg; [|discriminate]. destruct (e_compile_all body) as [gs'|]; [|discriminate]. injection Es as <-.
  inversion F as [|? ? [Fo Fp] Fb]; subst. pose proof (statement_step r i g (w, s) ev' q Fo Fp Eg) as S.
  cbn [u_exec_all values_first]. destruct (v_inst (W * jit) ev r i (w, s)) as [[i' r1] [w1 s1]].
  destruct (u_exec W ev lenv r g (w, s)) as [r2 w2 s2|e w2 s2].
  - destruct S as (-> & -> & ->). apply (IH gs' eq_refl r1 w1 s2 Fb).
  - destruct S as [s3 ->]. eauto.
Qed.
End Block.
