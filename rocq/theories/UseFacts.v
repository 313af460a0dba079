(** Blocks whose expressions read the assembler; blocks whose expressions change it by calls. *)
From Verif Require Import Base ModelMem ModelEnc ModelSyntax ModelMacro ModelEff ModelUse SpecX86 SpecAsm SpecState SpecHist SpecProg SpecEff SpecLeave SpecUse LeaveFacts LeaveReach.
Local Notation length := List.length.
Local Open Scope list_scope.
Local Open Scope Z_scope.

Section Read.
Variable W : Type.
Variable ev : jit -> list tok -> env -> W -> Z * W.
Variable lenv : string -> label.
Notation use := (u_exec W (reading ev) lenv).
Lemma use_eval r e w s : u_eval W (reading ev) r e (w, s) = let (v, w1) := e_eval W (ev s) r e w in (v, (w1, s)).
Proof. destruct e; reflexivity. Qed.
Lemma quiet_use : forall g, quiet g -> forall r w s ev0, use r g (w, s) = e_exec W ev0 lenv r g w s.
Proof.
  induction g as [| |c k IH|e k IH|v k IH|c t IHt e IHe k IHk]; intros Q r w s ev0; cbn [u_exec e_exec quiet fst snd] in *; try reflexivity.
  - destruct (run_call none lenv r c s); [apply IH, Q|reflexivity].
  - elim Q.
  - apply IH, Q.
  - destruct Q as (Qt & Qe & Qk). destruct (run_cond none r c) as [b r']. rewrite (IHt Qt r' w s ev0), (IHe Qe r w s ev0).
    destruct (if b then _ else _); [apply IHk, Qk|reflexivity].
Qed.
Lemma pass_use : forall g, pass g -> forall r w s, use r g (w, s) = e_exec W (ev s) lenv r g w s /\
  match e_exec W (ev s) lenv r g w s with EOk _ _ _ s1 | EFail _ _ _ s1 => s1 = s end.
Proof.
  induction g as [| |c k IH|e k IH|v k IH|c t IHt e IHe k IHk]; intros Q r w s; cbn [u_exec e_exec pass fst snd] in *; try (split; reflexivity).
  - elim Q.
  - rewrite use_eval. destruct (e_eval W (ev s) r e w) as [v w1]. apply IH, Q.
  - apply IH, Q.
  - destruct Q as (Qt & Qe & Qk). destruct (run_cond none r c) as [b r']. destruct (IHt Qt r' w s) as [-> St]. destruct (IHe Qe r w s) as [-> Se].
    destruct b; [destruct (e_exec W (ev s) lenv r' t w s)|destruct (e_exec W (ev s) lenv r e w s)]; subst; try (split; reflexivity); apply IHk, Qk.
Qed.
Lemma clean_use : forall g, clean g -> forall r w s, use r g (w, s) = e_exec W (ev s) lenv r g w s.
Proof.
  induction g as [| |c k IH|e k IH|v k IH|c t IHt e IHe k IHk]; intros Q r w s; cbn [u_exec e_exec clean fst snd] in *; try reflexivity.
  - destruct (run_call none lenv r c s); [apply quiet_use, Q|reflexivity].
  - rewrite use_eval. destruct (e_eval W (ev s) r e w) as [v w1]. apply IH, Q.
  - apply IH, Q.
  - destruct Q as (Qt & Qe & Qk). destruct (run_cond none r c) as [b r']. rewrite (IHt Qt r' w s), (IHe Qe r w s).
    destruct Qk as [Qk|(Pt & Pe & Qk)].
    + destruct (if b then _ else _); [apply quiet_use, Qk|reflexivity].
    + destruct (pass_use t Pt r' w s) as [_ St]. destruct (pass_use e Pe r w s) as [_ Se].
      destruct b; [destruct (e_exec W (ev s) lenv r' t w s)|destruct (e_exec W (ev s) lenv r e w s)]; subst; try reflexivity; apply IHk, Qk.
Qed.
Theorem block_reads : forall body r w s, Forall (fun i => prefix_of i = None) body -> e_compile_all body <> None ->
  u_block W (reading ev) lenv r body w s = seen_before ev lenv r body w s.
Proof.
  unfold u_block. induction body as [|i body IH]; intros r w s F N; cbn [e_compile_all seen_before] in *; [reflexivity|].
  inversion F as [|? ? Fi Fb]; subst. unfold e_block. cbn [e_compile_all].
  destruct (e_compile i) as [g|] eqn:Eg; [|congruence]. destruct (e_compile_all body) as [gs|]; [|congruence].
  assert (C : clean g). { pose proof (compile_shape i g Eg) as S. unfold shaped in S. rewrite Fi in S. destruct i; try exact S. discriminate Fi. }
  cbn [u_exec_all e_exec_all]. rewrite (clean_use g C r w s). destruct (e_exec W (ev s) lenv r g w s) as [r1 w1 s1|]; [|reflexivity].
  apply (IH r1 w1 s1 Fb). discriminate.
Qed.
End Read.

Section Reach.
Variable W : Type.
Variable ev : list tok -> env -> W * jit -> Z * (W * jit).
Variable lenv : string -> label.
Notation use := (u_exec W ev lenv).
Hypothesis Kept : forall ts r w s, reached s -> reached (snd (snd (ev ts r (w, s)))).
Definition use_reached (x : eres W) : Prop := match x with EOk _ _ _ s => reached s | EFail _ e _ s => e <> PageOverflow -> reached s end.
Lemma use_code_reached : forall g, plain g -> forall r x, reached (snd x) -> use_reached (use r g x).
Proof.
  induction g as [| |c k IH|e k IH|v k IH|c t IHt e IHe k IHk]; intros P r x R; cbn [u_exec plain] in *; try (cbn; auto; fail).
  - destruct P as [Pc Pk]. pose proof (call_reached lenv r c (snd x) Pc R). destruct (run_call none lenv r c (snd x)); [apply IH; auto|exact H].
  - assert (R1 : reached (snd (snd (u_eval W ev r e x)))) by (destruct e; [exact R|destruct x; apply Kept, R]).
    destruct (u_eval W ev r e x) as [v x1]. apply IH; auto.
  - destruct P as (Pt & Pe & Pk). destruct (run_cond none r c) as [b r']. specialize (IHt Pt r' x R). specialize (IHe Pe r x R).
    destruct b; [destruct (use r' t x)|destruct (use r e x)]; cbn in *; auto.
Qed.
Lemma use_statement_reached i g r x : e_compile i = Some g -> reached (snd x) -> use_reached (use r g x).
Proof.
  intros Hc R. destruct (compile_plain i g Hc) as [D|P]; [|apply use_code_reached; assumption].
  destruct i; try (elim D; fail). destruct d; try (elim D; fail). injection Hc as <-. destruct x as [w s]. cbn [snd] in R.
  match goal with |- use_reached (use r _ (w, s)) => set (y := use r _ (w, s)) end.
  assert (E : step (OAsm none lenv r [ICall (DestRel ident)]) s = match y with EOk _ _ _ s1 => Ok None s1 | EFail _ e _ s1 => Panic e s1 end).
  { subst y. cbn [step compile_all compile exec_all exec g2 g1 e_code]. unfold e_call. cbn [u_exec fst snd]. unfold bind. cbn [run_call].
    destruct (emitb 0xe8 s) as [[] s1|]; [|reflexivity]. cbn [fst snd]. destruct (save_reloc (lenv ident) 4 s1) as [[] s2|]; [|reflexivity].
    cbn [fst snd]. destruct (emitl 0 s2) as [[] s3|]; reflexivity. }
  clearbody y. unfold use_reached. destruct y as [r1 w1 s1|e w1 s1];
    try (intro N); apply (reached_api (OAsm none lenv r [ICall (DestRel ident)]) s s1 R eq_refl); unfold after; rewrite E; try reflexivity.
  destruct e; try reflexivity; congruence.
Qed.
Theorem use_block_reached : forall body r w s, reached s -> e_compile_all body <> None -> use_reached (u_block W ev lenv r body w s).
Proof.
  intros body r w s R N. unfold u_block. destruct (e_compile_all body) as [gs|] eqn:Es; [|congruence]. clear N.
  assert (G : forall body gs, e_compile_all body = Some gs -> forall r x, reached (snd x) -> use_reached (u_exec_all W ev lenv r gs x)); [|apply (G body gs Es r (w, s) R)].
  clear body gs Es r w s R. induction body as [|i body IH]; intros gs Es r x R; cbn [e_compile_all] in Es; [injection Es as <-; exact R|].
  destruct (e_compile i) as [g|] eqn:Eg; [|discriminate]. destruct (e_compile_all body) as [gs'|]; [|discriminate]. injection Es as <-.
  cbn [u_exec_all]. pose proof (use_statement_reached i g r x Eg R) as S. destruct (use r g x) as [r1 w1 s1|e w1 s1]; [|exact S].
  apply (IH gs' eq_refl). exact S.
Qed.
End Reach.
