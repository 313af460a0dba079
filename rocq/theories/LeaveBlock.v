(** Blocks left by one of their expressions: the statement that is left, and those before it. *)
From Verif Require Import Base ModelMem ModelEnc ModelSyntax ModelMacro ModelEff ModelLeave SpecX86 SpecAsm SpecState SpecHist MemRun ProgBlock SpecLeave LeaveFacts.
Local Notation length := List.length.
Local Open Scope list_scope.
Local Open Scope Z_scope.

Lemma emit_one p s : step (OEmit [p]) s = match emitb p s with Ok _ s' => Ok None s' | Panic e s' => Panic e s' end.
Proof. cbn [step]. unfold nolabel, emit. cbn [forM]. unfold bind. destruct (emitb p s) as [[] s'|]; reflexivity. Qed.

Section Run.
Variable W : Type.
Variable ev : list tok -> env -> W -> option Z * W.
Variable lenv : string -> label.
Notation run := (l_exec W ev lenv).
Definition steady (r : env) (x : grm) : Prop := forall ev' r', run_rm ev' lenv r' x = run_rm none lenv r x.

Lemma reg_left r g k w s : (exists w', run r (e_reg g k) w s = LLeft W w' s) \/
  exists g' w1, run r (e_reg g k) w s = run r (k g') w1 s /\ forall ev' r' r0, run_reg ev' r' (greg_of g') = run_reg none r0 (greg_of g').
Proof.
  destruct g as [n|e]; cbn [e_reg]; [right; exists (RReg n), w; auto|]. cbn [l_exec].
  destruct (l_eval W ev r e w) as [[v|] w1]; [right; exists (RExpr (ELit v)), w1; auto|left; eauto].
Qed.
Lemma ind_left r a k w s : (exists w', run r (e_rm (GRmInd a) k) w s = LLeft W w' s) \/
  exists a' w1, run r (e_rm (GRmInd a) k) w s = run r (k (GRmInd a')) w1 s /\ steady r (GRmInd a').
Proof.
  destruct a as [b sc d]. unfold e_rm. cbn [ia_base ia_disp ia_scale].
  match goal with |- context [e_reg b ?k] => destruct (reg_left r b k w s) as [L|(b' & w1 & E & Hb)] end; [left; exact L|rewrite E]. clear E.
  assert (D : (exists w', run r (e_disp d (fun d => e_scale sc (fun sc => k (GRmInd (mkInd b' sc d))))) w1 s = LLeft W w' s) \/
    exists d' w2, run r (e_disp d (fun d => e_scale sc (fun sc => k (GRmInd (mkInd b' sc d))))) w1 s = run r (e_scale sc (fun sc => k (GRmInd (mkInd b' sc d')))) w2 s /\
      forall ev' r', run_disp ev' lenv r' d' = run_disp none lenv r d').
  { destruct d as [v|n e|l]; cbn [e_disp]; [right; eexists _, _; split; [reflexivity|auto]| |right; eexists _, _; split; [reflexivity|auto]].
    cbn [l_exec]. destruct (l_eval W ev r e w1) as [[v|] w2]; [right; exists (PExpr n (ELit v)), w2; auto|left; eauto]. }
  destruct D as [L|(d' & w2 & E & Hd)]; [left; exact L|rewrite E]. clear E.
  destruct sc as [|n g]; cbn [e_scale].
  - right. eexists _, w2. split; [reflexivity|]. intros ev' r'. unfold run_rm; cbn [ia_base ia_disp ia_scale run_scale]. rewrite Hd, (Hb ev' r' r). reflexivity.
  - match goal with |- context [e_reg g ?k] => destruct (reg_left r g k w2 s) as [L|(g' & w3 & E & Hg)] end; [left; exact L|rewrite E].
    right. eexists _, w3. split; [reflexivity|]. intros ev' r'. unfold run_rm; cbn [ia_base ia_disp ia_scale run_scale]. rewrite Hd, (Hb ev' r' r), (Hg ev' r' r). reflexivity.
Qed.
Lemma xm_left r b k w s : (exists w', run r (e_rm (grm_of_xm b) k) w s = LLeft W w' s) \/
  exists b' w1, run r (e_rm (grm_of_xm b) k) w s = run r (k (grm_of_xm b')) w1 s /\ steady r (grm_of_xm b').
Proof.
  destruct b as [e|a]; cbn [grm_of_xm].
  - unfold e_rm. cbn [l_exec]. destruct (l_eval W ev r e w) as [[v|] w1]; [right; exists (XmXmm (ELit v)), w1; split; [reflexivity|intros ? ?; reflexivity]|left; eauto].
  - destruct (ind_left r a k w s) as [L|(a' & w1 & E & H)]; [left; exact L|right; exists (XmInd a'), w1; auto].
Qed.
Lemma roundpd_left r a b e g w s w' s' : e_compile (IRoundpd a b e) = Some g -> run r g w s = LLeft W w' s' -> left_by lenv (IRoundpd a b e) s s'.
Proof.
  intros Hc E. cbn [e_compile message compile option_map] in Hc. injection Hc as <-.
  cbn [e_code g2 g1] in E. unfold e_call at 1 in E. cbn [l_exec run_call] in E.
  destruct (emitb 0x66 s) as [[] s1|] eqn:E66; [|discriminate].
  assert (P : s' = s1 -> left_by lenv (IRoundpd a b e) s s') by (intros ->; apply (left_prefix _ _ _ _ 0x66); [reflexivity|rewrite emit_one, E66; reflexivity]).
  unfold e_call at 1 in E. cbv zeta in E. cbn [l_exec] in E. destruct (l_eval W ev r a w) as [[v|] w1]; [|apply P; congruence].
  match type of E with context [e_rm ?x ?k] => destruct (xm_left r b k w1 s1) as [(w2 & L)|(b' & w2 & L & St)] end; rewrite L in E; [apply P; congruence|]. clear L.
  cbn [l_exec run_call] in E.
  destruct (enc_mr _ _ _ s1) as [[] s2|] eqn:Em; [|discriminate].
  unfold e_call in E. cbn [l_exec] in E. destruct (l_eval W ev r e w2) as [[m|] w3].
  - cbn [run_call e_code l_exec] in E. destruct (emitb _ s2); discriminate.
  - assert (s2 = s') by congruence. subst s2. apply (left_mode _ _ _ _ a b e); [reflexivity|]. exists v, b'. intros ev' r' m _.
    rewrite emit_one. cbn [step compile_all compile exec_all exec g2 g1 run_call]. unfold bind. rewrite E66, (St ev' r'). unfold run_reg. cbn [eval].
    unfold run_reg in Em. cbn [eval] in Em. rewrite Em. destruct (emitb m s') as [[] s3|]; reflexivity.
Qed.
Theorem statement_left r i g w s w' s' : e_compile i = Some g -> run r g w s = LLeft W w' s' -> left_by lenv i s s'.
Proof.
  intros Hc E. pose proof (compile_shape i g Hc) as S.
  assert (T : shaped i g -> left_by lenv i s s').
  { clear S. intro S. unfold shaped in S. destruct (prefix_of i) as [p|] eqn:Ep.
    - destruct (prefixed_left W ev lenv p g S r w s w' s' E) as [->|H]; [apply left_nothing; reflexivity|].
      apply (left_prefix _ _ _ _ p Ep). rewrite emit_one, H. reflexivity.
    - apply left_nothing. apply (clean_left W ev lenv g S r w s w' s' E). }
  destruct i; try (apply T, S; fail). apply (roundpd_left r _ _ _ g w s w' s' Hc E).
Qed.

(** ** When no expression leaves *)
Definition to_e (x : lres W) : option (eres W) := match x with LOk _ r w s => Some (EOk W r w s) | LFail _ e w s => Some (EFail W e w s) | LLeft _ _ _ => None end.
Lemma stays_code : forall g r w s y, to_e (run r g w s) = Some y -> e_exec W (staying ev) lenv r g w s = y.
Proof.
  induction g as [| |c k IH|e k IH|v k IH|c t IHt e IHe k IHk]; intros r w s y E; cbn [l_exec e_exec] in *; try (cbn in E; congruence).
  - destruct (run_call none lenv r c s); [apply IH, E|cbn in E; congruence].
  - assert (Z : forall v w1, l_eval W ev r e w = (Some v, w1) -> e_eval W (staying ev) r e w = (v, w1)).
    { intros v w1. destruct e; cbn; [congruence|unfold staying; destruct (ev ts r w) as [[v'|] w2]; congruence]. }
    destruct (l_eval W ev r e w) as [[v|] w1]; [|discriminate]. rewrite (Z v w1 eq_refl). apply IH, E.
  - apply IH, E.
  - destruct (run_cond none r c) as [b r']. specialize (IHt r' w s). specialize (IHe r w s).
    destruct b; [destruct (run r' t w s)|destruct (run r e w s)]; cbn [to_e] in *; try discriminate E;
      (rewrite (IHt _ eq_refl) || rewrite (IHe _ eq_refl)); try congruence; apply IHk, E.
Qed.
Lemma stays_all : forall gs r w s y, to_e (l_exec_all W ev lenv r gs w s) = Some y -> e_exec_all W (staying ev) lenv r gs w s = y.
Proof.
  induction gs as [|g gs IH]; intros r w s y E; cbn [l_exec_all e_exec_all] in *; [cbn in E; congruence|].
  pose proof (stays_code g r w s) as S. destruct (run r g w s); cbn [to_e] in *; try discriminate E; rewrite (S _ eq_refl); [apply IH, E|congruence].
Qed.
Theorem stays_block r body w s y : to_e (l_block W ev lenv r body w s) = Some y -> e_block W (staying ev) lenv r body w s = y.
Proof. unfold l_block, e_block. destruct (e_compile_all body); [apply stays_all|cbn; congruence]. Qed.

Theorem block_left : forall body r w s w' s', l_block W ev lenv r body w s = LLeft W w' s' ->
  exists done i rest r1 w1 s1, body = done ++ i :: rest /\ e_block W (staying ev) lenv r done w s = EOk W r1 w1 s1 /\ left_by lenv i s1 s'.
Proof.
  intros body. unfold l_block. destruct (e_compile_all body) as [gs|] eqn:Ec; [|discriminate].
  revert gs Ec. induction body as [|i body IH]; intros gs Ec r w s w' s' E; cbn [e_compile_all] in Ec; [injection Ec as <-; discriminate|].
  destruct (e_compile i) as [g|] eqn:Eg; [|discriminate]. destruct (e_compile_all body) as [gs'|] eqn:Es; [|discriminate]. injection Ec as <-.
  cbn [l_exec_all] in E. pose proof (stays_code g r w s) as S. destruct (run r g w s) as [r1 w1 s1|e w1 s1|w1 s1] eqn:E1; [|discriminate|].
  - specialize (S _ eq_refl). destruct (IH gs' eq_refl r1 w1 s1 w' s' E) as (done & j & rest & r2 & w2 & s2 & -> & Hd & Hl).
    exists (i :: done), j, rest, r2, w2, s2. split; [reflexivity|split; [|exact Hl]].
    unfold e_block in *. cbn [e_compile_all]. rewrite Eg. destruct (e_compile_all done); [|discriminate]. cbn [e_exec_all]. rewrite S. exact Hd.
  - assert (w1 = w' /\ s1 = s') as [-> ->] by (split; congruence). exists [], i, body, r, w, s. split; [reflexivity|split; [reflexivity|]]. apply (statement_left r i g w s w' s' Eg E1).
Qed.
Theorem block_left_clean body r w s w' s' : Forall (fun i => prefix_of i = None) body -> l_block W ev lenv r body w s = LLeft W w' s' ->
  exists done i rest r1 w1, body = done ++ i :: rest /\ e_block W (staying ev) lenv r done w s = EOk W r1 w1 s'.
Proof.
  intros F E. destruct (block_left body r w s w' s' E) as (done & i & rest & r1 & w1 & s1 & -> & Hd & Hl). exists done, i, rest, r1, w1. split; [reflexivity|].
  apply Forall_elt in F. destruct Hl as [-> |p Hp|x a e Hi]; [exact Hd|congruence|subst i; discriminate F].
Qed.
Theorem block_stays r body w s : match l_block W ev lenv r body w s with
  | LOk _ r1 w1 s1 => e_block W (staying ev) lenv r body w s = EOk W r1 w1 s1
  | LFail _ e w1 s1 => e_block W (staying ev) lenv r body w s = EFail W e w1 s1
  | LLeft _ _ _ => True
  end.
Proof. pose proof (stays_block r body w s) as S. destruct (l_block W ev lenv r body w s); try exact Logic.I; apply S; reflexivity. Qed.

(** ** The caller's state: that in which the expression left it *)
Lemma left_world_code : forall g r w s w' s', run r g w s = LLeft W w' s' -> exists ts q w0, ev ts q w0 = (None, w').
Proof.
  induction g as [| |c k IH|e k IH|v k IH|c t IHt e IHe k IHk]; intros r w s w' s' E; cbn [l_exec] in E; try discriminate E.
  - destruct (run_call none lenv r c s); [eapply IH, E|discriminate E].
  - destruct (l_eval W ev r e w) as [[v|] w1] eqn:Ee; [eapply IH, E|]. injection E as -> _. destruct e as [v|ts]; [discriminate Ee|]. eauto.
  - eapply IH, E.
  - destruct (run_cond none r c) as [b r']. destruct b; [destruct (run r' t w s) eqn:E1|destruct (run r e w s) eqn:E1]; try discriminate E;
      first [eapply IHk, E|injection E as -> _; first [eapply IHt, E1|eapply IHe, E1]].
Qed.
Theorem left_world r body w s w' s' : l_block W ev lenv r body w s = LLeft W w' s' -> exists ts q w0, ev ts q w0 = (None, w').
Proof.
  unfold l_block. destruct (e_compile_all body) as [gs|]; [|discriminate]. clear body. revert r w s.
  induction gs as [|g gs IH]; intros r w s E; cbn [l_exec_all] in E; [discriminate|].
  destruct (run r g w s) eqn:E1; [eapply IH, E|discriminate|]. injection E as -> ->. eapply left_world_code, E1.
Qed.
(** What holds of the caller's state after every expression that returns holds before the one that leaves. *)
Lemma kept_code (I : W -> Prop) : (forall ts q w v w1, I w -> ev ts q w = (Some v, w1) -> I w1) ->
  forall g r w s, I w -> match run r g w s with LOk _ _ w1 _ | LFail _ _ w1 _ => I w1 | LLeft _ w1 _ => exists ts q w0, I w0 /\ ev ts q w0 = (None, w1) end.
Proof.
  intro K. induction g as [| |c k IH|e k IH|v k IH|c t IHt e IHe k IHk]; intros r w s Hw; cbn [l_exec]; try assumption.
  - destruct (run_call none lenv r c s); [apply IH, Hw|exact Hw].
  - destruct (l_eval W ev r e w) as [[v|] w1] eqn:Ee; destruct e as [v'|ts]; cbn [l_eval] in Ee.
    + apply IH. congruence.
    + apply IH. eapply K, Ee. exact Hw.
    + discriminate.
    + eauto.
  - apply IH, Hw.
  - destruct (run_cond none r c) as [b r']. specialize (IHt r' w s Hw). specialize (IHe r w s Hw).
    destruct b; [destruct (run r' t w s)|destruct (run r e w s)]; try assumption; apply IHk; assumption.
Qed.
Lemma kept_all (I : W -> Prop) : (forall ts q w v w1, I w -> ev ts q w = (Some v, w1) -> I w1) ->
  forall gs r w s, I w -> match l_exec_all W ev lenv r gs w s with LOk _ _ w1 _ | LFail _ _ w1 _ => I w1 | LLeft _ w1 _ => exists ts q w0, I w0 /\ ev ts q w0 = (None, w1) end.
Proof.
  intro K. induction gs as [|g gs IH]; intros r w s Hw; cbn [l_exec_all]; [exact Hw|].
  pose proof (kept_code I K g r w s Hw) as H. destruct (run r g w s); [apply IH, H|exact H|exact H].
Qed.
End Run.

Theorem left_trace ev lenv r body s trace s' : l_block _ (recorded ev) lenv r body [] s = LLeft _ trace s' ->
  exists before ts, trace = before ++ [ts] /\ (exists q, ev ts q = None) /\ Forall (fun t => exists q, ev t q <> None) before.
Proof.
  unfold l_block. destruct (e_compile_all body) as [gs|]; [|discriminate]. intro E.
  pose proof (kept_all _ (recorded ev) lenv (Forall (fun t => exists q, ev t q <> None))) as K.
  assert (K1 : forall ts q w v w1, Forall (fun t => exists q, ev t q <> None) w -> recorded ev ts q w = (Some v, w1) -> Forall (fun t => exists q, ev t q <> None) w1).
  { intros ts q w v w1 F H. unfold recorded in H. injection H as H <-. apply Forall_app. split; [exact F|constructor; [exists q; congruence|constructor]]. }
  specialize (K K1 gs r [] s (Forall_nil _)). rewrite E in K. destruct K as (ts & q & w0 & F & H). unfold recorded in H. injection H as H <-.
  exists w0, ts. split; [reflexivity|]. split; [exists q; exact H|exact F].
Qed.
