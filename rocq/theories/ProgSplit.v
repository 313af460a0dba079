(** One block or several: the variable [imm] of the generated code. *)
From Verif Require Import Base ModelMem ModelEnc ModelSyntax ModelMacro SpecX86 SpecAsm SpecState SpecHist Trace EncFacts ProgOne SpecProg ProgBlock.
Local Notation length := List.length.
Local Open Scope list_scope.
Local Open Scope Z_scope.

(** Expressions of generated code. *)
Definition disp_exprs (d : pdisp) : list expr := match d with PExpr _ e => [e] | _ => [] end.
Definition ind_exprs (a : ind_addr) : list expr :=
  greg_of (ia_base a) :: disp_exprs (ia_disp a) ++ match ia_scale a with PScaleNone => [] | PS1 _ g => [greg_of g] end.
Definition grm_exprs (x : grm) : list expr := match x with GRmReg g => [g] | GRmInd a => ind_exprs a end.
Definition call_exprs (c : gcall) : list expr :=
  match c with
  | GEmitbExpr e => [e]
  | GEncO _ g | GEncOi _ g | GEncOiByte _ g | GEncRexwO _ g => [g]
  | GEncMi _ x _ | GEncRexwMi _ x _ | GEncMiByte _ x _ | GEncMByte _ x | GEncDigit _ x _ | GEncDigitImm _ x _ _ | GEncDigitImmByte _ _ x _ _ | GEncRexwDigit _ x _ _ => grm_exprs x
  | GEncMr _ g x | GEncMrByte _ g x | GEncRexwMr _ g x => g :: grm_exprs x
  | _ => []
  end.
Definition gimm_uses (i : gimm) : bool := match i with GImmNone => false | _ => true end.
Definition call_imm (c : gcall) : bool :=
  match c with
  | GEmitbImm | GEmitwImm | GEmitlImm | GEmitqImm => true
  | GEncMi _ _ i | GEncRexwMi _ _ i | GEncMiByte _ _ i | GEncDigitImm _ _ _ i | GEncDigitImmByte _ _ _ _ i | GEncRexwDigit _ _ _ i => gimm_uses i
  | _ => false
  end.
Definition cond_exprs (c : gcond) : list expr := match c with CTry32Of e | CIsRax e | CNotCl e => [e] | _ => [] end.
Definition cond_imm (c : gcond) : bool := match c with CTry8 | CTry16 | CTry32 | CImmIs1 => true | _ => false end.
Fixpoint code_exprs (g : gcode) : list expr :=
  match g with
  | GNil | GPanic => []
  | GDo c k => call_exprs c ++ code_exprs k
  | GLetImm e k => e :: code_exprs k
  | GIf c t e k => cond_exprs c ++ code_exprs t ++ code_exprs e ++ code_exprs k
  end.
(** [imm] is set by this code before it is used; [b]: already set. *)
Fixpoint sets_first (b : bool) (g : gcode) : bool :=
  match g with
  | GNil | GPanic => true
  | GDo c k => (b || negb (call_imm c)) && sets_first b k
  | GLetImm _ k => sets_first true k
  | GIf c t e k => (b || negb (cond_imm c)) && sets_first (match c with CTry32Of _ => true | _ => b end) t && sets_first b e && sets_first b k
  end.
Section Two.
Variables (ev : list tok -> env -> Z) (lenv : string -> label) (r0 : env).
Definition blind_list (es : list expr) : Prop := forall e, In e es -> imm_blind ev r0 e.
Lemma blind_same r r' e : imm_blind ev r0 e -> same_but_imm r0 r -> same_but_imm r0 r' -> eval ev r' e = eval ev r e.
Proof. intros H A B. rewrite (H r A). apply (H r' B). Qed.
Lemma run_rm_same r r' x : same_but_imm r0 r -> same_but_imm r0 r' -> blind_list (grm_exprs x) -> run_rm ev lenv r' x = run_rm ev lenv r x.
Proof.
  intros A B H. destruct x as [g|[b sc d]]; cbn [run_rm grm_exprs ind_exprs ia_base ia_disp ia_scale] in *.
  - unfold run_reg. rewrite (blind_same r r' g) by (auto; apply H; left; reflexivity). reflexivity.
  - f_equal.
    + unfold run_reg. rewrite (blind_same r r'); auto. apply H. left. reflexivity.
    + destruct d as [v|n e|l]; cbn [run_disp]; auto. rewrite (blind_same r r' e); auto. apply H. right. apply in_or_app. left. left. reflexivity.
    + destruct sc as [|k g]; cbn [run_scale]; auto. unfold run_reg. rewrite (blind_same r r'); auto. apply H. right. apply in_or_app. right. left. reflexivity.
Qed.
Lemma run_imm_same r r' i : (gimm_uses i = true -> the_imm r' = the_imm r) -> run_imm r' i = run_imm r i.
Proof. destruct i; cbn; intro H; rewrite ?H by reflexivity; reflexivity. Qed.
Lemma run_call_same r r' c : same_but_imm r0 r -> same_but_imm r0 r' -> blind_list (call_exprs c) -> (call_imm c = true -> the_imm r' = the_imm r) ->
  run_call ev lenv r' c = run_call ev lenv r c.
Proof.
  intros A B H I. assert (X := run_rm_same r r'). assert (Y : forall g, In g (call_exprs c) -> run_reg ev r' g = run_reg ev r g).
  { intros g Hg. unfold run_reg. rewrite (blind_same r r' g); auto. }
  destruct c; cbn [run_call call_exprs call_imm] in *; rewrite ?I by reflexivity; rewrite ?Y by (left; reflexivity);
    try (rewrite X by (try assumption; intros e He; apply H; auto; right; assumption)); try (rewrite (run_imm_same r r' i I)); try reflexivity.
  rewrite (blind_same r r' e); auto. apply H. left. reflexivity.
Qed.
Lemma run_cond_same r r' c : same_but_imm r0 r -> same_but_imm r0 r' -> blind_list (cond_exprs c) -> (cond_imm c = true -> the_imm r' = the_imm r) ->
  fst (run_cond ev r' c) = fst (run_cond ev r c) /\ same_but_imm r0 (snd (run_cond ev r c)) /\ same_but_imm r0 (snd (run_cond ev r' c)) /\
  (match c with CTry32Of _ => True | _ => the_imm r' = the_imm r end -> the_imm (snd (run_cond ev r' c)) = the_imm (snd (run_cond ev r c))).
Proof.
  intros A B H I. destruct c; cbn [run_cond cond_exprs cond_imm fst snd] in *; rewrite ?I by reflexivity; repeat split; auto using same_set.
  - rewrite (blind_same r r' e); auto. apply H. left. reflexivity.
  - intros _. unfold the_imm, env_set. cbn. rewrite (blind_same r r' e); auto. apply H. left. reflexivity.
  - unfold run_reg. rewrite (blind_same r r' g); auto. apply H. left. reflexivity.
  - unfold run_reg. rewrite (blind_same r r' g); auto. apply H. left. reflexivity.
Qed.
Lemma blind_app a b : blind_list (a ++ b) <-> blind_list a /\ blind_list b.
Proof. unfold blind_list. split; [intro H; split; intros e He; apply H, in_or_app; auto|intros [H K] e He; apply in_app_or in He; destruct He; auto]. Qed.
Lemma exec_same : forall g b r r' s, same_but_imm r0 r -> same_but_imm r0 r' -> blind_list (code_exprs g) -> sets_first b g = true ->
  (b = true -> the_imm r' = the_imm r) ->
  match exec ev lenv r g s, exec ev lenv r' g s with
  | Ok q s1, Ok q' s2 => s1 = s2 /\ same_but_imm r0 q /\ same_but_imm r0 q'
  | Panic e s1, Panic e' s2 => e = e' /\ s1 = s2
  | _, _ => False
  end.
Proof.
  induction g as [|c k IH|e k IH|c t IHt e IHe k IH|]; intros b r r' s A B H F I; cbn [exec code_exprs sets_first] in *.
  - cbn. auto.
  - apply blind_app in H. destruct H as [H1 H2]. apply andb_true_iff in F. destruct F as [F1 F2]. unfold bind.
    rewrite (run_call_same r r' c A B H1).
    + destruct (run_call ev lenv r c s) as [[] s1|x s1]; [apply (IH b); auto|auto].
    + intro Hc. apply I. rewrite Hc in F1. destruct b; [reflexivity|discriminate F1].
  - apply (IH true); auto using same_set.
    + intros x Hx. apply H. right. exact Hx.
    + intros _. unfold the_imm, env_set. cbn. rewrite (blind_same r r' e); auto. apply H. left. reflexivity.
  - apply blind_app in H. destruct H as [H1 H]. apply blind_app in H. destruct H as [H2 H]. apply blind_app in H. destruct H as [H3 H4].
    apply andb_true_iff in F. destruct F as [F F4]. apply andb_true_iff in F. destruct F as [F F3]. apply andb_true_iff in F. destruct F as [F1 F2].
    assert (Ic : cond_imm c = true -> the_imm r' = the_imm r) by (intro Hc; apply I; rewrite Hc in F1; destruct b; [reflexivity|discriminate F1]).
    destruct (run_cond_same r r' c A B H1 Ic) as (C1 & C2 & C3 & C4). destruct (run_cond ev r c) as [bb q]. destruct (run_cond ev r' c) as [bb' q']. cbn [fst snd] in *. subst bb'.
    unfold bind. assert (G : match (if bb then exec ev lenv q t else exec ev lenv r e) s, (if bb then exec ev lenv q' t else exec ev lenv r' e) s with
      | Ok q s1, Ok q' s2 => s1 = s2 /\ same_but_imm r0 q /\ same_but_imm r0 q'
      | Panic e s1, Panic e' s2 => e = e' /\ s1 = s2
      | _, _ => False end).
    { destruct bb; [|apply (IHe b); auto]. apply (IHt (match c with CTry32Of _ => true | _ => b end)); auto. intro Hb. apply C4. destruct c; auto. }
    destruct ((if bb then exec ev lenv q t else exec ev lenv r e) s) as [x s1|x s1], ((if bb then exec ev lenv q' t else exec ev lenv r' e) s) as [y s2|y s2]; try contradiction.
    + destruct G as [-> _]. apply (IH b); auto.
    + exact G.
  - cbn. auto.
Qed.
End Two.

(** Generated code sets [imm] before using it, and contains no other expressions than the statement. *)
Lemma compile_sets i g : compile i = Some g -> sets_first false g = true.
Proof.
  intro H. destruct i; cbn [compile] in H;
  try (unfold binary_op, binary_opq, binary_opl, binary_opw, binary_opb, shift_op, divide_op, binary_sd_op,
         push_pop, count_op, xchg, testq, testb, movq, movl, movw, movb in H);
  repeat match goal with H : context [match ?x with _ => _ end] |- _ => destruct x; try discriminate end;
  inversion H; subst; clear H; reflexivity.
Qed.
Definition const_expr (e : expr) : Prop := exists n, e = greg_of (RReg n).
Lemma greg_in r : const_expr (greg_of r) \/ In (greg_of r) (reg_exprs r).
Proof. destruct r; [left; eexists; reflexivity|right; left; reflexivity]. Qed.
Lemma ind_in a e : In e (ind_exprs a) -> const_expr e \/ In e (mem_exprs a).
Proof.
  destruct a as [b sc d]. unfold ind_exprs, mem_exprs. cbn [ia_base ia_scale ia_disp In]. intros [<-|H].
  - destruct (greg_in b); [left; assumption|right; apply in_or_app; auto].
  - apply in_app_or in H. destruct H as [H|H]; [right; apply in_or_app; right; apply in_or_app; right; destruct d; exact H|].
    destruct sc as [|k g]; [destruct H|]. destruct H as [<-|[]]. destruct (greg_in g); [left; assumption|right; apply in_or_app; right; apply in_or_app; auto].
Qed.
Lemma compile_exprs i g : compile i = Some g -> forall e, In e (code_exprs g) -> const_expr e \/ In e (stmt_exprs i).
Proof.
  intros H e He. unfold stmt_exprs. destruct i; cbn [compile] in H;
  try (unfold binary_op, binary_opq, binary_opl, binary_opw, binary_opb, shift_op, divide_op, binary_sd_op,
         push_pop, count_op, xchg, testq, testb, movq, movl, movw, movb in H);
  repeat match goal with H : context [match ?x with _ => _ end] |- _ => destruct x eqn:?; try discriminate end;
  inversion H; subst; clear H; unfold addr_exprs, regs_of, xmms_of, mems_of in *;
  repeat match goal with x : rm_operand |- _ => destruct x | x : xm_operand |- _ => destruct x end;
  cbn -[greg_of ind_exprs mem_exprs reg_exprs] in He |- *; rewrite ?in_app_iff in *; cbn -[greg_of ind_exprs mem_exprs reg_exprs] in *;
  repeat match goal with
  | H : _ \/ _ |- _ => destruct H
  | H : False |- _ => destruct H
  | H : greg_of ?r = _ |- _ => subst; destruct (greg_in r)
  | H : In _ (ind_exprs _) |- _ => apply ind_in in H
  | H : In _ (_ ++ _) |- _ => apply in_app_or in H
  end; try tauto; try (left; eexists; symmetry; eassumption).
  match goal with H : grm_of_rmi ?b = Some _ |- _ => destruct b; inversion H; subst end;
  cbn -[greg_of ind_exprs mem_exprs reg_exprs] in H |- *; rewrite ?in_app_iff; cbn -[greg_of ind_exprs mem_exprs reg_exprs].
  - destruct H as [<-|[]]. match goal with |- context [greg_of ?r] => destruct (greg_in r) end; tauto.
  - apply ind_in in H. tauto.
Qed.
Lemma code_blind ev r i g : compile i = Some g -> blind ev r i -> blind_list ev r (code_exprs g).
Proof.
  intros Hc Hb e He. destruct (compile_exprs i g Hc e He) as [[n ->]|H]; [intros r' _; reflexivity|].
  unfold blind in Hb. rewrite Forall_forall in Hb. apply Hb, H.
Qed.
Section All.
Variables (ev : list tok -> env -> Z) (lenv : string -> label) (r0 : env).
Definition same_end (x y : res env) : Prop :=
  match x, y with
  | Ok _ s1, Ok _ s2 => s1 = s2
  | Panic e s1, Panic e' s2 => e = e' /\ s1 = s2
  | _, _ => False
  end.
Lemma exec_all_same : forall body gs r r' s, compile_all body = Some gs -> Forall (blind ev r0) body -> same_but_imm r0 r -> same_but_imm r0 r' ->
  same_end (exec_all ev lenv r gs s) (exec_all ev lenv r' gs s).
Proof.
  induction body as [|i body IH]; intros gs r r' s Hc Hb A B.
  - inversion Hc; subst. reflexivity.
  - destruct (compile_all_cons _ _ _ Hc) as (g & gs' & Hg & Hc' & ->). inversion Hb as [|? ? Hb1 Hb2]; subst. cbn [exec_all]. unfold bind.
    pose proof (exec_same ev lenv r0 g false r r' s A B (code_blind ev r0 _ _ Hg Hb1) (compile_sets _ _ Hg) ltac:(discriminate)) as K.
    destruct (exec ev lenv r g s) as [q s1|], (exec ev lenv r' g s) as [q' s2|]; try contradiction; [|exact K].
    destruct K as (<- & K1 & K2). apply IH; auto.
Qed.
Lemma exec_env : forall g r s r' s', exec ev lenv r g s = Ok r' s' -> same_but_imm r0 r -> same_but_imm r0 r'.
Proof.
  induction g as [|c k IH|e k IH|c t IHt e IHe k IH|]; intros r s r' s' H A; cbn [exec] in H.
  - inversion H; subst. exact A.
  - unfold bind in H. destruct (run_call ev lenv r c s) as [[] s1|]; [|discriminate]. eauto.
  - eapply IH; [exact H|]. apply same_set, A.
  - assert (Q : same_but_imm r0 (snd (run_cond ev r c))) by (destruct c; cbn [run_cond snd]; auto using same_set).
    destruct (run_cond ev r c) as [bb q]. unfold bind in H. cbn [snd] in Q.
    destruct bb.
    + destruct (exec ev lenv q t s) as [q' s1|] eqn:E; [|discriminate]. eauto.
    + destruct (exec ev lenv r e s) as [q' s1|] eqn:E; [|discriminate]. eauto.
  - discriminate H.
Qed.
Lemma exec_all_env : forall gs r s r' s', exec_all ev lenv r gs s = Ok r' s' -> same_but_imm r0 r -> same_but_imm r0 r'.
Proof.
  induction gs as [|g gs IH]; intros r s r' s' H A; cbn [exec_all] in H.
  - inversion H; subst. exact A.
  - unfold bind in H. destruct (exec ev lenv r g s) as [q s1|] eqn:E; [|discriminate]. eapply IH; [exact H|]. eapply exec_env; eauto.
Qed.
Lemma exec_all_app : forall g1 g2 r s, exec_all ev lenv r (g1 ++ g2) s = bind (exec_all ev lenv r g1) (fun r' => exec_all ev lenv r' g2) s.
Proof.
  induction g1 as [|g g1 IH]; intros g2 r s; [reflexivity|]. cbn [app exec_all]. unfold bind. destruct (exec ev lenv r g s) as [q s1|]; [|reflexivity]. apply IH.
Qed.
End All.
Lemma compile_all_app : forall a b gs, compile_all (a ++ b) = Some gs -> exists g1 g2, compile_all a = Some g1 /\ compile_all b = Some g2 /\ gs = g1 ++ g2.
Proof.
  induction a as [|i a IH]; intros b gs H; [exists [], gs; auto|]. cbn [app] in H.
  destruct (compile_all_cons _ _ _ H) as (g & gs' & Hg & Hc & ->). destruct (IH _ _ Hc) as (g1 & g2 & A & B & ->).
  exists (g :: g1), g2. cbn [compile_all]. rewrite Hg, A. auto.
Qed.
Lemma block_split ev lenv r a b s : compile_all (a ++ b) <> None -> Forall (blind ev r) b ->
  step (OAsm ev lenv r (a ++ b)) s = bind (step (OAsm ev lenv r a)) (fun _ => step (OAsm ev lenv r b)) s.
Proof.
  intros Hn Hb. destruct (compile_all (a ++ b)) as [gs|] eqn:E; [|congruence]. destruct (compile_all_app _ _ _ E) as (g1 & g2 & A & B & ->).
  unfold bind. cbn [step]. rewrite E, A, B. unfold bind, ret. rewrite exec_all_app. unfold bind.
  destruct (exec_all ev lenv r g1 s) as [r1 s1|] eqn:E1; [|reflexivity].
  pose proof (exec_all_same ev lenv r b g2 r1 r s1 B Hb (exec_all_env _ _ _ _ _ _ _ _ E1 (same_refl r)) (same_refl r)) as K.
  destruct (exec_all ev lenv r1 g2 s1) as [q s2|], (exec_all ev lenv r g2 s1) as [q' s3|]; try contradiction; cbn in K.
  - subst. reflexivity.
  - destruct K as [-> ->]. reflexivity.
Qed.
Lemma block_split3 ev lenv r a i b s : compile_all (a ++ i :: b) <> None -> Forall (blind ev r) (i :: b) ->
  step (OAsm ev lenv r (a ++ i :: b)) s =
  bind (step (OAsm ev lenv r a)) (fun _ => bind (step (OAsm ev lenv r [i])) (fun _ => step (OAsm ev lenv r b))) s.
Proof.
  intros Hn Hb. rewrite (block_split ev lenv r a (i :: b) s Hn Hb). unfold bind. destruct (step (OAsm ev lenv r a) s) as [o s1|]; [|reflexivity].
  apply (block_split ev lenv r [i] b s1); [|inversion Hb; assumption].
  destruct (compile_all (a ++ i :: b)) as [gs|] eqn:E; [|congruence]. destruct (compile_all_app _ _ _ E) as (g1 & g2 & _ & B & _). cbn [app]. congruence.
Qed.
