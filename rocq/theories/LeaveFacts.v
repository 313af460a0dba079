(** Blocks left by one of their expressions. *)
From Verif Require Import Base ModelMem ModelEnc ModelSyntax ModelMacro ModelEff ModelLeave SpecX86 SpecAsm SpecState SpecHist MemRun ProgBlock SpecLeave.
Local Notation length := List.length.
Local Open Scope list_scope.
Local Open Scope Z_scope.

(** ** Shapes of generated code *)
(** No expression; none after the first call; a prefix, and then none after the next call. *)
Fixpoint quiet (g : ecode) : Prop :=
  match g with ENil | EPanic => True | EDo _ k | EImm _ k => quiet k | EEval _ _ => False | EIf _ t e k => quiet t /\ quiet e /\ quiet k end.
Fixpoint pass (g : ecode) : Prop :=
  match g with ENil | EPanic => True | EDo _ _ => False | EImm _ k => pass k | EEval _ k => forall v, pass (k v) | EIf _ t e k => pass t /\ pass e /\ pass k end.
Fixpoint clean (g : ecode) : Prop :=
  match g with
  | ENil | EPanic => True
  | EDo _ k => quiet k
  | EImm _ k => clean k
  | EEval _ k => forall v, clean (k v)
  | EIf _ t e k => clean t /\ clean e /\ (quiet k \/ pass t /\ pass e /\ clean k)
  end.
Fixpoint prefixed (p : Z) (g : ecode) : Prop :=
  match g with
  | ENil | EPanic => True
  | EDo c k => c = GEmitb p /\ clean k
  | EImm _ k => prefixed p k
  | EEval _ k => forall v, prefixed p (k v)
  | EIf _ t e k => prefixed p t /\ prefixed p e /\ quiet k
  end.

Section Run.
Variable W : Type.
Variable ev : list tok -> env -> W -> option Z * W.
Variable lenv : string -> label.
Notation run := (l_exec W ev lenv).
Lemma quiet_stays : forall g, quiet g -> forall r w s w' s', run r g w s <> LLeft W w' s'.
Proof.
  induction g as [| |c k IH|e k IH|v k IH|c t IHt e IHe k IHk]; intros Q r w s w' s'; cbn [l_exec quiet] in *; try discriminate.
  - destruct (run_call _ _ _ _ _); [apply IH, Q|discriminate].
  - elim Q.
  - apply IH, Q.
  - destruct Q as (Qt & Qe & Qk). destruct (run_cond none r c) as [b r']. pose proof (IHt Qt r' w s w' s'). pose proof (IHe Qe r w s w' s').
    destruct b; [destruct (run r' t w s)|destruct (run r e w s)]; try congruence; apply IHk, Qk.
Qed.
(** Code without calls does not change the assembler. *)
Lemma pass_same : forall g, pass g -> forall r w s, match run r g w s with LOk _ _ _ s' | LFail _ _ _ s' | LLeft _ _ s' => s' = s end.
Proof.
  induction g as [| |c k IH|e k IH|v k IH|c t IHt e IHe k IHk]; intros Q r w s; cbn [l_exec pass] in *; try reflexivity.
  - elim Q.
  - destruct (l_eval W ev r e w) as [[v|] w1]; [apply IH, Q|reflexivity].
  - apply IH, Q.
  - destruct Q as (Qt & Qe & Qk). destruct (run_cond none r c) as [b r']. specialize (IHt Qt r' w s). specialize (IHe Qe r w s).
    destruct b; [destruct (run r' t w s)|destruct (run r e w s)]; subst; try reflexivity; apply IHk, Qk.
Qed.
Lemma clean_left : forall g, clean g -> forall r w s w' s', run r g w s = LLeft W w' s' -> s' = s.
Proof.
  induction g as [| |c k IH|e k IH|v k IH|c t IHt e IHe k IHk]; intros Q r w s w' s' E; cbn [l_exec clean] in *; try discriminate.
  - destruct (run_call _ _ _ _ _); [elim (quiet_stays _ Q _ _ _ _ _ E)|discriminate].
  - destruct (l_eval W ev r e w) as [[v|] w1]; [apply (IH _ (Q v) _ _ _ _ _ E)|congruence].
  - apply (IH Q _ _ _ _ _ E).
  - destruct Q as (Qt & Qe & Qk). destruct (run_cond none r c) as [b r']. specialize (IHt Qt r' w s). specialize (IHe Qe r w s).
    assert (T : pass t -> match run r' t w s with LOk _ _ _ s' | LFail _ _ _ s' | LLeft _ _ s' => s' = s end) by (intro P; apply pass_same, P).
    assert (U : pass e -> match run r e w s with LOk _ _ _ s' | LFail _ _ _ s' | LLeft _ _ s' => s' = s end) by (intro P; apply pass_same, P).
    destruct b; [destruct (run r' t w s)|destruct (run r e w s)]; try discriminate; try (inversion E; subst; eauto; fail);
      (destruct Qk as [Qk|(Pt & Pe & Qk)]; [elim (quiet_stays _ Qk _ _ _ _ _ E)|specialize (T Pt); specialize (U Pe); subst; apply (IHk Qk _ _ _ _ _ E)]).
Qed.
Lemma prefixed_left p : forall g, prefixed p g -> forall r w s w' s', run r g w s = LLeft W w' s' -> s' = s \/ emitb p s = Ok tt s'.
Proof.
  induction g as [| |c k IH|e k IH|v k IH|c t IHt e IHe k IHk]; intros Q r w s w' s' E; cbn [l_exec prefixed] in *; try discriminate.
  - destruct Q as [-> Q]. cbn [run_call] in E. destruct (emitb p s) as [[] s1|]; [|discriminate]. right. f_equal. symmetry. apply (clean_left _ Q _ _ _ _ _ E).
  - destruct (l_eval W ev r e w) as [[v|] w1]; [apply (IH _ (Q v) _ _ _ _ _ E)|left; congruence].
  - apply (IH Q _ _ _ _ _ E).
  - destruct Q as (Qt & Qe & Qk). destruct (run_cond none r c) as [b r']. specialize (IHt Qt r' w s). specialize (IHe Qe r w s).
    destruct b; [destruct (run r' t w s)|destruct (run r e w s)]; try discriminate; try (inversion E; subst; eauto; fail); elim (quiet_stays _ Qk _ _ _ _ _ E).
Qed.
End Run.

(** ** The expansions *)
Lemma clean_reg g k : (forall x, clean (k x)) -> clean (e_reg g k). Proof. intro H. destruct g; cbn; auto. Qed.
Lemma clean_rm x k : (forall x, clean (k x)) -> clean (e_rm x k).
Proof.
  intro H. destruct x as [g|[b sc d]]; cbn [e_rm]; [cbn; auto|]. apply clean_reg. intro b'. cbn [ia_disp ia_scale].
  assert (S : forall d', clean (e_scale sc (fun sc => k (GRmInd (mkInd b' sc d'))))) by (intro d'; destruct sc; cbn [e_scale]; [auto|apply clean_reg; auto]).
  destruct d; cbn [e_disp]; [apply S|intro v; apply S|apply S].
Qed.
Lemma quiet_clean : forall g, quiet g -> clean g.
Proof. induction g; cbn; intuition. Qed.
Lemma clean_call c k : quiet k -> clean (e_call c k).
Proof. intro Q. destruct c; cbn [e_call]; cbv zeta; try exact Q; try (apply clean_rm; intro; exact Q); try (intro v; cbn [clean]; try apply clean_rm; intros; exact Q). Qed.
Arguments e_rm : simpl never.
Arguments e_call : simpl never.
Ltac ops :=
  repeat match goal with
  | z : opsize |- _ => destruct z
  | z : option opsize |- _ => destruct z
  | a : rm_operand |- _ => destruct a
  | a : rmi_operand |- _ => destruct a
  | a : ri_operand |- _ => destruct a
  | a : xm_operand |- _ => destruct a
  | a : mov_operand |- _ => destruct a
  | a : dest |- _ => destruct a
  end.
Ltac shape :=
  repeat first
  [ exact Logic.I
  | match goal with
    | |- clean (e_call _ _) => apply clean_call
    | |- prefixed ?p (e_call (GEmitb ?q) ?k) => change (GEmitb q = GEmitb p /\ clean k)
    | |- quiet (e_call _ ?k) => change (quiet k)
    | |- clean (e_rm _ _) => apply clean_rm; intro
    | |- clean (EEval _ _) => intro
    | |- clean (EImm _ _) => change (clean (EImm ?v ?k)) with (clean k)
    | |- prefixed _ (EEval _ _) => intro
    | |- _ \/ _ => first [left; repeat split; fail | right; repeat split; fail | left; split; shape | right]
    | |- _ /\ _ => split
    | |- forall _, _ => intro
    end
  | reflexivity
  | progress cbn [clean prefixed quiet pass e_code e_panic e_cond g1 g2 option_map] ].
Definition shaped (i : inst) (g : ecode) : Prop :=
  match prefix_of i with Some p => prefixed p g | None => clean g end.
Lemma compile_shape i g : e_compile i = Some g -> match i with IRoundpd _ _ _ => True | _ => shaped i g end.
Proof.
  intro H. unfold shaped.
  destruct i; try exact Logic.I; ops; cbn [e_compile message compile option_map movq movl movw movb binary_op binary_opq binary_opl binary_opw binary_opb shift_op divide_op push_pop count_op xchg testq testb binary_sd_op grm_of_rmi] in H;
    try (destruct (float_ok bits); cbn [option_map] in H); try discriminate H; injection H as <-; cbn [prefix_of word_prefix]; shape.
Qed.
