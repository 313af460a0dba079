(** Expressions without effects, and callers that record what is evaluated. *)
From Verif Require Import Base ModelMem ModelEnc ModelSyntax ModelMacro ModelEff SpecX86 SpecAsm SpecState SpecHist SpecProg SpecScope ScopeFacts ScopeBlock SpecEff EffStmt EffFacts.
From Coq Require Import Permutation.
Local Notation length := List.length.
Local Open Scope list_scope.
Local Open Scope Z_scope.

Section Pure.
Variable W : Type.
Variable ev : list tok -> env -> W -> Z * W.
Variable ev0 : list tok -> env -> Z.
Hypothesis P : forall ts r w, ev ts r w = (ev0 ts r, w).
Variable lenv : string -> label.
Lemma pure_value r e w : value W ev r e w = (eval ev0 r e, w).
Proof. destruct e; [reflexivity|]. apply P. Qed.
Lemma pure_reg r g w : v_reg W ev r g w = (fz_reg (eval ev0 r) g, w).
Proof. destruct g; [reflexivity|]. cbn [v_reg]. acts2. rewrite pure_value. reflexivity. Qed.
Lemma pure_mem r a w : v_mem W ev r a w = (fz_mem (eval ev0 r) a, w).
Proof.
  destruct a as [b sc d]. unfold v_mem. cbn [ia_base ia_disp ia_scale]. acts2. rewrite pure_reg.
  assert (D : v_disp W ev r d w = (fz_disp (eval ev0 r) d, w)) by (destruct d; try reflexivity; cbn [v_disp]; acts2; rewrite pure_value; reflexivity).
  rewrite D. assert (C : v_scale W ev r sc w = (fz_scale (eval ev0 r) sc, w)) by (destruct sc; [reflexivity|]; cbn [v_scale]; acts2; rewrite pure_reg; reflexivity).
  rewrite C. reflexivity.
Qed.
Lemma pure_inst r i w : compile i <> None -> v_inst W ev r i w = (frozen1 ev0 r i, scope_after ev0 r i, w).
Proof.
  intro C. unfold frozen1. destruct i; split_operands; try (exfalso; apply C; reflexivity); clear C; unfold v_inst; acts2; cbn [scope_after own_imm];
  repeat match goal with
  | |- context [v_reg W ev ?r ?g ?w] => rewrite (pure_reg r g w)
  | |- context [v_mem W ev ?r ?g ?w] => rewrite (pure_mem r g w)
  | |- context [value W ev ?r ?g ?w] => rewrite (pure_value r g w)
  end; reflexivity.
Qed.
Lemma pure_body : forall body r w, compile_all body <> None -> v_body W ev r body w = (frozen ev0 r body, w).
Proof.
  induction body as [|i b IH]; intros r w C; [reflexivity|]. cbn [v_body frozen compile_all] in *. unfold andthen, into.
  destruct (compile i) eqn:Ei; [|contradiction]. destruct (compile_all b) eqn:Eb; [|contradiction].
  rewrite pure_inst by congruence. cbn [fst snd]. unfold andthen, yields. rewrite IH by discriminate. reflexivity.
Qed.
Definition pure_res (w : W) (x : res env) : eres W := match x with Ok q s1 => EOk W q w s1 | Panic e s1 => EFail W e w s1 end.
Lemma pure_call r c k w s : e_exec W ev lenv r (e_call c k) w s = match run_call ev0 lenv r c s with Ok _ s1 => e_exec W ev lenv r k w s1 | Panic e s1 => EFail W e w s1 end.
Proof.
  assert (E : forall g f, (forall x, run_call none lenv r (f (ELit (eval ev0 r g))) x = run_call ev0 lenv r (f g) x) ->
    e_exec W ev lenv r (EEval g (fun v => EDo (f (ELit v)) k)) w s = match run_call ev0 lenv r (f g) s with Ok _ s1 => e_exec W ev lenv r k w s1 | Panic e s1 => EFail W e w s1 end).
  { intros g f H. rewrite run_eval, pure_value, run_do, H. reflexivity. }
  assert (M : forall x f, e_exec W ev lenv r (e_rm x f) w s = e_exec W ev lenv r (f (fz_grm ev0 r x)) w s).
  { intros x f. destruct x; [rewrite run_rmreg, pure_value|rewrite run_mem_e, pure_mem]; reflexivity. }
  assert (R : forall x, run_rm none lenv r (fz_grm ev0 r x) = run_rm ev0 lenv r x) by (intro; apply run_rm_fz).
  destruct c; cbn [e_call];
  first [ reflexivity
        | apply (E r0 (GEncO op)); reflexivity
        | apply E; reflexivity
        | rewrite M, run_do; cbn [run_call]; rewrite R; reflexivity
        | rewrite run_eval, pure_value, M, run_do; cbn [run_call]; rewrite R; reflexivity
        | idtac ].
Qed.
Lemma pure_code m : forall g r w s, e_exec W ev lenv r (e_code m g) w s = pure_res w (exec ev0 lenv r g s).
Proof.
  induction g as [|c k IH|e k IH|c t IHt e IHe k IH|]; intros r w s; cbn [e_code exec].
  - reflexivity.
  - rewrite pure_call. unfold bind. destruct (run_call ev0 lenv r c s); [apply IH|reflexivity].
  - rewrite run_eval, pure_value. apply IH.
  - assert (C : e_exec W ev lenv r (e_cond c (fun c => EIf c (e_code m t) (e_code m e) (e_code m k))) w s =
      let (b, r') := run_cond ev0 r c in match (if b then e_exec W ev lenv r' (e_code m t) w s else e_exec W ev lenv r (e_code m e) w s) with EOk _ _ w1 s1 => e_exec W ev lenv r (e_code m k) w1 s1 | f => f end).
    { destruct c; cbn [e_cond]; rewrite ?run_eval, ?pure_value; reflexivity. }
    rewrite C. unfold bind. destruct (run_cond ev0 r c) as [b r']. destruct b; [rewrite IHt; destruct (exec ev0 lenv r' t s)|rewrite IHe; destruct (exec ev0 lenv r e s)]; cbn [pure_res]; try reflexivity; apply IH.
  - destruct m; cbn [e_panic]; rewrite ?run_eval, ?pure_value; reflexivity.
Qed.
Lemma pure_compile i : match e_compile i, compile i with
  | Some g, Some g' => forall r w s, e_exec W ev lenv r g w s = pure_res w (exec ev0 lenv r g' s) | None, None => True | _, _ => False end.
Proof.
  assert (D : match option_map (e_code (message i)) (compile i), compile i with
    | Some g, Some g' => forall r w s, e_exec W ev lenv r g w s = pure_res w (exec ev0 lenv r g' s) | None, None => True | _, _ => False end).
  { destruct (compile i); cbn [option_map]; [intros; apply pure_code|exact I]. }
  assert (I : forall v k r w s, e_exec W ev lenv r (EImm v k) w s = e_exec W ev lenv (env_set "imm" (i64 v) r) k w s) by reflexivity.
  destruct i; try exact D. destruct a, b; try exact D; try (destruct size as [[]|]; try exact D); cbn [e_compile compile movq]; intros r0 w s; clear D.
  all: rewrite ?run_eval, ?pure_value, ?I, ?run_eval, ?pure_value.
  all: try (rewrite pure_code; reflexivity).
  all: rewrite run_do; unfold g2; cbn [exec]; unfold bind; change (run_call none lenv r0 (GEmitb 102) s) with (run_call ev0 lenv r0 (GEmitb 102) s);
    destruct (run_call ev0 lenv r0 (GEmitb 102) s) as [u s1|x s1]; [|reflexivity]; rewrite run_eval, pure_value, run_do.
  all: unfold g1; cbn [exec]; unfold bind; cbn [run_call run_rm]; unfold run_reg; cbn [eval]; match goal with |- match ?m with _ => _ end = _ => destruct m; reflexivity end.
Qed.
Lemma pure_compile_all : forall body, match e_compile_all body, compile_all body with
  | Some gs, Some gs' => forall r w s, e_exec_all W ev lenv r gs w s = pure_res w (exec_all ev0 lenv r gs' s) | None, None => True | _, _ => False end.
Proof.
  induction body as [|i b IH]; cbn [e_compile_all compile_all]; [reflexivity|].
  pose proof (pure_compile i) as C. destruct (e_compile i), (compile i); try contradiction; [|exact I].
  destruct (e_compile_all b), (compile_all b); try contradiction; [|exact I]. intros r w s. cbn [e_exec_all exec_all]. unfold bind. rewrite C.
  destruct (exec ev0 lenv r g s); cbn [pure_res]; [apply IH|reflexivity].
Qed.
(** A block whose expressions have no effect is the block of ModelMacro. *)
Theorem block_pure r body w s : match e_block W ev lenv r body w s with
  | EOk _ _ w1 s1 => step (OAsm ev0 lenv r body) s = Ok None s1 /\ w1 = w
  | EFail _ e w1 s1 => step (OAsm ev0 lenv r body) s = Panic e s1 /\ w1 = w
  end.
Proof.
  unfold e_block. cbn [step]. pose proof (pure_compile_all body) as C. destruct (e_compile_all body), (compile_all body); try contradiction; [|split; reflexivity].
  rewrite C. unfold bind. destruct (exec_all ev0 lenv r l0 s); split; reflexivity.
Qed.
End Pure.
Lemma e_accepts body : e_compile_all body <> None <-> compile_all body <> None.
Proof.
  pose proof (pure_compile_all unit (fun _ _ w => (0, w)) (fun _ _ => 0) (fun _ _ _ => eq_refl) (fun _ => 0%nat) body) as C.
  destruct (e_compile_all body), (compile_all body); try contradiction; split; congruence.
Qed.

(** ** Counting *)
Section Counting.
Variable ev0 : list tok -> env -> Z.
Notation W := (list (list tok)).
Notation ev := (recording ev0).
Definition tw (e : expr) : W := match e with ELit _ => [] | EToks ts => [ts] end.
Definition tw_reg (g : register) : W := match g with RReg _ => [] | RExpr e => tw e end.
Definition tw_mem (a : ind_addr) : W := flat_map tw (mem_exprs a).
Lemma rec_value r e w : value W ev r e w = (eval ev0 r e, w ++ tw e).
Proof. destruct e; [cbn; rewrite app_nil_r|]; reflexivity. Qed.
Lemma rec_reg r g w : v_reg W ev r g w = (fz_reg (eval ev0 r) g, w ++ tw_reg g).
Proof. destruct g; [cbn; rewrite app_nil_r; reflexivity|]. cbn [v_reg]. acts2. rewrite rec_value. reflexivity. Qed.
Lemma rec_mem r a w : exists w', v_mem W ev r a w = (fz_mem (eval ev0 r) a, w ++ w') /\ Permutation w' (tw_mem a).
Proof.
  destruct a as [b sc d]. unfold v_mem. cbn [ia_base ia_disp ia_scale]. acts2. rewrite rec_reg.
  assert (D : forall w, v_disp W ev r d w = (fz_disp (eval ev0 r) d, w ++ match d with PExpr _ e => tw e | _ => [] end)).
  { intro w1. destruct d; cbn [v_disp]; acts2; rewrite ?rec_value, ?app_nil_r; reflexivity. }
  rewrite D.
  assert (C : forall w, v_scale W ev r sc w = (fz_scale (eval ev0 r) sc, w ++ match sc with PS1 _ g => tw_reg g | _ => [] end)).
  { intro w1. destruct sc; cbn [v_scale]; acts2; rewrite ?rec_reg, ?app_nil_r; reflexivity. }
  rewrite C. rewrite <- !app_assoc. eexists. split; [reflexivity|]. unfold tw_mem, mem_exprs. cbn [ia_base ia_disp ia_scale]. rewrite !flat_map_app.
  destruct b, sc as [|k [n1|e1]], d; cbn; rewrite ?app_nil_r; try reflexivity; try apply Permutation_app_comm.
  all: rewrite ?app_nil_r; try apply Permutation_app_head; try apply Permutation_app_comm; try reflexivity.
Qed.
Lemma written_parts i : written i = flat_map tw_reg (regs_of i) ++ flat_map tw (xmms_of i) ++ flat_map tw_mem (mems_of i) ++ flat_map tw (imm_exprs i).
Proof.
  assert (F : forall A (f : A -> list expr) l, flat_map tw (flat_map f l) = flat_map (fun a => flat_map tw (f a)) l).
  { intros A f l. induction l; [reflexivity|]. cbn [flat_map]. rewrite flat_map_app, IHl. reflexivity. }
  unfold written, stmt_exprs, addr_exprs. change (fun e => match e with ELit _ => [] | EToks ts => [ts] end) with tw.
  rewrite !flat_map_app, !F, <- !app_assoc. f_equal. apply flat_map_ext. intros [n|e]; cbn; [|rewrite app_nil_r]; reflexivity.
Qed.
Lemma rec_inst r i w : Permutation (snd (v_inst W ev r i w)) (w ++ written i).
Proof.
  rewrite written_parts.
  destruct i; split_operands; unfold v_inst; acts2; cbn [regs_of xmms_of mems_of imm_exprs];
  repeat match goal with
  | |- context [v_reg W ev ?r ?g ?w] => rewrite (rec_reg r g w)
  | |- context [v_mem W ev ?r ?g ?w] => let w' := fresh "w'" in let E := fresh in let Q := fresh "Q" in destruct (rec_mem r g w) as (w' & E & Q); rewrite E; clear E
  | |- context [value W ev ?r ?g ?w] => rewrite (rec_value r g w)
  end; cbn; rewrite <- ?app_assoc, ?app_nil_r; try reflexivity;
  repeat match goal with Q : Permutation ?w' (tw_mem _) |- _ => rewrite Q; clear Q end;
  try reflexivity; apply Permutation_app_head; try reflexivity; apply Permutation_app_comm.
Qed.
Variable lenv : string -> label.
Lemma once_trace r i g w s q w1 s1 : evaluated_once i -> e_compile i = Some g -> e_exec W ev lenv r g w s = EOk W q w1 s1 -> Permutation w1 (w ++ written i).
Proof.
  intros O C E. destruct (statement_once W ev lenv r i g w O C) as (g' & _ & A). specialize (A s). rewrite E in A. destruct A as (_ & _ & ->). apply rec_inst.
Qed.
Theorem block_trace r body s q w1 s1 : Forall evaluated_once body -> e_block W ev lenv r body [] s = EOk W q w1 s1 -> Permutation w1 (flat_map written body).
Proof.
  intros F E. unfold e_block in E. destruct (e_compile_all body) as [gs|] eqn:C; [|discriminate].
  change (flat_map written body) with ([] ++ flat_map written body). generalize (@nil (list tok)) as w, E. clear E. intro w. revert r gs w s C.
  induction body as [|i b IH]; intros r gs w s C E; cbn [e_compile_all] in C.
  - injection C as <-. cbn in E. injection E as _ <- _. cbn. rewrite app_nil_r. reflexivity.
  - inversion F as [|? ? Fi Fb]; subst. destruct (e_compile i) as [g|] eqn:Ei; [|discriminate]. destruct (e_compile_all b) as [rest|] eqn:Eb; [|discriminate]. injection C as <-.
    cbn [e_exec_all] in E. destruct (e_exec W ev lenv r g w s) as [r2 w2 s2|] eqn:E1; [|discriminate].
    rewrite (IH Fb r2 rest w2 s2 eq_refl E). cbn [flat_map]. rewrite (once_trace r i g w s r2 w2 s2 Fi Ei E1), <- app_assoc. reflexivity.
Qed.
(** Every statement: what is evaluated is what is written. *)
Ltac fin2 E := repeat match type of E with
  | context [run_cond none ?r ?c] => let x := eval cbn -[in_i8 in_i32 the_imm] in (run_cond none r c) in change (run_cond none r c) with x in E
  | context [match run_call none lenv ?r ?c ?s with _ => _ end] => destruct (run_call none lenv r c s); [|discriminate E]
  | context [if ?b then _ else _] => destruct b
  | _ => progress (cbn -[run_call env_set run_cond e_rm tw] in E; try discriminate E)
  | _ => rewrite run_rmreg in E
  | context [e_eval ?W ?ev ?r ?e ?w] => change (e_eval W ev r e w) with (value W ev r e w) in E
  | context [value W ev _ (ELit _) _] => progress cbn [value] in E
  | context [value W ev _ _ _] => rewrite rec_value in E
  end.
Lemma used r i g w s q w1 s1 : e_compile i = Some g -> e_exec W ev lenv r g w s = EOk W q w1 s1 -> forall ts, In ts w1 <-> In ts w \/ In ts (written i).
Proof.
  intros C E ts.
  assert (O : evaluated_once i -> In ts w1 <-> In ts w \/ In ts (written i)).
  { intro O. rewrite <- in_app_iff. pose proof (once_trace r i g w s q w1 s1 O C E) as P. split; apply Permutation_in; [exact P|symmetry; exact P]. }
  destruct i; try (exact (O I)).
  - destruct a; try (exact (O I)). destruct b; try (exact (O I)). clear O. rewrite written_parts.
    destruct size as [[]|]; cbn in C; try discriminate C; injection C as <-; cbn -[run_call env_set] in E; fin2 E; injection E as _ <- _; destruct r0; cbn; rewrite ?in_app_iff; cbn; rewrite ?in_app_iff; cbn; tauto.
  - destruct a as [g1|]; try (exact (O I)). destruct b as [g2|]; try (exact (O I)). clear O. rewrite written_parts.
    destruct sz; cbn in C; try discriminate C; injection C as <-; cbn -[run_call env_set] in E; fin2 E; injection E as _ <- _; destruct g1, g2; cbn; rewrite ?in_app_iff; cbn; rewrite ?in_app_iff; cbn; tauto.
  - destruct a as [g1|]; try (exact (O I)). destruct b as [e|]; try (exact (O I)). clear O. rewrite written_parts.
    cbn in C; injection C as <-; cbn -[run_call env_set] in E; fin2 E; injection E as _ <- _; destruct g1; cbn; rewrite ?in_app_iff; cbn; rewrite ?in_app_iff; cbn; tauto.
  - destruct a as [g1|]; try (exact (O I)). destruct b as [e|]; try (exact (O I)). clear O. rewrite written_parts.
    cbn in C; injection C as <-; cbn -[run_call env_set] in E; fin2 E; injection E as _ <- _; destruct g1; cbn; rewrite ?in_app_iff; cbn; rewrite ?in_app_iff; cbn; tauto.
Qed.
Theorem block_used r body s q w1 s1 : e_block W ev lenv r body [] s = EOk W q w1 s1 -> forall ts, In ts w1 <-> In ts (flat_map written body).
Proof.
  intros E ts. unfold e_block in E. destruct (e_compile_all body) as [gs|] eqn:C; [|discriminate].
  assert (G : forall body r gs w s q w1 s1, e_compile_all body = Some gs -> e_exec_all W ev lenv r gs w s = EOk W q w1 s1 -> In ts w1 <-> In ts w \/ In ts (flat_map written body)).
  { clear. induction body as [|i b IH]; intros r gs w s q w1 s1 C E; cbn [e_compile_all] in C.
    - injection C as <-. cbn in E. injection E as _ <- _. cbn. tauto.
    - destruct (e_compile i) as [g|] eqn:Ei; [|discriminate]. destruct (e_compile_all b) as [rest|] eqn:Eb; [|discriminate]. injection C as <-.
      cbn [e_exec_all] in E. destruct (e_exec W ev lenv r g w s) as [r2 w2 s2|] eqn:E1; [|discriminate].
      rewrite (IH r2 rest w2 s2 q w1 s1 eq_refl E), (used r i g w s r2 w2 s2 Ei E1 ts). cbn [flat_map]. rewrite in_app_iff. tauto. }
  rewrite (G body r gs [] s q w1 s1 C E). cbn. tauto.
Qed.
End Counting.
