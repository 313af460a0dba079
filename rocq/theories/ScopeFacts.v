(** A block is its frozen block. *)
From Verif Require Import Base ModelMem ModelEnc ModelSyntax ModelMacro SpecX86 SpecAsm SpecTaken SpecState SpecHist SpecProg ProgBlock ProgSplit ProgExec MachRun SpecMachine SpecCpu BlockTaken SpecScope.
Local Notation length := List.length.
Local Open Scope Z_scope.

(** ** Freezing generated code *)
Section Code.
Variable ev : list tok -> env -> Z.
Definition fz_grm (r : env) (x : grm) : grm :=
  match x with GRmReg g => GRmReg (ELit (eval ev r g)) | GRmInd a => GRmInd (fz_mem (eval ev r) a) end.
Definition fz_call (r : env) (c : gcall) : gcall :=
  let v e := ELit (eval ev r e) in
  match c with
  | GEmitbExpr e => GEmitbExpr (v e)
  | GEncO op g => GEncO op (v g) | GEncOi op g => GEncOi op (v g) | GEncOiByte op g => GEncOiByte op (v g) | GEncRexwO op g => GEncRexwO op (v g)
  | GEncMi op x i => GEncMi op (fz_grm r x) i | GEncRexwMi op x i => GEncRexwMi op (fz_grm r x) i | GEncMiByte op x i => GEncMiByte op (fz_grm r x) i
  | GEncMr op g x => GEncMr op (v g) (fz_grm r x) | GEncMrByte op g x => GEncMrByte op (v g) (fz_grm r x) | GEncRexwMr op g x => GEncRexwMr op (v g) (fz_grm r x)
  | GEncMByte op x => GEncMByte op (fz_grm r x)
  | GEncDigit op x d => GEncDigit op (fz_grm r x) d
  | GEncDigitImm op x d i => GEncDigitImm op (fz_grm r x) d i
  | GEncDigitImmByte op al x d i => GEncDigitImmByte op al (fz_grm r x) d i
  | GEncRexwDigit op x d i => GEncRexwDigit op (fz_grm r x) d i
  | c => c
  end.
Definition fz_cond (r : env) (c : gcond) : gcond :=
  match c with CTry32Of e => CTry32Of (ELit (eval ev r e)) | CIsRax g => CIsRax (ELit (eval ev r g)) | CNotCl g => CNotCl (ELit (eval ev r g)) | c => c end.
Fixpoint fz_code (r : env) (g : gcode) : gcode :=
  match g with
  | GNil => GNil | GPanic => GPanic
  | GDo c k => GDo (fz_call r c) (fz_code r k)
  | GLetImm e k => GLetImm (ELit (eval ev r e)) (fz_code (env_set "imm" (i64 (eval ev r e)) r) k)
  | GIf c t e k => GIf (fz_cond r c) (fz_code (snd (run_cond ev r c)) t) (fz_code r e) (fz_code r k)
  end.
Variable ev' : list tok -> env -> Z.
Variable lenv : string -> label.
Lemma run_rm_fz r q x : run_rm ev' lenv q (fz_grm r x) = run_rm ev lenv r x.
Proof.
  destruct x as [g|[b sc d]]; [reflexivity|]. cbn [fz_grm run_rm fz_mem ia_base ia_scale ia_disp].
  unfold run_reg. f_equal.
  - f_equal. destruct b; reflexivity.
  - destruct d; reflexivity.
  - destruct sc as [|k [n|e]]; reflexivity.
Qed.
Lemma run_imm_fz r q i : (gimm_uses i = true -> the_imm q = the_imm r) -> run_imm q i = run_imm r i.
Proof. destruct i; cbn; intro H; rewrite ?H by reflexivity; reflexivity. Qed.
Lemma run_call_fz r q c s : (call_imm c = true -> the_imm q = the_imm r) -> run_call ev' lenv q (fz_call r c) s = run_call ev lenv r c s.
Proof.
  intro H. destruct c; cbn [fz_call run_call call_imm] in *; rewrite ?H by reflexivity; rewrite ?run_rm_fz, ?(run_imm_fz r q _ H); reflexivity.
Qed.
Lemma run_cond_fz r q c : (cond_imm c = true -> the_imm q = the_imm r) ->
  fst (run_cond ev' q (fz_cond r c)) = fst (run_cond ev r c) /\
  (match c with CTry32Of _ => True | _ => the_imm q = the_imm r end -> the_imm (snd (run_cond ev' q (fz_cond r c))) = the_imm (snd (run_cond ev r c))).
Proof. intro H. destruct c; cbn [fz_cond run_cond fst snd cond_imm] in *; rewrite ?H by reflexivity; split; auto. Qed.
(** The same outcome. *)
Definition same_res (x y : res env) : Prop :=
  match x, y with Ok a s, Ok b t => s = t | Panic e s, Panic f t => e = f /\ s = t | _, _ => False end.
Lemma exec_fz : forall g b r q s, sets_first b g = true -> (b = true -> the_imm q = the_imm r) -> same_res (exec ev lenv r g s) (exec ev' lenv q (fz_code r g) s).
Proof.
  induction g as [|c k IH|e k IH|c t IHt e IHe k IH|]; intros b r q s F H; cbn [fz_code exec sets_first] in *.
  - reflexivity.
  - apply andb_true_iff in F. destruct F as [F1 F2]. unfold bind.
    assert (Hc : call_imm c = true -> the_imm q = the_imm r) by (intro Hc; apply H; rewrite Hc in F1; destruct b; [reflexivity|discriminate F1]).
    rewrite (run_call_fz r q c s Hc). destruct (run_call ev lenv r c s) as [u s1|x s1]; [apply (IH b); assumption|split; reflexivity].
  - apply (IH true); [exact F|]. intros _. reflexivity.
  - apply andb_true_iff in F. destruct F as [F F4]. apply andb_true_iff in F. destruct F as [F F3]. apply andb_true_iff in F. destruct F as [F1 F2].
    assert (Hc : cond_imm c = true -> the_imm q = the_imm r) by (intro Hc; apply H; rewrite Hc in F1; destruct b; [reflexivity|discriminate F1]).
    destruct (run_cond_fz r q c Hc) as [H1 H2]. unfold bind.
    assert (E : same_res ((let '(b, r') := run_cond ev r c in if b then exec ev lenv r' t else exec ev lenv r e) s)
      ((let '(b, q') := run_cond ev' q (fz_cond r c) in if b then exec ev' lenv q' (fz_code (snd (run_cond ev r c)) t) else exec ev' lenv q (fz_code r e)) s)).
    { destruct (run_cond ev r c) as [x r'], (run_cond ev' q (fz_cond r c)) as [x' q']. cbn [fst snd] in *. subst x'.
      destruct x; [|apply (IHe b); assumption]. apply (IHt (match c with CTry32Of _ => true | _ => b end)); [exact F2|].
      intro Hb. apply H2. destruct c; auto. }
    destruct ((let '(b, r') := run_cond ev r c in if b then exec ev lenv r' t else exec ev lenv r e) s) as [a s1|x s1],
      ((let '(b, q') := run_cond ev' q (fz_cond r c) in if b then exec ev' lenv q' (fz_code (snd (run_cond ev r c)) t) else exec ev' lenv q (fz_code r e)) s) as [a' s2|y s2]; cbn [same_res] in E; try contradiction.
    + subst s2. apply (IH b); assumption.
    + destruct E. subst. split; reflexivity.
  - split; reflexivity.
Qed.
End Code.

(** ** Freezing a statement freezes its code *)
Section Stmt.
Variable ev : list tok -> env -> Z.
Lemma greg_fz (v : expr -> Z) g : (forall n, v (ELit n) = n) -> greg_of (fz_reg v g) = ELit (v (greg_of g)).
Proof. intro H. destruct g; cbn; [rewrite H|]; reflexivity. Qed.
Lemma compile_fz r i : compile (frozen1 ev r i) = option_map (fz_code ev r) (compile i).
Proof.
  assert (G : forall q g, greg_of (fz_reg (eval ev q) g) = ELit (eval ev q (greg_of g))) by (intros; apply greg_fz; reflexivity).
  unfold frozen1, scope_after.
  destruct i; cbn [own_imm fz_inst compile]; 
  repeat match goal with
  | |- context [own_imm] => progress cbn [own_imm]
  | x : mov_operand |- _ => destruct x
  | x : rm_operand |- _ => destruct x
  | x : rmi_operand |- _ => destruct x
  | x : ri_operand |- _ => destruct x
  | x : xm_operand |- _ => destruct x
  | x : opsize |- _ => destruct x
  | x : option opsize |- _ => destruct x
  | x : dest |- _ => destruct x
  end;
  try (destruct (float_ok bits));
  try reflexivity;
  cbn; unfold fz_grm, fz_imm, fz_xmm; rewrite ?G; reflexivity.
Qed.
Lemma exec_env lenv : forall r i g s r' s', compile i = Some g -> exec ev lenv r g s = Ok r' s' -> r' = scope_after ev r i.
Proof.
  assert (N : forall g r s r' s', (fix nolet (g : gcode) : bool := match g with GLetImm _ _ => false | GDo _ k => nolet k | GIf _ _ _ k => nolet k | _ => true end) g = true ->
    exec ev lenv r g s = Ok r' s' -> r' = r).
  { induction g as [|c k IH|e k IH|c t IHt e IHe k IH|]; intros r s r' s' H E; cbn [exec] in E.
    - inversion E; reflexivity.
    - unfold bind in E. destruct (run_call ev lenv r c s) as [u s1|]; [eapply IH; eassumption|discriminate].
    - discriminate.
    - unfold bind in E. destruct ((let '(b, r1) := run_cond ev r c in if b then exec ev lenv r1 t else exec ev lenv r e) s) as [u s1|]; [eapply IH; eassumption|discriminate].
    - discriminate. }
  intros r i g s r' s' Hc E. unfold scope_after.
  destruct i; cbn [compile own_imm] in *;
  repeat match goal with
  | x : mov_operand |- _ => destruct x
  | x : rm_operand |- _ => destruct x
  | x : rmi_operand |- _ => destruct x
  | x : ri_operand |- _ => destruct x
  | x : xm_operand |- _ => destruct x
  | x : opsize |- _ => destruct x
  | x : option opsize |- _ => destruct x
  | x : dest |- _ => destruct x
  end; try (destruct (float_ok bits)); try discriminate Hc; injection Hc as <-;
  first [ apply N in E; [exact E|reflexivity]
        | match type of E with exec _ _ ?r0 ?g0 _ = _ =>
            let g1 := eval cbn in g0 in
            match g1 with GLetImm ?e ?k => change (exec ev lenv (env_set "imm" (i64 (eval ev r0 e)) r0) k s = Ok r' s') in E end end;
          apply N in E; [exact E|reflexivity] ].
Qed.
End Stmt.

(** ** Blocks *)
Section Blocks.
Variables (ev ev' : list tok -> env -> Z) (lenv : string -> label).
Lemma compile_all_fz : forall body r, match compile_all body, compile_all (frozen ev r body) with Some _, Some _ | None, None => True | _, _ => False end.
Proof.
  induction body as [|i b IH]; intro r; cbn [frozen compile_all]; [exact I|]. rewrite compile_fz. specialize (IH (scope_after ev r i)).
  destruct (compile i); cbn [option_map]; [|exact I]. destruct (compile_all b), (compile_all (frozen ev (scope_after ev r i) b)); auto.
Qed.
Lemma exec_all_fz : forall body r q gs fs s, compile_all body = Some gs -> compile_all (frozen ev r body) = Some fs -> same_res (exec_all ev lenv r gs s) (exec_all ev' lenv q fs s).
Proof.
  induction body as [|i b IH]; intros r q gs fs s Hg Hf; cbn [frozen compile_all] in *.
  - injection Hg as <-. injection Hf as <-. reflexivity.
  - rewrite compile_fz in Hf. destruct (compile i) as [g|] eqn:Ei; [|discriminate]. cbn [option_map] in Hf.
    destruct (compile_all b) as [gs'|]; [|discriminate]. injection Hg as <-.
    destruct (compile_all (frozen ev (scope_after ev r i) b)) as [fs'|] eqn:Ef; [|discriminate]. injection Hf as <-.
    cbn [exec_all]. unfold bind.
    pose proof (exec_fz ev ev' lenv g false r q s (compile_sets i g Ei) ltac:(discriminate)) as E.
    destruct (exec ev lenv r g s) as [r1 s1|x s1] eqn:E1, (exec ev' lenv q (fz_code ev r g) s) as [q1 s2|y s2]; cbn [same_res] in E; try contradiction.
    + subst s2. rewrite (exec_env ev lenv r i g s r1 s1 Ei E1). eapply IH; [reflexivity|exact Ef].
    + destruct E. subst. split; reflexivity.
Qed.
End Blocks.
Theorem block_frozen ev ev' lenv r q body s : step (OAsm ev lenv r body) s = step (OAsm ev' lenv q (frozen ev r body)) s.
Proof.
  cbn [step]. pose proof (compile_all_fz ev body r) as C. destruct (compile_all body) as [gs|] eqn:G, (compile_all (frozen ev r body)) as [fs|] eqn:F; try contradiction.
  - unfold bind. pose proof (exec_all_fz ev ev' lenv body r q gs fs s G F) as E.
    destruct (exec_all ev lenv r gs s), (exec_all ev' lenv q fs s); cbn [same_res] in E; try contradiction; [subst|destruct E; subst]; reflexivity.
  - reflexivity.
Qed.
Lemma frozen_app ev : forall a r b, frozen ev r (a ++ b) = frozen ev r a ++ frozen ev (scope_after_all ev r a) b.
Proof. induction a as [|i a IH]; intros r b; cbn; [reflexivity|]. rewrite IH. reflexivity. Qed.
Lemma compile_all_app : forall a b, compile_all (a ++ b) = match compile_all a, compile_all b with Some x, Some y => Some (x ++ y) | _, _ => None end.
Proof.
  induction a as [|i a IH]; intro b; cbn [app compile_all]; [destruct (compile_all b); reflexivity|]. rewrite IH.
  destruct (compile i); [|reflexivity]. destruct (compile_all a), (compile_all b); reflexivity.
Qed.
Lemma exec_all_app ev lenv : forall a b r s, exec_all ev lenv r (a ++ b) s = bind (exec_all ev lenv r a) (fun q => exec_all ev lenv q b) s.
Proof. induction a as [|g a IH]; intros b r s; cbn [app exec_all]; [reflexivity|]. unfold bind. destruct (exec ev lenv r g s); [apply IH|reflexivity]. Qed.
Lemma exec_all_env ev lenv : forall body r gs s q s1, compile_all body = Some gs -> exec_all ev lenv r gs s = Ok q s1 -> q = scope_after_all ev r body.
Proof.
  induction body as [|i b IH]; intros r gs s q s1 Hg E; cbn [compile_all scope_after_all] in *.
  - injection Hg as <-. injection E as <- _. reflexivity.
  - destruct (compile i) as [g|] eqn:Ei; [|discriminate]. destruct (compile_all b) as [gs'|]; [|discriminate]. injection Hg as <-. cbn [exec_all] in E. unfold bind in E.
    destruct (exec ev lenv r g s) as [r1 s2|] eqn:E1; [|discriminate]. rewrite (exec_env ev lenv r i g s r1 s2 Ei E1) in E. eapply IH; [reflexivity|exact E].
Qed.
(** A block in two: the second part sees the variables the first leaves. *)
Theorem block_two ev lenv r a b s : compile_all (a ++ b) <> None ->
  step (OAsm ev lenv r (a ++ b)) s = bind (step (OAsm ev lenv r a)) (fun _ => step (OAsm ev lenv (scope_after_all ev r a) b)) s.
Proof.
  intro H. cbn [step]. rewrite compile_all_app in *. destruct (compile_all a) as [x|] eqn:A; [|contradiction]. destruct (compile_all b) as [y|]; [|contradiction].
  unfold bind at 1. rewrite exec_all_app. unfold bind. destruct (exec_all ev lenv r x s) as [q s1|] eqn:E; [|reflexivity].
  rewrite (exec_all_env ev lenv a r x s q s1 A E). reflexivity.
Qed.
