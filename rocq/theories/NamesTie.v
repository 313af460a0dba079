(** Expressions that do not mention the names the expansion takes other than imm: ModelFlow and ModelMacro. *)
From Verif Require Import Base ModelMem ModelEnc ModelSyntax ModelMacro ModelEff ModelLeave ModelFlow ModelNames SpecX86 SpecAsm SpecTaken SpecState SpecHist SpecProg SpecScope ScopeFacts ScopeBlock SpecNames NamesFacts PosFacts.
Local Open Scope list_scope.
Local Open Scope Z_scope.

Local Notation hidden3 := ["op1"; "op2"; "rm_op"]%string.
Lemma same_val_refl v : same_val v v. Proof. left. reflexivity. Qed.
Lemma alike_refl xs r : alike xs r r.
Proof. intros x _. destruct (String.eqb x "imm"); [apply same_val_refl|reflexivity]. Qed.
Lemma alike_sym xs r r' : alike xs r r' -> alike xs r' r.
Proof. intros H x Hx. specialize (H x Hx). destruct (String.eqb x "imm"); [|congruence]. destruct H as [H|(n & m & v & H1 & H2)]; [left; congruence|right; exists m, n, v; auto]. Qed.
Lemma alike_set r r' n m v : alike hidden3 r r' -> alike hidden3 (n_set "imm" (VInt n v) r) (n_set "imm" (VInt m v) r').
Proof. intros H x Hx. specialize (H x Hx). unfold n_set. destruct (String.eqb x "imm"); [right; exists n, m, v; auto|exact H]. Qed.
Lemma alike_hide r r' y v : In y hidden3 -> alike hidden3 r r' -> alike hidden3 (n_set y v r) r'.
Proof. intros Hy H x Hx. specialize (H x Hx). unfold n_set. destruct (String.eqb_spec x y); [subst; contradiction|exact H]. Qed.
Lemma alike_again r r' n v : alike hidden3 (n_set "imm" (VInt n v) r) r' -> forall m, alike hidden3 (n_set "imm" (VInt m v) (n_set "imm" (VInt n v) r)) r'.
Proof.
  intros H m x Hx. specialize (H x Hx). unfold n_set in *. destruct (String.eqb x "imm"); [|exact H].
  destruct H as [H|(a & b & u & H1 & H2)]; [right; exists m, n, v; auto|]. injection H1 as <- <-. right. exists m, b, v. auto.
Qed.

Section Pure.
Variable pev : list tok -> nenv -> Z.
Definition blind3 (e : expr) : Prop := mentions_no_rm (fun r => nval pev r e).
Definition blind5 (e : expr) : Prop := mentions_none (fun r => nval pev r e).
Lemma own_blind3 i e : own_imm i = Some e -> Forall blind3 (stmt_exprs i) -> blind3 e.
Proof.
  intros H F. rewrite Forall_forall in F. apply F. clear F. unfold stmt_exprs. apply in_or_app. right.
  destruct i; operands; try discriminate H; injection H as <-; cbn; auto.
Qed.
Lemma let_alike r r' e : blind3 e -> alike hidden3 r r' -> alike hidden3 (let_imm pev r e) (let_imm pev r' e).
Proof. intros B A. unfold let_imm. rewrite (B r r' A). apply alike_set, A. Qed.
Lemma after_alike r r' i : Forall blind3 (stmt_exprs i) -> alike hidden3 r r' -> alike hidden3 (n_after pev r i) (i_after pev r' i).
Proof.
  intros F A. assert (D : alike hidden3 (match own_imm i with Some e => let_imm pev r e | None => r end) (i_after pev r' i)).
  { unfold i_after. destruct (own_imm i) as [e|] eqn:E; [|exact A]. apply let_alike; [eapply own_blind3; eassumption|exact A]. }
  destruct i; try exact D. destruct a, b; try exact D; cbn [n_after]; unfold let_rm; apply alike_hide; try exact D; cbn; auto.
Qed.
Lemma inner_alike r r' i : Forall blind3 (stmt_exprs i) -> alike hidden3 r r' -> alike hidden3 (n_inner pev r i) (i_after pev r' i).
Proof.
  intros F A. pose proof (after_alike r r' i F A) as AA.
  assert (D : alike hidden3 (match own_imm i with Some e => let v := i64 (nval pev r e) in let b := imm_bits i v in if b =? 64 then let_imm pev r e else n_set "imm" (VInt b v) (let_imm pev r e) | None => r end) (i_after pev r' i)).
  { unfold i_after. destruct (own_imm i) as [e|] eqn:E; [|exact A]. assert (L : alike hidden3 (let_imm pev r e) (let_imm pev r' e)) by (apply let_alike; [eapply own_blind3; eassumption|exact A]).
    cbv zeta. destruct (imm_bits i _ =? 64); [exact L|]. unfold let_imm at 1. apply alike_again, L. }
  destruct i; try exact D. destruct a, b; try exact D; exact AA.
Qed.
Lemma frozen1_alike r r' i : Forall blind3 (stmt_exprs i) -> alike hidden3 r r' -> n_frozen1 pev r i = fz_inst (nval pev r') (nval pev (i_after pev r' i)) i.
Proof.
  intros F A. pose proof (inner_alike r r' i F A) as AI. pose proof (after_alike r r' i F A) as AA. rewrite Forall_forall in F.
  assert (D : fz_inst (nval pev r) (nval pev (n_inner pev r i)) i = fz_inst (nval pev r') (nval pev (i_after pev r' i)) i).
  { apply fz_ext. intros e He. split; apply (F e He); assumption. }
  assert (R : forall g, (forall e, In e (reg_exprs g) -> blind3 e) -> fz_reg (nval pev r) g = fz_reg (nval pev r') g).
  { intros g Hg. destruct g; [reflexivity|]. cbn. rewrite (Hg e (or_introl eq_refl) r r' A). reflexivity. }
  destruct i; try exact D. destruct a, b; try exact D; cbn [n_frozen1 fz_inst fz_mov i_after own_imm]; unfold fz_xmm;
  match goal with |- context [fz_reg _ ?g] => rewrite (R g) by (intros e' He'; apply F; destruct g; [destruct He'|]; cbn in *; intuition) end;
  match goal with |- context [nval _ (n_after _ _ _) ?x] => rewrite (F x ltac:(cbn; rewrite ?in_app_iff; cbn; auto) _ _ AA) end; reflexivity.
Qed.
Lemma n_i_frozen : forall body r r', Forall (fun i => Forall blind3 (stmt_exprs i)) body -> alike hidden3 r r' -> n_frozen pev r body = i_frozen pev r' body.
Proof.
  induction body as [|i b IH]; intros r r' F A; [reflexivity|]. inversion F as [|? ? F1 F2]; subst. cbn [n_frozen i_frozen].
  rewrite (frozen1_alike r r' i F1 A). f_equal. apply IH; [exact F2|]. apply after_alike; assumption.
Qed.
Definition erased (r0 : nenv) : list tok -> env -> Z := fun ts q => pev ts (only_imm r0 q).
Definition holds (r0 r : nenv) (q : env) : Prop := alike hidden3 r (only_imm r0 q) /\ the_imm q = the_imm (ints r).
Lemma erased_eval r0 q e : eval (erased r0) q e = nval pev (only_imm r0 q) e. Proof. destruct e; reflexivity. Qed.
Lemma i64_not v : i64 v =? 2 ^ 64 = false. Proof. apply Z.eqb_neq. pose proof (proj1 (i64_range v)). lia. Qed.
Lemma holds_let r0 r q n v : v =? 2 ^ 64 = false -> holds r0 r q -> holds r0 (n_set "imm" (VInt n v) r) (env_set "imm" v q).
Proof.
  intros Hv [A I]. split; [|reflexivity]. unfold only_imm in *. change (env_set "imm" v q "imm"%string) with v. rewrite Hv.
  destruct (q "imm"%string =? 2 ^ 64).
  - apply alike_set, A.
  - intros x Hx. specialize (A x Hx). unfold n_set in *. destruct (String.eqb x "imm"); [right; exists n, 64, v; auto|exact A].
Qed.
Lemma holds_hide r0 r q y v : In y hidden3 -> holds r0 r q -> holds r0 (n_set y v r) q.
Proof.
  intros Hy [A I]. split; [apply alike_hide; assumption|]. rewrite I. unfold the_imm, ints, n_set.
  destruct (String.eqb_spec "imm" y) as [<-|]; [|reflexivity]. cbn in Hy. intuition discriminate.
Qed.
Lemma holds_start r : holds r r (ints r).
Proof.
  split; [|reflexivity]. unfold only_imm. destruct (Z.eqb_spec (ints r "imm"%string) (2 ^ 64)) as [E|E]; [apply alike_refl|].
  intros x _. unfold n_set. destruct (String.eqb_spec x "imm") as [->|]; [|reflexivity]. unfold ints in *. destruct (r "imm"%string) as [n v| | |]; try contradiction. right. exists n, 64, v. auto.
Qed.
Lemma i_frozen_frozen r0 : forall body r q, Forall (fun i => Forall blind3 (stmt_exprs i)) body -> holds r0 r q -> i_frozen pev r body = frozen (erased r0) q body.
Proof.
  induction body as [|i b IH]; intros r q F H; [reflexivity|]. inversion F as [|? ? F1 F2]; subst. cbn [i_frozen frozen]. unfold frozen1.
  assert (S : holds r0 (i_after pev r i) (scope_after (erased r0) q i)).
  { unfold i_after, scope_after. destruct (own_imm i) as [e|] eqn:E; [|exact H]. rewrite erased_eval. rewrite <- (own_blind3 i e E F1 r _ (proj1 H)). unfold let_imm. apply holds_let; [apply i64_not|exact H]. }
  f_equal; [|apply IH; assumption]. apply fz_ext. intros e He. rewrite !erased_eval. rewrite Forall_forall in F1. split; apply (F1 e He); [apply H|apply S].
Qed.
Lemma n_frozen_frozen r body : Forall (fun i => Forall blind3 (stmt_exprs i)) body -> n_frozen pev r body = frozen (erased r) (ints r) body.
Proof.
  intro F. rewrite (n_i_frozen body _ r F) by apply alike_refl. apply i_frozen_frozen; [exact F|apply holds_start].
Qed.
Lemma blind5_3 e : blind5 e -> blind3 e.
Proof. 
  intros B r r' A. apply B. intros x Hx. assert (N : ~ In x hidden3) by (intro; apply Hx; cbn in *; intuition). specialize (A x N).
  destruct (String.eqb_spec x "imm"); [subst; elim Hx; cbn; auto|exact A].
Qed.
Lemma n_frozen_own : forall body r r0, Forall (fun i => Forall blind5 (stmt_exprs i)) body -> (forall x, ~ In x taken -> r x = r0 x) -> n_frozen pev r body = map (fz_inst (nval pev r0) (nval pev r0)) body.
Proof.
  induction body as [|i b IH]; intros r r0 F H; [reflexivity|]. inversion F as [|? ? F1 F2]; subst. cbn [n_frozen map].
  rewrite (IH _ r0 F2) by (intros x Hx; rewrite (proj1 (other_names pev x Hx i r)); apply H, Hx). f_equal.
  rewrite (frozen1_alike r r i) by first [apply alike_refl|eapply Forall_impl; [apply blind5_3|exact F1]].
  apply fz_ext. rewrite Forall_forall in F1. intros e He. split; apply (F1 e He); [exact H|]. intros x Hx. unfold i_after. destruct (own_imm i); [|apply H, Hx].
  unfold let_imm, n_set. destruct (String.eqb_spec x "imm"); [subst; elim Hx; cbn; auto|apply H, Hx].
Qed.
End Pure.

Section Flow.
Variable W : Type.
Variable ev : list tok -> nenv -> W * jit -> option Z * (W * jit).
Variable lenv : string -> label.
Variable r0 : nenv.
Definition erased_x : list tok -> env -> W * jit -> option Z * (W * jit) := fun ts q x => ev ts (only_imm r0 q) x.
Definition good (e : expr) : Prop := forall x, mentions_no_rm (fun r => n_eval W ev r e x).
Lemma good_lit v : good (ELit v). Proof. intros x r r' _. reflexivity. Qed.
Lemma good_eval r q e x : good e -> holds r0 r q -> n_eval W ev r e x = f_eval W erased_x q e x.
Proof. intros G [A _]. rewrite (G x r _ A). destruct e; reflexivity. Qed.
Fixpoint goods (g : ecode) : Prop :=
  match g with
  | ENil | EPanic => True
  | EDo _ k => goods k
  | EEval e k => good e /\ forall v, goods (k v)
  | EImm _ k => goods k
  | EIf _ t e k => goods t /\ goods e /\ goods k
  end.
Lemma run_call_none q q' c s : the_imm q = the_imm q' -> run_call none lenv q c s = run_call none lenv q' c s.
Proof.
  intro H. assert (I : forall i, run_imm q i = run_imm q' i) by (intro i; destruct i; cbn; rewrite ?H; reflexivity).
  assert (E : forall e, eval none q e = eval none q' e) by (intro e; destruct e; reflexivity).
  assert (M : forall x, run_rm none lenv q x = run_rm none lenv q' x).
  { intro x. destruct x as [g|[b sc d]]; cbn; [unfold run_reg; rewrite E; reflexivity|]. destruct b, sc as [|? [|]], d; reflexivity. }
  destruct c; cbn [run_call]; unfold run_reg; rewrite ?H, ?I, ?E, ?M; reflexivity.
Qed.
Lemma run_cond_none q q' c : the_imm q = the_imm q' -> fst (run_cond none q c) = fst (run_cond none q' c).
Proof.
  intro H. assert (E : forall e, eval none q e = eval none q' e) by (intro e; destruct e; reflexivity).
  destruct c; cbn [run_cond fst]; unfold run_reg; rewrite ?H, ?E; reflexivity.
Qed.
Lemma narrow_holds r q c : holds r0 r q -> fst (run_cond none q c) = true -> holds r0 (narrow c r) (snd (run_cond none q c)).
Proof.
  intros [A I] T. assert (X : forall n, the_imm q <> 2 ^ 64 -> holds r0 (n_set "imm" (VInt n (ints r "imm"%string)) r) q).
  { intros n Hn. split; [|exact I]. change (ints r "imm"%string) with (the_imm (ints r)). rewrite <- I. intros x Hx. specialize (A x Hx). unfold n_set. destruct (String.eqb x "imm") eqn:Ex; [|exact A]. apply String.eqb_eq in Ex. subst x.
    unfold only_imm. destruct (Z.eqb_spec (q "imm"%string) (2 ^ 64)); [contradiction|]. unfold n_set. cbn. right. exists n, 64, (q "imm"%string). auto. }
  destruct c; cbn [run_cond fst snd narrow] in *; try (split; assumption).
  - apply X. unfold in_i8 in T. lia.
  - apply X. unfold in_i16 in T. lia.
  - apply X. unfold in_i32 in T. lia.
  - replace (eval none (ints r) e) with (eval none q e) by (destruct e; reflexivity). apply holds_let; [apply i64_not|split; assumption].
Qed.
(** The same end, in scopes of the same names. *)
Definition tied (x : nres W) (y : lres W) : Prop :=
  ends_as x y /\ match x, y with NOk _ r _, LOk _ q _ _ => holds r0 r q | _, _ => True end.
Lemma code_tied : forall g r q x, goods g -> holds r0 r q -> tied (n_ecode W ev lenv r g x) (f_exec W erased_x lenv q g x).
Proof.
  induction g as [| |c k IH|e k IH|v k IH|c t IHt e IHe k IH]; intros r q [w s] G H; cbn [n_ecode f_exec fst snd]; cbn [goods] in G.
  - split; [cbn; auto|exact H].
  - split; cbn; auto.
  - unfold n_do. cbn [fst snd]. rewrite (run_call_none (ints r) q c s) by (symmetry; apply H). destruct (run_call none lenv q c s); [apply IH; assumption|split; cbn; auto].
  - rewrite (good_eval r q e (w, s) (proj1 G) H). destruct (f_eval W erased_x q e (w, s)) as [[v|] [w1 s1]]; [apply IH; [apply G|exact H]|split; cbn; auto].
  - apply IH; [exact G|]. apply holds_let; [apply i64_not|exact H].
  - destruct G as (Gt & Ge & Gk). rewrite (run_cond_none (ints r) q c) by (symmetry; apply H). pose proof (narrow_holds r q c H) as N.
    destruct (run_cond none q c) as [b q']. cbn [fst snd] in *.
    assert (B : tied (if b then n_ecode W ev lenv (narrow c r) t (w, s) else n_ecode W ev lenv r e (w, s)) (if b then f_exec W erased_x lenv q' t (w, s) else f_exec W erased_x lenv q e (w, s))).
    { destruct b; [apply IHt; [exact Gt|apply N; reflexivity]|apply IHe; assumption]. }
    destruct (if b then n_ecode W ev lenv (narrow c r) t (w, s) else n_ecode W ev lenv r e (w, s)) as [r1 [w1 s1]|f [w1 s1]|[w1 s1]],
             (if b then f_exec W erased_x lenv q' t (w, s) else f_exec W erased_x lenv q e (w, s)) as [q1 w2 s2|f2 w2 s2|w2 s2]; destruct B as [B _]; cbn [ends_as] in B; try contradiction.
    + destruct B as [-> ->]. apply IH; assumption.
    + split; [exact B|exact I].
    + split; [exact B|exact I].
Qed.
(** Generated code evaluates expressions of its statement only. *)
Lemma goods_reg g k : Forall good (reg_exprs g) -> (forall g', goods (k g')) -> goods (e_reg g k).
Proof. intros F K. destruct g; cbn [e_reg goods]; [apply K|]. split; [inversion F; assumption|intro; apply K]. Qed.
Lemma goods_mem a k : Forall good (mem_exprs a) -> (forall x, goods (k x)) -> goods (e_rm (GRmInd a) k).
Proof.
  intros F K. destruct a as [b sc d]. unfold mem_exprs in F. cbn [ia_base ia_scale ia_disp] in F. apply Forall_app in F. destruct F as [F1 F]. apply Forall_app in F. destruct F as [F2 F3].
  cbn [e_rm ia_base ia_scale ia_disp]. apply goods_reg; [exact F1|]. intro b'.
  assert (S : forall d', goods (e_scale sc (fun sc => k (GRmInd (mkInd b' sc d'))))) by (intro d'; destruct sc; cbn [e_scale]; [apply K|apply goods_reg; [exact F2|intro; apply K]]).
  destruct d; cbn [e_disp]; try apply S. cbn [goods]. split; [inversion F3; assumption|intro; apply S].
Qed.
Lemma goods_rm x k : Forall good (match x with GRmReg g => [g] | GRmInd a => mem_exprs a end) -> (forall x, goods (k x)) -> goods (e_rm x k).
Proof. intros F K. destruct x; [cbn; split; [inversion F; assumption|intro; apply K]|apply goods_mem; assumption]. Qed.
Definition call_exprs (c : gcall) : list expr :=
  let m x := match x with GRmReg g => [g] | GRmInd a => mem_exprs a end in
  match c with
  | GEmitbExpr e => [e]
  | GEncO _ g | GEncOi _ g | GEncOiByte _ g | GEncRexwO _ g => [g]
  | GEncMi _ x _ | GEncRexwMi _ x _ | GEncMiByte _ x _ | GEncMByte _ x | GEncDigit _ x _ | GEncDigitImm _ x _ _ | GEncDigitImmByte _ _ x _ _ | GEncRexwDigit _ x _ _ => m x
  | GEncMr _ g x | GEncMrByte _ g x | GEncRexwMr _ g x => g :: m x
  | _ => []
  end.
Fixpoint code_exprs (g : gcode) : list expr :=
  match g with
  | GNil | GPanic => []
  | GDo c k => call_exprs c ++ code_exprs k
  | GLetImm e k => e :: code_exprs k
  | GIf c t e k => match c with CTry32Of e | CIsRax e | CNotCl e => [e] | _ => [] end ++ code_exprs t ++ code_exprs e ++ code_exprs k
  end.
Lemma goods_code m : Forall good (match m with Some e => [e] | None => [] end) -> forall g, Forall good (code_exprs g) -> goods (e_code m g).
Proof.
  intro Fm. induction g as [|c k IH|e k IH|c t IHt e IHe k IH|]; intro F; cbn [e_code code_exprs] in *; [exact I| | | |].
  - apply Forall_app in F. destruct F as [F1 F2]. specialize (IH F2).
    destruct c; cbn [e_call call_exprs] in *; try exact IH;
    try (apply goods_rm; [exact F1|intro; exact IH]);
    try (cbn [goods]; inversion F1; subst; split; [assumption|intro; first [exact IH|apply goods_rm; [assumption|intro; exact IH]]]).
  - inversion F; subst. cbn [goods]. split; [assumption|intro; apply IH; assumption].
  - apply Forall_app in F. destruct F as [F1 F]. apply Forall_app in F. destruct F as [F2 F]. apply Forall_app in F. destruct F as [F3 F4].
    assert (K : forall c, goods (EIf c (e_code m t) (e_code m e) (e_code m k))) by (intro; cbn [goods]; auto).
    destruct c; cbn [e_cond]; try apply K; cbn [goods]; inversion F1; subst; split; auto.
  - destruct m; [|exact I]. cbn [e_panic goods]. inversion Fm; auto.
Qed.
Lemma greg_good g : Forall good (reg_exprs g) -> good (greg_of g).
Proof. destruct g; cbn; intro F; [apply good_lit|inversion F; assumption]. Qed.
Lemma stmt_code i g : compile i = Some g -> Forall good (stmt_exprs i) -> Forall good (code_exprs g).
Proof.
  intros H F. assert (L : forall g, In (greg_of g) (reg_exprs g) \/ exists n, greg_of g = ELit n) by (intro x; destruct x; cbn; eauto).
  rewrite Forall_forall in *. intros e He.
  assert (D : In e (stmt_exprs i) \/ exists n, e = ELit n); [|destruct D as [D|(n & ->)]; [apply F, D|apply good_lit]].
  clear F. unfold stmt_exprs.
  destruct i; operands; cbn in H; try (destruct (float_ok bits)); try discriminate H; injection H as <-; cbn -[greg_of In] in He |- *;
  repeat match goal with x : register |- _ => destruct x end; cbn -[mem_exprs] in He |- *; rewrite ?app_nil_r, ?in_app_iff in *; cbn [In] in *; rewrite ?in_app_iff in *; cbn [In] in *; intuition (subst; eauto 7).
Qed.
Lemma message_good i : Forall good (stmt_exprs i) -> Forall good (match message i with Some e => [e] | None => [] end).
Proof.
  intro F. assert (G : forall e, In e (stmt_exprs i) -> good e) by (rewrite Forall_forall in F; exact F). clear F.
  assert (R : forall g, (forall e, In e (reg_exprs g) -> good e) -> good (greg_of g)) by (intros x Hx; apply greg_good; rewrite Forall_forall; exact Hx).
  destruct i; operands; cbn [message]; try (destruct z); repeat constructor; try (apply R; intros e0 He); apply G; cbn; rewrite ?in_app_iff; cbn; auto.
Qed.
Lemma stmt_tied i n g r q x : n_compile i = Some n -> e_compile i = Some g -> Forall good (stmt_exprs i) -> holds r0 r q -> tied (n_exec W ev lenv r n x) (f_exec W erased_x lenv q g x).
Proof.
  intros Hn Hg F H.
  assert (G : forall e, In e (stmt_exprs i) -> good e) by (rewrite Forall_forall in F; exact F).
  destruct (special i) eqn:Es.
  - assert (X : forall x g o y x0, good x -> good (greg_of g) -> In y hidden3 -> tied
      (n_exec W ev lenv r (NEval (greg_of g) (fun v => NLet y v (NDo (GEmitb 0x66) (NEval x (fun u => NMr [0x0f; o] u y (NCode ENil)))))) x0)
      (f_exec W erased_x lenv q (EEval (greg_of g) (fun v => EDo (GEmitb 0x66) (EEval x (fun u => EDo (GEncRexwMr [0x0f; o] (ELit u) (GRmReg (ELit v))) ENil)))) x0)).
    { clear - H. intros x g o y x0 Gx Gg Hy. cbn [n_exec f_exec]. rewrite (good_eval r q _ x0 Gg H). destruct (f_eval W erased_x q (greg_of g) x0) as [[v|] [w1 s1]]; [|split; cbn; auto].
      cbn [n_exec]. pose proof (holds_hide r0 r q y (VRm (rm_reg (reg_from v))) Hy H) as H1. set (r1 := n_set y (VRm (rm_reg (reg_from v))) r) in *. unfold n_do. cbn [fst snd].
      rewrite (run_call_none (ints r1) q _ s1) by (symmetry; apply H1). destruct (run_call none lenv q (GEmitb 102) s1) as [[] s2|f s2]; [|split; cbn; auto].
      rewrite (good_eval r1 q x _ Gx H1). destruct (f_eval W erased_x q x (w1, s2)) as [[u|] [w3 s3]]; [|split; cbn; auto]. cbn [n_exec].
      assert (L : r1 y = VRm (rm_reg (reg_from v))) by (unfold r1, n_set; rewrite String.eqb_refl; reflexivity). rewrite L. unfold n_do. cbn [fst snd run_call run_rm run_reg]. unfold run_reg. cbn [eval].
      destruct (enc_rexw_mr [15; o] (reg_from u) (rm_reg (reg_from v)) s3) as [[] s4|f s4]; split; cbn; auto. }
    destruct i; try discriminate Es. destruct a as [| | |], b as [| | |]; try discriminate Es; operands; cbn in Hn, Hg; try discriminate Hn; injection Hn as <-; injection Hg as <-.
    all: try (apply X; [apply G|apply greg_good; rewrite Forall_forall; intros e' He'; apply G|]; cbn; rewrite ?in_app_iff; cbn; auto; fail).
    all: assert (Ge : good e) by (apply G; cbn; rewrite ?in_app_iff; cbn; auto);
      assert (Gg : good (greg_of r1)) by (apply greg_good; rewrite Forall_forall; intros e' He'; apply G; cbn; rewrite ?in_app_iff; auto);
      cbn [n_exec f_exec]; rewrite (good_eval r q e x Ge H); destruct (f_eval W erased_x q e x) as [[v|] [w1 s1]]; [|split; cbn; auto]; cbn [n_exec f_exec];
      pose proof (holds_let r0 r q 64 (i64 v) (i64_not v) H) as H1; rewrite (good_eval _ _ _ (w1, s1) Gg H1); destruct (f_eval W erased_x (env_set "imm" (i64 v) q) (greg_of r1) (w1, s1)) as [[u|] [w2 s2]]; [|split; cbn; auto];
      apply (code_tied (EEval (greg_of r1) (fun v => EDo (GEncRexwO 184 (ELit v)) (EDo GEmitqImm ENil)))); [split; [exact Gg|intro; exact I]|apply holds_hide; [cbn; auto|exact H1]].
  - assert (N : exists g0, compile i = Some g0 /\ n = NCode (e_code (message i) g0) /\ g = e_code (message i) g0).
    { destruct i; operands; try discriminate Es; unfold n_compile in Hn; cbn [e_compile option_map] in Hn, Hg;
        match type of Hn with option_map NCode (option_map (e_code _) ?c) = _ => destruct c eqn:Ec; [|discriminate Hn]; injection Hn as <-; injection Hg as <-; eauto
        | _ => try discriminate Hn; injection Hn as <-; injection Hg as <-; eexists; split; [reflexivity|split; reflexivity] end. }
    destruct N as (g0 & Ec & -> & ->). cbn [n_exec]. apply code_tied; [|exact H]. apply goods_code; [apply message_good, F|]. eapply stmt_code; eassumption.
Qed.
Lemma block_tied : forall body hid ns r q x, n_compile_all hid body = Some ns -> Forall (fun i => Forall good (stmt_exprs i)) body -> holds r0 r q ->
  exists gs, e_compile_all body = Some gs /\ tied (n_exec_all W ev lenv r ns x) (f_exec_all W erased_x lenv q gs x).
Proof.
  induction body as [|i b IH]; intros hid ns r q [w s] Hn F H; cbn [n_compile_all e_compile_all] in *.
  - injection Hn as <-. exists []. split; [reflexivity|]. split; [cbn; auto|exact H].
  - destruct (compile i) as [g0|] eqn:Ec; [|discriminate]. destruct (n_compile i) as [n|] eqn:En; [|discriminate]. destruct (n_compile_all (declares i ++ hid) b) as [ns'|] eqn:Eb; [|discriminate].
    destruct (idents_ok hid g0); [|discriminate]. injection Hn as <-. inversion F as [|? ? F1 F2]; subst.
    assert (Eg : exists g, e_compile i = Some g). { destruct i; operands; cbn in Ec |- *; try (destruct (float_ok bits)); try discriminate Ec; cbn; eauto. }
    destruct Eg as (g & Eg). rewrite Eg. pose proof (stmt_tied i n g r q (w, s) En Eg F1 H) as T.
    destruct (n_exec W ev lenv r n (w, s)) as [r1 [w1 s1]|f [w1 s1]|[w1 s1]] eqn:E1, (f_exec W erased_x lenv q g (w, s)) as [q1 w2 s2|f2 w2 s2|w2 s2] eqn:E2; destruct T as [T1 T2]; cbn [ends_as] in T1; try contradiction.
    + destruct T1 as [-> ->]. destruct (IH _ ns' r1 q1 (w2, s2) Eb F2 T2) as (gs & E3 & T3). rewrite E3. exists (g :: gs). split; [reflexivity|].
      cbn [n_exec_all f_exec_all]. rewrite E1, E2. exact T3.
    + destruct (IH _ ns' r q (w, s) Eb F2 H) as (gs & E3 & _). rewrite E3. exists (g :: gs). split; [reflexivity|]. cbn [n_exec_all f_exec_all]. rewrite E1, E2. split; [exact T1|exact I].
    + destruct (IH _ ns' r q (w, s) Eb F2 H) as (gs & E3 & _). rewrite E3. exists (g :: gs). split; [reflexivity|]. cbn [n_exec_all f_exec_all]. rewrite E1, E2. split; [exact T1|exact I].
Qed.
End Flow.

(** ** In terms of the earlier models *)
Theorem names_flow W ev lenv evb base r body (w : W) : n_compile_all ["jit"%string] body <> None -> Forall (fun i => Forall (good W ev) (stmt_exprs i)) body ->
  let r1 := n_set "jit" VJit r in let '(w1, s) := evb base r w in exists x, n_macro W ev lenv evb base r body w = Some x /\
    ends_as x (f_block W (fun ts q => ev ts (only_imm r1 q)) lenv (ints r1) body w1 s).
Proof.
  intros H F r1. destruct (evb base r w) as [w1 s] eqn:Eb. unfold n_macro. rewrite Eb. fold r1. destruct (n_compile_all ["jit"%string] body) as [ns|] eqn:En; [|contradiction].
  eexists. split; [reflexivity|]. destruct (block_tied W ev lenv r1 body _ ns r1 (ints r1) (w1, s) En F (holds_start r1)) as (gs & Eg & T1 & _).
  unfold f_block. rewrite Eg. exact T1.
Qed.
Theorem names_asm W pev lenv evb base r body (w : W) : n_compile_all ["jit"%string] body <> None -> Forall (fun i => Forall (blind3 pev) (stmt_exprs i)) body ->
  let r1 := n_set "jit" VJit r in let '(w1, s) := evb base r w in exists x, n_macro W (pure W pev) lenv evb base r body w = Some x /\
    ends x w1 (step (OAsm (fun ts q => pev ts (only_imm r1 q)) lenv (ints r1) body) s).
Proof.
  intros H F r1. pose proof (names_frozen W pev lenv evb base r body w H) as N. cbv zeta in N. destruct (evb base r w) as [w1 s]. destruct N as (_ & x & E & N).
  exists x. split; [exact E|]. rewrite n_frozen_frozen in N by exact F. change (fun ts q => pev ts (only_imm r1 q)) with (erased pev r1).
  rewrite (block_frozen (erased pev r1) none lenv (ints r1) (ints r1)). apply N.
Qed.
Theorem names_own W pev lenv evb base r body (w : W) : n_compile_all ["jit"%string] body <> None -> Forall (fun i => Forall (blind5 pev) (stmt_exprs i)) body ->
  let '(w1, s) := evb base r w in exists x, n_macro W (pure W pev) lenv evb base r body w = Some x /\
    forall ev' q, ends x w1 (step (OAsm ev' lenv q (map (fz_inst (nval pev r) (nval pev r)) body)) s).
Proof.
  intros H F. pose proof (names_frozen W pev lenv evb base r body w H) as N. cbv zeta in N. destruct (evb base r w) as [w1 s]. destruct N as (_ & x & E & N).
  exists x. split; [exact E|]. rewrite (n_frozen_own pev body _ r F) in N; [exact N|].
  intros y Hy. unfold n_set. destruct (String.eqb_spec y "jit"); [subst; elim Hy; cbn; auto|reflexivity].
Qed.
