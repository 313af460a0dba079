(** The scope of the expansion with all its names and types. *)
From Verif Require Import Base ModelMem ModelEnc ModelSyntax ModelMacro ModelEff ModelNames SpecX86 SpecAsm SpecTaken SpecState SpecHist SpecProg SpecScope ScopeFacts EffStmt SpecNames.
Local Notation length := List.length.
Local Open Scope list_scope.
Local Open Scope Z_scope.

Ltac operands := repeat match goal with
  | x : mov_operand |- _ => destruct x
  | x : rm_operand |- _ => destruct x
  | x : rmi_operand |- _ => destruct x
  | x : ri_operand |- _ => destruct x
  | x : xm_operand |- _ => destruct x
  | x : opsize |- _ => destruct x
  | x : option opsize |- _ => destruct x
  | x : dest |- _ => destruct x
  end.

Section Pure.
Variable W : Type.
Variable pev : list tok -> nenv -> Z.
Variable lenv : string -> label.
Definition pure : list tok -> nenv -> W * jit -> option Z * (W * jit) := fun ts r x => (Some (pev ts r), x).
(** An evaluator of ModelMacro for one scope. *)
Definition at_scope (r : nenv) : list tok -> env -> Z := fun ts _ => pev ts r.
Lemma at_scope_eval r q e : eval (at_scope r) q e = nval pev r e. Proof. destruct e; reflexivity. Qed.
Lemma pure_neval r e x : n_eval W pure r e x = (Some (nval pev r e), x). Proof. destruct e; reflexivity. Qed.
Definition q0 : env := fun _ => 0.
Definition nz_call (r : nenv) (c : gcall) : gcall := fz_call (at_scope r) q0 c.
Definition nz_cond (r : nenv) (c : gcond) : gcond := fz_cond (at_scope r) q0 c.
Fixpoint nz_code (r : nenv) (g : gcode) : gcode :=
  match g with
  | GNil => GNil | GPanic => GPanic
  | GDo c k => GDo (nz_call r c) (nz_code r k)
  | GLetImm e k => GLetImm (ELit (nval pev r e)) (nz_code (let_imm pev r e) k)
  | GIf c t e k => GIf (nz_cond r c) (nz_code (narrow (nz_cond r c) r) t) (nz_code r e) (nz_code r k)
  end.
Lemma run_rm_n r (x : grm) f y : n_ecode W pure lenv r (e_rm x f) y = n_ecode W pure lenv r (f (fz_grm (at_scope r) q0 x)) y.
Proof.
  destruct x as [g|[b sc d]]; cbn [e_rm n_ecode fz_grm].
  - rewrite pure_neval, at_scope_eval. reflexivity.
  - cbn [ia_base ia_disp ia_scale fz_mem].
    assert (R : forall g k, n_ecode W pure lenv r (e_reg g k) y = n_ecode W pure lenv r (k (fz_reg (eval (at_scope r) q0) g)) y).
    { intros [n|e] k; [reflexivity|]. cbn [e_reg n_ecode fz_reg]. rewrite pure_neval, at_scope_eval. reflexivity. }
    rewrite R. assert (D : forall k, n_ecode W pure lenv r (e_disp d k) y = n_ecode W pure lenv r (k (fz_disp (eval (at_scope r) q0) d)) y).
    { intro k. destruct d; try reflexivity. cbn [e_disp n_ecode fz_disp]. rewrite pure_neval, at_scope_eval. reflexivity. }
    rewrite D. destruct sc as [|n g]; [reflexivity|]. cbn [e_scale]. rewrite R. reflexivity.
Qed.
Lemma run_call_n r c k x : n_ecode W pure lenv r (e_call c k) x = n_do W (run_call none lenv (ints r) (nz_call r c)) x (n_ecode W pure lenv r k).
Proof.
  unfold nz_call. destruct c; cbn [e_call fz_call];
  first [ reflexivity
        | rewrite run_rm_n; reflexivity
        | cbn [n_ecode]; rewrite pure_neval, at_scope_eval; reflexivity
        | cbn [n_ecode]; rewrite pure_neval, at_scope_eval, run_rm_n; reflexivity ].
Qed.
(** The same end, and imm the same number. *)
Definition agree (w : W) (x : nres W) (y : res env) : Prop :=
  match x, y with
  | NOk _ r (w1, s1), Ok q s2 => w1 = w /\ s1 = s2 /\ the_imm q = the_imm (ints r)
  | NFail _ e (w1, s1), Panic f s2 => w1 = w /\ e = f /\ s1 = s2
  | _, _ => False
  end.
Lemma run_call_lit r c q q' s : the_imm q = the_imm q' -> run_call none lenv q (nz_call r c) s = run_call none lenv q' (nz_call r c) s.
Proof.
  intro H. assert (I : forall i, run_imm q i = run_imm q' i) by (intro i; destruct i; cbn; rewrite ?H; reflexivity).
  unfold nz_call. destruct c; cbn [fz_call run_call]; rewrite ?H, ?I, ?(run_rm_fz (at_scope r) none lenv q0 q), ?(run_rm_fz (at_scope r) none lenv q0 q'); reflexivity.
Qed.
Lemma run_cond_lit r c q q' : the_imm q = the_imm q' -> fst (run_cond none q (nz_cond r c)) = fst (run_cond none q' (nz_cond r c)) /\
  the_imm (snd (run_cond none q (nz_cond r c))) = the_imm (snd (run_cond none q' (nz_cond r c))).
Proof. intro H. destruct c; cbn [nz_cond fz_cond run_cond fst snd]; rewrite ?H; split; auto. Qed.
Lemma narrow_imm r c : the_imm (snd (run_cond none (ints r) (nz_cond r c))) = the_imm (ints (narrow (nz_cond r c) r)).
Proof. destruct c; reflexivity. Qed.
Lemma code_n m : forall g r q w s, the_imm q = the_imm (ints r) -> agree w (n_ecode W pure lenv r (e_code m g) (w, s)) (exec none lenv q (nz_code r g) s).
Proof.
  induction g as [|c k IH|e k IH|c t IHt e IHe k IH|]; intros r q w s H; cbn [e_code nz_code exec].
  - cbn. auto.
  - rewrite run_call_n. unfold n_do, bind. cbn [fst snd]. rewrite (run_call_lit r c (ints r) q s) by congruence.
    destruct (run_call none lenv q (nz_call r c) s) as [u s1|f s1]; [apply IH, H|cbn; auto].
  - cbn [n_ecode]. rewrite pure_neval. apply IH. reflexivity.
  - assert (C : n_ecode W pure lenv r (e_cond c (fun c => EIf c (e_code m t) (e_code m e) (e_code m k))) (w, s) =
      n_ecode W pure lenv r (EIf (nz_cond r c) (e_code m t) (e_code m e) (e_code m k)) (w, s)).
    { destruct c; cbn [e_cond nz_cond fz_cond]; try reflexivity; cbn [n_ecode]; rewrite pure_neval, at_scope_eval; reflexivity. }
    rewrite C. cbn [n_ecode]. unfold bind. destruct (run_cond_lit r c q (ints r) H) as [H1 H2]. rewrite narrow_imm in H2.
    destruct (run_cond none q (nz_cond r c)) as [b q']. cbn [fst snd] in *. rewrite <- H1. destruct b.
    + specialize (IHt (narrow (nz_cond r c) r) q' w s H2).
      destruct (n_ecode W pure lenv (narrow (nz_cond r c) r) (e_code m t) (w, s)) as [r1 [w1 s1]|f [w1 s1]|[w1 s1]], (exec none lenv q' (nz_code (narrow (nz_cond r c) r) t) s) as [q1 s2|f2 s2]; cbn [agree] in *; try contradiction; [|assumption].
      destruct IHt as (-> & -> & _). apply IH, H.
    + specialize (IHe r q w s H).
      destruct (n_ecode W pure lenv r (e_code m e) (w, s)) as [r1 [w1 s1]|f [w1 s1]|[w1 s1]], (exec none lenv q (nz_code r e) s) as [q1 s2|f2 s2]; cbn [agree] in *; try contradiction; [|assumption].
      destruct IHe as (-> & -> & _). apply IH, H.
  - destruct m; cbn [e_panic n_ecode]; rewrite ?pure_neval; cbn; auto.
Qed.
(** Only the branch that is taken matters. *)
Lemma greg_n r g : greg_of (fz_reg (nval pev r) g) = ELit (nval pev r (greg_of g)).
Proof. destruct g; reflexivity. Qed.
Definition nz_rm (r : nenv) (x : grm) : grm := match x with GRmReg g => GRmReg (ELit (nval pev r g)) | GRmInd a => GRmInd (fz_mem (nval pev r) a) end.
Definition special (i : inst) : bool :=
  match i with IMovq (MovXmm _) (MovReg _) | IMovq (MovReg _) (MovImm _ _) | IMovq (MovReg _) (MovXmm _) => true | _ => false end.
Lemma fz_sat v : forall g, greg_of (fz_reg v g) = match g with RReg n => ELit n | RExpr e => ELit (v e) end. Proof. destruct g; reflexivity. Qed.
Lemma stmt_n r i : special i = false -> match compile i, compile (n_frozen1 pev r i) with
  | Some g, Some g' => forall q s, exec none lenv q (nz_code r g) s = exec none lenv q g' s
  | None, None => True | _, _ => False end.
Proof.
  intro Hs.
  assert (G : forall q g, greg_of (fz_reg (nval pev q) g) = ELit (nval pev q (greg_of g))) by (intros; apply greg_n).
  destruct (own_imm i) as [e|] eqn:Ei.
  2:{ destruct i; operands; try discriminate Hs; try discriminate Ei; clear Hs Ei; unfold n_frozen1, n_inner; cbn [own_imm fz_inst compile]; try exact I;
      try (destruct (float_ok bits); [|exact I]);
      cbn -[exec nz_code fz_reg fz_mem fz_imm greg_of]; try exact I; intros q s;
      (match goal with |- exec _ _ _ (nz_code r ?g1) _ = exec _ _ _ ?g2 _ => replace (nz_code r g1) with g2; [reflexivity|] end);
      cbn -[fz_reg fz_mem greg_of]; change (eval (at_scope r) q0) with (nval pev r); unfold fz_imm, fz_xmm; rewrite ?G; reflexivity. }
  destruct i; operands; try discriminate Hs; try discriminate Ei; injection Ei as ->; clear Hs; unfold n_frozen1, n_inner; cbn [own_imm fz_inst compile]; try exact I;
    cbn -[exec nz_code fz_reg fz_mem greg_of imm_bits let_imm i64 Z.eqb]; try exact I; intros q s; cbn [nz_code exec nz_cond fz_cond narrow run_cond];
    unfold imm_bits, arith_bits, fz_imm; cbn [eval];
    repeat match goal with |- context [the_imm (env_set "imm" ?v ?q1)] => change (the_imm (env_set "imm" v q1)) with v end.
  all: try change (ints (let_imm pev r e) "imm"%string) with (i64 (nval pev r e)).
  all: repeat match goal with
    | |- context [if in_i8 ?x then _ else _] => destruct (in_i8 x)
    | |- context [if in_i16 ?x then _ else _] => destruct (in_i16 x)
    | |- context [if in_i32 ?x then _ else _] => destruct (in_i32 x)
    | |- context [if i64 ?x =? 1 then _ else _] => destruct (i64 x =? 1)
    end; cbn [Z.eqb Pos.eqb]; try reflexivity.
  all: unfold nz_call; cbn -[fz_reg fz_mem greg_of let_imm exec run_call n_set i64]; cbn [fz_call];
    repeat match goal with |- context [eval (at_scope ?X) q0] => change (eval (at_scope X) q0) with (nval pev X) end; unfold fz_imm; rewrite ?G; try reflexivity.
Qed.
Lemma ecode_env m : forall g r x r1 x1, code_declares g = [] -> n_ecode W pure lenv r (e_code m g) x = NOk W r1 x1 -> r1 = r.
Proof.
  induction g as [|c k IH|e k IH|c t IHt e IHe k IH|]; intros r x r1 x1 D E; cbn [e_code code_declares] in *.
  - cbn in E. injection E as <- _. reflexivity.
  - rewrite run_call_n in E. unfold n_do in E. destruct (run_call none lenv (ints r) (nz_call r c) (snd x)); [eapply IH; eassumption|discriminate].
  - discriminate D.
  - assert (C : n_ecode W pure lenv r (e_cond c (fun c => EIf c (e_code m t) (e_code m e) (e_code m k))) x =
      n_ecode W pure lenv r (EIf (nz_cond r c) (e_code m t) (e_code m e) (e_code m k)) x).
    { destruct c; cbn [e_cond nz_cond fz_cond]; try reflexivity; cbn [n_ecode]; rewrite pure_neval, at_scope_eval; reflexivity. }
    rewrite C in E. cbn [n_ecode] in E.
    destruct (if fst (run_cond none (ints r) (nz_cond r c)) then n_ecode W pure lenv (narrow (nz_cond r c) r) (e_code m t) x else n_ecode W pure lenv r (e_code m e) x); try discriminate.
    eapply IH; eassumption.
  - destruct m; cbn [e_panic n_ecode] in E; rewrite ?pure_neval in E; discriminate E.
Qed.
(** One statement. *)
Definition follow (w : W) (r' : nenv) (x : nres W) (y : res env) : Prop := agree w x y /\ match x with NOk _ r1 _ => r1 = r' | _ => True end.
Lemma plain_n r i n : special i = false -> n_compile i = Some n -> exists g', compile (n_frozen1 pev r i) = Some g' /\
  forall q w s, the_imm q = the_imm (ints r) -> follow w (n_after pev r i) (n_exec W pure lenv r n (w, s)) (exec none lenv q g' s).
Proof.
  intros Hs Hn. pose proof (stmt_n r i Hs) as S.
  assert (N : exists g, compile i = Some g /\ n = NCode (e_code (message i) g)).
  { destruct i; operands; try discriminate Hs; unfold n_compile in Hn; cbn [e_compile option_map] in Hn; 
      match type of Hn with option_map NCode (option_map (e_code _) ?c) = _ => destruct c eqn:Ec; [|discriminate Hn]; injection Hn as <-; eauto | _ => try discriminate Hn; injection Hn as <-; eexists; split; [reflexivity|reflexivity] end. }
  destruct N as (g & Eg & ->). rewrite Eg in S. destruct (compile (n_frozen1 pev r i)) as [g'|]; [|contradiction]. exists g'. split; [reflexivity|].
  intros q w s H. rewrite <- S. cbn [n_exec]. pose proof (code_n (message i) g r q w s H) as A. split; [exact A|].
  destruct (n_ecode W pure lenv r (e_code (message i) g) (w, s)) as [r1 x1| |] eqn:E; auto. clear A S.
  assert (X : (code_declares g = [] /\ n_after pev r i = r) \/ exists e k, g = GLetImm e k /\ code_declares k = [] /\ n_after pev r i = let_imm pev r e).
  { destruct i; operands; try discriminate Hs; cbn in Eg; try (destruct (float_ok bits)); try discriminate Eg; injection Eg as <-;
      first [left; split; reflexivity|right; eexists; eexists; split; [reflexivity|split; reflexivity]]. }
  destruct X as [[X1 X2]|(e & k & -> & X1 & X2)].
  - rewrite X2. eapply ecode_env; eassumption.
  - cbn [e_code n_ecode] in E. rewrite pure_neval in E. rewrite X2. eapply ecode_env; eassumption.
Qed.
Lemma special_n r i n : special i = true -> n_compile i = Some n -> exists g', compile (n_frozen1 pev r i) = Some g' /\
  forall q w s, the_imm q = the_imm (ints r) -> follow w (n_after pev r i) (n_exec W pure lenv r n (w, s)) (exec none lenv q g' s).
Proof.
  intros Hs Hn.
  assert (X : forall x g o y, let r1 := let_rm pev y r g in y <> "imm"%string -> forall q w s, the_imm q = the_imm (ints r) -> follow w r1
    (n_exec W pure lenv r (NEval (greg_of g) (fun v => NLet y v (NDo (GEmitb 0x66) (NEval x (fun u => NMr [0x0f; o] u y (NCode ENil)))))) (w, s))
    (exec none lenv q (g2 (GEmitb 0x66) (GEncRexwMr [0x0f; o] (ELit (nval pev r1 x)) (GRmReg (greg_of (fz_reg (nval pev r) g))))) s)).
  { intros x g o y r1 Hy q w s H. cbn [n_exec]. rewrite pure_neval. cbn [n_exec]. change (n_set y (VRm (rm_reg (reg_from (nval pev r (greg_of g))))) r) with r1.
    unfold g2, g1. cbn [exec]. unfold bind, n_do. cbn [snd fst]. change (run_call none lenv (ints r1) (GEmitb 102) s) with (run_call none lenv q (GEmitb 102) s).
    assert (I : the_imm (ints r1) = the_imm (ints r)).
    { unfold the_imm, ints, r1, let_rm, n_set. destruct (String.eqb_spec "imm" y); [congruence|reflexivity]. }
    destruct (run_call none lenv q (GEmitb 102) s) as [u s1|f s1]; [|split; cbn; auto]. rewrite pure_neval. cbn [n_exec].
    assert (L : r1 y = VRm (rm_reg (reg_from (nval pev r (greg_of g))))) by (unfold r1, let_rm, n_set; rewrite String.eqb_refl; reflexivity).
    rewrite L. cbn [run_call run_rm]. unfold run_reg, n_do. rewrite greg_n. cbn [eval fst snd].
    destruct (enc_rexw_mr [15; o] (reg_from (nval pev r1 x)) (rm_reg (reg_from (nval pev r (greg_of g)))) s1) as [u' s2|f s2]; split; cbn; auto.
    split; [reflexivity|]. split; [reflexivity|]. congruence. }
  destruct i; try discriminate Hs. destruct a as [| | |], b as [| | |]; try discriminate Hs; operands; try discriminate Hn; cbn [n_compile] in Hn; try discriminate Hn; injection Hn as <-; unfold n_frozen1; cbn [n_after].
  all: try (eexists; split; [reflexivity|]; apply X; discriminate).
  all: cbn [fz_inst fz_mov compile movq]; eexists; (split; [reflexivity|]); intros q w s H; cbn [n_exec]; rewrite pure_neval; cbn [n_exec]; rewrite pure_neval; cbn [n_exec];
    change (n_set "imm" (VInt 64 (i64 (nval pev r e))) r) with (let_imm pev r e).
  all: match goal with |- follow _ (let_rm _ _ ?r1 ?g) ?n _ => set (r2 := let_rm pev "rm_op" r1 g); pose (c := g2 (GEncRexwO 184 (greg_of g)) GEmitqImm);
    change n with (n_ecode W pure lenv r2 (e_code None c) (w, s)); pose proof (code_n None c r2 (env_set "imm" (i64 (nval pev r e)) q) w s eq_refl) as A;
    split; [|destruct (n_ecode W pure lenv r2 (e_code None c) (w, s)) eqn:E; auto; eapply ecode_env; [|exact E]; reflexivity] end.
  all: cbn [exec fz_imm eval]; rewrite greg_n; exact A.
Qed.
Lemma stmt_follows r i n : n_compile i = Some n -> exists g', compile (n_frozen1 pev r i) = Some g' /\
  forall q w s, the_imm q = the_imm (ints r) -> follow w (n_after pev r i) (n_exec W pure lenv r n (w, s)) (exec none lenv q g' s).
Proof. destruct (special i) eqn:E; [apply special_n, E|apply plain_n, E]. Qed.
Lemma block_follows : forall body hid r ns, n_compile_all hid body = Some ns -> exists gs, compile_all (n_frozen pev r body) = Some gs /\
  forall q w s, the_imm q = the_imm (ints r) -> agree w (n_exec_all W pure lenv r ns (w, s)) (exec_all none lenv q gs s).
Proof.
  induction body as [|i b IH]; intros hid r ns H; cbn [n_compile_all n_frozen compile_all] in *.
  - injection H as <-. exists []. split; [reflexivity|]. intros q w s Hq. cbn. auto.
  - destruct (compile i) as [g|]; [|discriminate]. destruct (n_compile i) as [n|] eqn:En; [|discriminate]. destruct (n_compile_all (declares i ++ hid) b) as [ns'|] eqn:Eb; [|discriminate].
    destruct (idents_ok hid g); [|discriminate]. injection H as <-.
    destruct (stmt_follows r i n En) as (g' & E1 & F). destruct (IH _ (n_after pev r i) ns' Eb) as (gs & E2 & A). rewrite E1, E2. exists (g' :: gs). split; [reflexivity|].
    intros q w s Hq. cbn [n_exec_all exec_all]. unfold bind. specialize (F q w s Hq). destruct F as [F1 F2].
    destruct (n_exec W pure lenv r n (w, s)) as [r1 [w1 s1]|f [w1 s1]|[w1 s1]], (exec none lenv q g' s) as [q1 s2|f2 s2]; cbn [agree] in F1; try contradiction; [|exact F1].
    destruct F1 as (-> & -> & Hq1). subst r1. apply A, Hq1.
Qed.
End Pure.

Section Fixed.
Variables vi vo vi' vo' : expr -> Z.
Hypothesis Vi : forall n, vi' (ELit n) = n.
Hypothesis Vo : forall n, vo' (ELit n) = n.
Lemma fz_fz i : fz_inst vi' vo' (fz_inst vi vo i) = fz_inst vi vo i.
Proof.
  assert (R : forall g, fz_reg vo' (fz_reg vo g) = fz_reg vo g) by (intro g; destruct g; cbn; rewrite ?Vo; reflexivity).
  assert (M : forall a, fz_mem vo' (fz_mem vo a) = fz_mem vo a).
  { intros [b sc d]. unfold fz_mem. cbn [ia_base ia_scale ia_disp]. rewrite R. f_equal; [destruct sc; cbn; rewrite ?R|destruct d; cbn; rewrite ?Vo]; reflexivity. }
  destruct i; operands; cbn [fz_inst fz_mov fz_rm fz_rmi fz_ri fz_xm fz_dest]; unfold fz_imm, fz_xmm; rewrite ?R, ?M, ?Vi, ?Vo; reflexivity.
Qed.
End Fixed.
Lemma n_frozen1_fixed pev r i vi vo : (forall n, vi (ELit n) = n) -> (forall n, vo (ELit n) = n) -> fz_inst vi vo (n_frozen1 pev r i) = n_frozen1 pev r i.
Proof.
  intros Hi Ho. assert (D : fz_inst vi vo (fz_inst (nval pev r) (nval pev (n_inner pev r i)) i) = fz_inst (nval pev r) (nval pev (n_inner pev r i)) i) by (apply fz_fz; assumption).
  destruct i; try exact D. destruct a, b; try exact D; cbn [n_frozen1 fz_inst fz_mov]; unfold fz_xmm; rewrite Ho; f_equal; f_equal; destruct r0; cbn; rewrite ?Ho; reflexivity.
Qed.
Lemma n_frozen_fixed pev ev : forall body r q, frozen ev q (n_frozen pev r body) = n_frozen pev r body.
Proof. induction body as [|i b IH]; intros r q; [reflexivity|]. cbn [n_frozen frozen]. rewrite IH. unfold frozen1. rewrite n_frozen1_fixed by reflexivity. reflexivity. Qed.
Lemma n_frozen1_literal pev r i : Forall literal (stmt_exprs (n_frozen1 pev r i)).
Proof. rewrite <- (n_frozen1_fixed pev r i (nval pev r) (nval pev r)) by reflexivity. apply ScopeBlock.fz_literal. Qed.
Lemma n_frozen_literal pev : forall body r, Forall (fun i => Forall literal (stmt_exprs i)) (n_frozen pev r body).
Proof. induction body as [|i b IH]; intro r; cbn [n_frozen]; constructor; [apply n_frozen1_literal|apply IH]. Qed.

Theorem names_frozen W pev lenv evb base r body (w : W) : n_compile_all ["jit"%string] body <> None ->
  let r1 := n_set "jit" VJit r in let '(w1, s) := evb base r w in
  Forall (fun i => Forall literal (stmt_exprs i)) (n_frozen pev r1 body) /\
  exists x, n_macro W (pure W pev) lenv evb base r body w = Some x /\ forall ev' q, ends x w1 (step (OAsm ev' lenv q (n_frozen pev r1 body)) s).
Proof.
  intros H r1. destruct (evb base r w) as [w1 s] eqn:Eb. split; [apply n_frozen_literal|]. unfold n_macro. fold r1. rewrite Eb.
  destruct (n_compile_all ["jit"%string] body) as [ns|] eqn:En; [|contradiction]. eexists. split; [reflexivity|]. intros ev' q.
  rewrite (block_frozen ev' none lenv q (ints r1) (n_frozen pev r1 body) s), n_frozen_fixed.
  destruct (block_follows W pev lenv body _ r1 ns En) as (gs & Eg & A). cbn [step]. rewrite Eg. unfold bind, ret. specialize (A (ints r1) w1 s eq_refl).
  destruct (n_exec_all W (pure W pev) lenv r1 ns (w1, s)) as [r2 [w2 s2]|f [w2 s2]|[w2 s2]], (exec_all none lenv (ints r1) gs s) as [q1 s3|f3 s3]; cbn [agree ends] in *; try contradiction; intuition.
Qed.
(** Other names are the caller's. *)
Lemma other_names pev x : ~ In x taken -> forall i r, n_after pev r i x = r x /\ n_inner pev r i x = r x.
Proof.
  intros Hx i r. assert (N : forall y v r, In y taken -> n_set y v r x = r x) by (intros y v r' Hy; unfold n_set; destruct (String.eqb_spec x y); [subst; contradiction|reflexivity]).
  assert (T : In "imm"%string taken /\ In "op1"%string taken /\ In "op2"%string taken /\ In "rm_op"%string taken) by (repeat split; cbn; auto 12). destruct T as (T1 & T2 & T3 & T4).
  assert (A : n_after pev r i x = r x).
  { destruct i; operands; cbn [n_after own_imm]; unfold let_rm, let_imm; rewrite ?N by assumption; reflexivity. }
  split; [exact A|]. 
  assert (D : match own_imm i with Some e => let v := i64 (nval pev r e) in let b := imm_bits i v in if b =? 64 then let_imm pev r e else n_set "imm" (VInt b v) (let_imm pev r e) | None => r end x = r x).
  { destruct (own_imm i); [|reflexivity]. cbv zeta. destruct (imm_bits i _ =? 64); unfold let_imm; rewrite ?N by assumption; reflexivity. }
  destruct i; try exact D. destruct a, b; try exact D. exact A.
Qed.
