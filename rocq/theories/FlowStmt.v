(** A statement whose expressions use the assembler and may leave. *)
From Verif Require Import Base ModelMem ModelEnc ModelSyntax ModelMacro ModelEff ModelLeave ModelFlow SpecX86 SpecAsm SpecState SpecHist SpecProg SpecScope ScopeFacts ScopeBlock SpecEff SpecLeave SpecFlow.
Local Notation length := List.length.
Local Open Scope list_scope.
Local Open Scope Z_scope.

Section Run.
Variable W : Type.
Variable ev : list tok -> env -> W * jit -> option Z * (W * jit).
Variable lenv : string -> label.
Notation Y := ((W * jit) + (W * jit))%type.
Notation eu := (until_left W ev).
Definition run (r : env) (g : ecode) (y : Y) : lres W := match y with inl x => f_exec W ev lenv r g x | inr x => LLeft W (fst x) (snd x) end.

Lemma run_eval r e k y : run r (EEval e k) y = let (v, y1) := value Y eu r e y in run r (k v) y1.
Proof.
  destruct y as [x|x]; destruct e as [v|ts]; try reflexivity. cbn [run f_exec f_eval value until_left]. destruct (ev ts r x) as [[v|] x1]; reflexivity.
Qed.
Lemma run_reg_e r g k w : run r (e_reg g k) w = let (g', w1) := v_reg Y eu r g w in run r (k g') w1.
Proof. destruct g as [n|e]; [reflexivity|]. cbn [e_reg]. rewrite run_eval. unfold v_reg, v_expr, into, andthen, yields. destruct (value Y eu r e w). reflexivity. Qed.
Lemma run_mem_e r a k w : run r (e_rm (GRmInd a) k) w = let (a', w1) := v_mem Y eu r a w in run r (k (GRmInd a')) w1.
Proof.
  destruct a as [b sc d]. cbn [e_rm]. rewrite run_reg_e. unfold v_mem. cbn [ia_base ia_scale ia_disp]. unfold andthen at 1.
  destruct (v_reg Y eu r b w) as [b' w1]. unfold andthen at 1.
  assert (D : forall k w, run r (e_disp d k) w = let (d', w1) := v_disp Y eu r d w in run r (k d') w1).
  { clear. intros k w. destruct d as [v|n e|x]; try reflexivity. cbn [e_disp]. rewrite run_eval. unfold v_disp, v_expr, into, andthen, yields. destruct (value Y eu r e w). reflexivity. }
  rewrite D. destruct (v_disp Y eu r d w1) as [d' w2].
  assert (C : forall k w, run r (e_scale sc k) w = let (c, w1) := v_scale Y eu r sc w in run r (k c) w1).
  { clear. intros k w. destruct sc as [|n g]; [reflexivity|]. cbn [e_scale]. rewrite run_reg_e. unfold v_scale, into, andthen, yields. destruct (v_reg Y eu r g w). reflexivity. }
  rewrite C. unfold into, andthen, yields. destruct (v_scale Y eu r sc w2). reflexivity.
Qed.
Lemma run_rmreg r g k w : run r (e_rm (GRmReg g) k) w = let (v, w1) := value Y eu r g w in run r (k (GRmReg (ELit v))) w1.
Proof. cbn [e_rm]. apply run_eval. Qed.
(** Once left, always left. *)
Lemma value_gone r e x : value Y eu r e (inr x) = (match e with ELit v => v | EToks _ => 0 end, inr x). Proof. destruct e; reflexivity. Qed.
Lemma reg_gone r g x : exists g', v_reg Y eu r g (inr x) = (g', inr x).
Proof. destruct g as [n|[v|ts]]; eexists; reflexivity. Qed.
Lemma mem_gone r a x : exists a', v_mem Y eu r a (inr x) = (a', inr x).
Proof.
  destruct a as [b sc d]. unfold v_mem, andthen. cbn [ia_base ia_disp ia_scale]. destruct (reg_gone r b x) as [b' ->].
  assert (D : exists d', v_disp Y eu r d (inr x) = (d', inr x)) by (destruct d as [|? []|]; eexists; reflexivity). destruct D as [d' ->].
  destruct sc as [|n g]; [eexists; reflexivity|]. unfold v_scale, into, andthen. destruct (reg_gone r g x) as [g' ->]. eexists; reflexivity.
Qed.
Lemma lit_run r c k x : run r (EDo c k) (inl x) = match run_call none lenv r c (snd x) with Ok _ s1 => run r k (inl (fst x, s1)) | Panic e s1 => LFail W e (fst x) s1 end.
Proof. reflexivity. Qed.
Lemma if_run r c t e k x : run r (EIf c t e k) (inl x) = let (b, r') := run_cond none r c in
  match (if b then run r' t (inl x) else run r e (inl x)) with LOk _ _ w1 s1 => run r k (inl (w1, s1)) | f => f end.
Proof. reflexivity. Qed.
Lemma imm_run r v k x : run r (EImm v k) (inl x) = run (env_set "imm" (i64 v) r) k (inl x).
Proof. reflexivity. Qed.
Lemma nil_run r x : run r ENil (inl x) = LOk W r (fst x) (snd x). Proof. reflexivity. Qed.
Lemma panic_run r x : run r EPanic (inl x) = LFail W ImmRange (fst x) (snd x). Proof. reflexivity. Qed.
Lemma gone_run r g x : run r g (inr x) = LLeft W (fst x) (snd x). Proof. reflexivity. Qed.

(** The outcome of a statement and of the statement with its values. *)
Definition agrees (x : lres W) (i' : inst) (r r' : env) (y : Y) : Prop :=
  match y with
  | inr x1 => x = LLeft W (fst x1) (snd x1)
  | inl (w1, s1) => exists g', compile i' = Some g' /\
      match x with
      | LOk _ q w2 s2 => exec none lenv r g' s1 = Ok q s2 /\ q = r' /\ w2 = w1
      | LFail _ e _ _ => exists s2, exec none lenv r g' s1 = Panic e s2
      | LLeft _ _ _ => False
      end
  end.

Arguments e_rm : simpl never.
Ltac split_ops :=
  repeat match goal with
  | z : opsize |- _ => destruct z
  | z : option opsize |- _ => destruct z
  | a : rm_operand |- _ => destruct a
  | a : rmi_operand |- _ => destruct a
  | a : ri_operand |- _ => destruct a
  | a : xm_operand |- _ => destruct a
  | a : mov_operand |- _ => destruct a
  | a : dest |- _ => destruct a
  | a : register |- _ => destruct a
  end.
Ltac comp H := cbn -[e_rm] in H; try discriminate H; injection H as <-.
Ltac gone := match goal with
  | |- context [v_mem Y eu ?r ?a (inr ?x)] => let a' := fresh "a'" in let E := fresh "G" in destruct (mem_gone r a x) as [a' E]; rewrite E
  | |- context [value Y eu ?r ?e (inr ?x)] => rewrite (value_gone r e x)
  end.
Ltac steps :=
  repeat (first
  [ progress cbn [v_inst v_movq v_bin v_shf v_rm v_rmi v_ri v_xm v_mov v_dest v_reg fst snd]
  | progress unfold into, andthen, yields, right_first, left_first, same, with_imm, v_expr
  | progress cbv beta zeta iota
  | gone
  | match goal with
  | |- context [v_mem Y eu ?r ?a ?w] => destruct (v_mem Y eu r a w) as [? [[? ?]|[? ?]]] eqn:?
  | |- context [value Y eu ?r (EToks ?a) ?w] => destruct (value Y eu r (EToks a) w) as [? [[? ?]|[? ?]]] eqn:?
  | |- context [value Y eu ?r (ELit ?a) ?w] => change (value Y eu r (ELit a) w) with (a, w)
  | |- context [value Y eu ?r ?a ?w] => is_var a; destruct (value Y eu r a w) as [? [[? ?]|[? ?]]] eqn:?
  end]).
Ltac fin :=
  repeat match goal with
  | |- context [run _ _ (inr _)] => rewrite gone_run
  | |- context [run _ ENil (inl _)] => rewrite nil_run
  | |- context [run _ EPanic (inl _)] => rewrite panic_run
  | |- context [run _ (EDo _ _) (inl _)] => rewrite lit_run
  | |- context [run _ (EImm _ _) (inl _)] => rewrite imm_run
  | |- context [run _ (EIf _ _ _ _) (inl _)] => rewrite if_run
  | |- context [run _ (e_rm (GRmInd _) _) _] => rewrite run_mem_e
  | |- context [run _ (e_rm (GRmReg _) _) _] => rewrite run_rmreg
  | |- context [run _ (EEval _ _) _] => rewrite run_eval
  | |- _ => progress cbn -[run run_call env_set run_cond e_rm value v_mem until_left]
  | |- context [run_cond none ?r ?c] => let x := eval cbn -[in_i8 in_i32 the_imm] in (run_cond none r c) in change (run_cond none r c) with x
  | |- context [value Y eu ?r (ELit ?a) ?w] => change (value Y eu r (ELit a) w) with (a, w)
  | M : value _ _ _ _ _ = _ |- _ => progress rewrite ?M
  | M : v_mem _ _ _ _ _ = _ |- _ => progress rewrite ?M
  | |- context [if ?b then _ else _] => destruct b eqn:?
  | |- context [run_call none lenv ?r ?c ?s] => destruct (run_call none lenv r c s)
  end.

Lemma the_imm_set v r : the_imm (env_set "imm" v r) = v. Proof. reflexivity. Qed.
Ltac ranges := exfalso; unfold run_reg, is_cl, rcx, reg_from, u8, any_imm, imm_ok in *; cbn [eval] in *; rewrite ?the_imm_set in *; unfold in_i8, in_i16, in_i32 in *; lia.
Definition early (c : option (expr * (Z -> bool))) (m : env -> env -> option (env * expr)) (r : env) (x : W * jit) : option (ending W) :=
  match c with
  | Some (e, ok) => match value Y eu r e (inl x) with (v, inl x1) => if ok v then None else Some (panics W ev (m r (env_set "imm" (i64 v) r)) x1) | _ => None end
  | None => None
  end.
Definition ranged (c : option (expr * (Z -> bool))) : option (expr * (Z -> bool)) := match c with Some (e, ok) => Some (e, fun v => ok (i64 v)) | None => None end.
Definition goes_on (c : option (expr * (Z -> bool))) (m : env -> env -> option (env * expr)) (r : env) (g : ecode) (x : W * jit) (z : inst * env * Y) : Prop :=
  match early c m r x with Some y => ended (run r g (inl x)) = y | None => let '((i', r'), y) := z in agrees (run r g (inl x)) i' r r' y end.
Definition said (z : opsize) (b : rmi_operand) : option expr := match z, b with BYTE, RmiImm e => Some e | _, _ => None end.
Ltac close H :=
  match goal with
  | |- exists g', compile _ = Some g' /\ _ => eexists; split; [try rewrite H; reflexivity|]; cbn -[run run_call env_set run_cond e_rm]; unfold bind
  | |- exists g', _ = Some g' /\ _ => eexists; split; [reflexivity|]; cbn -[run run_call env_set run_cond e_rm]; unfold bind
  | _ => idtac
  end; fin;
  first [reflexivity|split; [reflexivity|split; reflexivity]|eexists; reflexivity|ranges].
Ltac begin := unfold goes_on, early; cbn [ranged checked count_check immediate rmi_imm ri_imm width_of imm_ok];
  steps; try match goal with |- context [match (if ?b then None else Some _) with Some _ => _ | None => _ end] => destruct b eqn:? end; cbn [agrees panics shown said]; steps.
Lemma flow_alu r z op d k a b g x : z <> WORD -> (forall a b, compile (k a b) = binary_op z op d a b) -> option_map (e_code (said z b)) (binary_op z op d a b) = Some g ->
  goes_on (ranged (rmi_imm (width_of z) b)) (fun _ r1 => match said z b with Some e => Some (r1, e) | None => None end) r g x (v_bin Y eu r a b k (inl x)).
Proof.
  intros Nz Hk H. destruct x as [w s]. unfold binary_op in H. destruct z; try congruence; split_ops; comp H; begin; close Hk.
Qed.
Lemma flow_shift r z d k a b g x : (forall a b, compile (k a b) = shift_op z d a b) -> option_map (e_code None) (shift_op z d a b) = Some g ->
  goes_on (count_check b) (fun _ _ => None) r g x (v_shf Y eu r a b k (inl x)).
Proof.
  intros Hk H. destruct x as [w s]. unfold shift_op in H. destruct z; split_ops; comp H; begin; close Hk.
Qed.
Lemma flow_statement r i : evaluated_once i -> prefix_of i = None -> forall g x, e_compile i = Some g ->
  match refusal W ev r i x with Some y => ended (run r g (inl x)) = y | None =>
  let '((i', r'), y) := v_inst Y eu r i (inl x) in agrees (run r g (inl x)) i' r r' y end.
Proof.
  intros O N g [w s] H. destruct i; try discriminate N; cbn [e_compile message compile] in H.
  all: try (match goal with |- context [v_inst _ _ _ (?K ?z ?a ?b) _] =>
    assert (Nz : z <> WORD) by (intros ->; discriminate N);
    pose proof (flow_alu r z _ _ (K z) a b g (w, s) Nz (fun _ _ => eq_refl)) as A; destruct z; try congruence; destruct b; exact (A H) end).
  all: try (match goal with |- context [v_inst _ _ _ (?K ?z ?a ?b) _] => exact (flow_shift r z _ (K z) a b g (w, s) (fun _ _ => eq_refl) H) end).
  all: unfold movq, movl, movw, movb, xchg, testq, testb, divide_op, push_pop, count_op, binary_sd_op in H.
  all: try (cbn [checked immediate v_inst]; unfold yields; destruct (float_ok bits) eqn:F; [|discriminate H]; cbn [option_map] in H;
    assert (H1 : g = e_code None (g1 (GEmit (le 8 bits)))) by congruence; subst g; clear H; unfold refusal; cbn [checked immediate]; cbn [agrees compile]; rewrite F; eexists; split; [reflexivity|];
    unfold g1, e_code, e_call; rewrite lit_run; cbn [exec fst snd]; unfold bind; destruct (run_call none lenv r (GEmit (le 8 bits)) s); [rewrite nil_run; auto|eauto]; fail).
  all: split_ops; try discriminate N; comp H.
  all: try (cbn in O; repeat match goal with
    | O : _ /\ _ |- _ => destruct O
    | O : match ?e with ELit _ => _ | EToks _ => _ end = false |- _ => destruct e; try discriminate O
    end).
  all: match goal with |- context [refusal _ _ ?r ?i ?x] => change (refusal W ev r i x) with (early (checked i) (shown i) r x) end.
  all: begin.
  all: close O.
Qed.
End Run.
