(** A statement whose expressions have effects is the statement with their values. *)
From Verif Require Import Base ModelMem ModelEnc ModelSyntax ModelMacro ModelEff SpecX86 SpecAsm SpecState SpecHist SpecProg SpecScope ScopeFacts ScopeBlock SpecEff.
Local Notation length := List.length.
Local Open Scope list_scope.
Local Open Scope Z_scope.

Section Run.
Variable W : Type.
Variable ev : list tok -> env -> W -> Z * W.
Variable lenv : string -> label.
Notation run := (e_exec W ev lenv).
Lemma run_eval r e k w s : run r (EEval e k) w s = let (v, w1) := value W ev r e w in run r (k v) w1 s.
Proof. reflexivity. Qed.
Lemma run_reg_e r g k w s : run r (e_reg g k) w s = let (g', w1) := v_reg W ev r g w in run r (k g') w1 s.
Proof. destruct g as [n|e]; [reflexivity|]. cbn [e_reg]. rewrite run_eval. unfold v_reg, v_expr, into, andthen, yields. destruct (value W ev r e w). reflexivity. Qed.
Lemma run_mem_e r a k w s : run r (e_rm (GRmInd a) k) w s = let (a', w1) := v_mem W ev r a w in run r (k (GRmInd a')) w1 s.
Proof.
  destruct a as [b sc d]. cbn [e_rm]. rewrite run_reg_e. unfold v_mem. cbn [ia_base ia_scale ia_disp]. unfold andthen at 1.
  destruct (v_reg W ev r b w) as [b' w1]. unfold andthen at 1.
  assert (D : forall k w s, run r (e_disp d k) w s = let (d', w1) := v_disp W ev r d w in run r (k d') w1 s).
  { clear. intros k w s. destruct d as [v|n e|x]; try reflexivity. cbn [e_disp]. rewrite run_eval. unfold v_disp, v_expr, into, andthen, yields. destruct (value W ev r e w). reflexivity. }
  rewrite D. destruct (v_disp W ev r d w1) as [d' w2].
  assert (C : forall k w s, run r (e_scale sc k) w s = let (c, w1) := v_scale W ev r sc w in run r (k c) w1 s).
  { clear. intros k w s. destruct sc as [|n g]; [reflexivity|]. cbn [e_scale]. rewrite run_reg_e. unfold v_scale, into, andthen, yields. destruct (v_reg W ev r g w). reflexivity. }
  rewrite C. unfold into, andthen, yields. destruct (v_scale W ev r sc w2). reflexivity.
Qed.
Lemma run_rmreg r g k w s : run r (e_rm (GRmReg g) k) w s = let (v, w1) := value W ev r g w in run r (k (GRmReg (ELit v))) w1 s.
Proof. reflexivity. Qed.
Lemma run_do r c k w s : run r (EDo c k) w s = match run_call none lenv r c s with Ok _ s1 => run r k w s1 | Panic e s1 => EFail W e w s1 end.
Proof. reflexivity. Qed.

(** The outcome of a statement and of the statement with its values. *)
Definition agrees (x : eres W) (y : res env) (r' : env) (w' : W) : Prop :=
  match x with EOk _ q w1 s1 => y = Ok q s1 /\ q = r' /\ w1 = w' | EFail _ e _ s1 => y = Panic e s1 end.

Arguments e_rm : simpl never.
Ltac split_ops :=
  repeat match goal with
  | z : opsize |- _ => destruct z
  | z : option opsize |- _ => destruct z
  | a : rm_operand |- _ => destruct a
  | a : rmi_operand |- _ => destruct a
  | a : ri_operand |- _ => destruct a
  | a : xm_operand |- _ => destruct a
  | a : mov_operand |- _ => destruct a
  | a : dest |- _ => destruct a
  | a : register |- _ => destruct a
  end.
Ltac comp H := cbn -[e_rm] in H; try discriminate H; injection H as <-.
Ltac steps :=
  repeat (first
  [ progress cbn -[run_call env_set run_cond v_mem value e_rm compile]
  | progress unfold into, andthen, yields, right_first, left_first, same, with_imm, v_expr, v_reg, v_rm, v_rmi, v_ri, v_xm, v_mov, v_dest
  | rewrite run_mem_e
  | rewrite run_rmreg
  | match goal with |- context [e_eval ?W ?ev ?r ?e ?w] => change (e_eval W ev r e w) with (value W ev r e w) end
  | match goal with
  | |- context [v_mem W ev ?r ?a ?w] => destruct (v_mem W ev r a w) eqn:?
  | |- context [value W ev ?r (EToks ?a) ?w] => destruct (value W ev r (EToks a) w) eqn:?
  | |- context [value W ev ?r (ELit ?a) ?w] => change (value W ev r (ELit a) w) with (a, w)
  | |- context [value W ev ?r ?a ?w] => is_var a; destruct (value W ev r a w) eqn:?
  end]).
Ltac fin :=
  repeat match goal with
  | |- _ => progress cbn -[run_call env_set run_cond e_rm]
  | |- context [run_cond none ?r ?c] => let x := eval cbn -[in_i8 in_i32 the_imm] in (run_cond none r c) in change (run_cond none r c) with x
  | |- context [e_exec W ev lenv _ (e_rm (GRmInd _) _) _ _] => rewrite run_mem_e
  | |- context [e_exec W ev lenv _ (e_rm (GRmReg _) _) _ _] => rewrite run_rmreg
  | |- context [value W ev ?r (ELit ?a) ?w] => change (value W ev r (ELit a) w) with (a, w)
  | |- context [e_eval ?W ?ev ?r ?e ?w] => change (e_eval W ev r e w) with (value W ev r e w)
  | M : value _ _ _ _ _ = _ |- _ => progress rewrite ?M
  | M : v_mem _ _ _ _ _ = _ |- _ => progress rewrite ?M
  | |- context [if ?b then _ else _] => destruct b eqn:?
  | |- context [run_call none lenv ?r ?c ?s] => destruct (run_call none lenv r c s)
  end.
Lemma statement_at r i : evaluated_once i -> forall g w s, e_compile i = Some g ->
  exists g', compile (fst (fst (v_inst W ev r i w))) = Some g' /\
    agrees (run r g w s) (exec none lenv r g' s) (snd (fst (v_inst W ev r i w))) (snd (v_inst W ev r i w)).
Proof.
  intros O g w s H. destruct i; cbn [e_compile compile message] in H; unfold binary_op, movq, movl, movw, movb, xchg, testq, testb, shift_op, divide_op, push_pop, count_op, binary_sd_op in H.
  all: try (cbn [v_inst]; unfold yields; cbn [fst snd compile]; destruct (float_ok bits); [|discriminate H]; cbn [option_map] in H;
    assert (H1 : g = e_code None (g1 (GEmit (le 8 bits)))) by congruence; subst g; clear H; eexists; split; [reflexivity|];
    unfold agrees, g1, e_code, e_call; cbn [e_exec exec]; unfold bind; destruct (run_call none lenv r (GEmit (le 8 bits)) s); auto; fail).
  all: split_ops; comp H.
  all: try (cbn in O; repeat match goal with
    | O : _ /\ _ |- _ => destruct O
    | O : match ?e with ELit _ => _ | EToks _ => _ end = false |- _ => destruct e; try discriminate O
    end).
  all: steps.
  all: eexists; split; [reflexivity|].
  all: unfold agrees; cbn -[run_call env_set run_cond e_rm]; unfold bind.
  all: fin.
  all: try (split; [reflexivity|split; reflexivity]).
  all: reflexivity.
Qed.
End Run.
