(** Blocks whose expressions have effects. *)
From Verif Require Import Base ModelMem ModelEnc ModelSyntax ModelMacro ModelEff SpecX86 SpecAsm SpecState SpecHist SpecProg SpecScope ScopeFacts ScopeBlock SpecEff EffStmt.
From Coq Require Import Permutation.
Local Notation length := List.length.
Local Open Scope list_scope.
Local Open Scope Z_scope.

Section Run.
Variable W : Type.
Variable ev : list tok -> env -> W -> Z * W.
Variable lenv : string -> label.
Notation run := (e_exec W ev lenv).
Notation agrees := (agrees W).
Notation statement_at := (statement_at W ev lenv).
Lemma statement_once r i g w : evaluated_once i -> e_compile i = Some g ->
  exists g', compile (fst (fst (v_inst W ev r i w))) = Some g' /\
    forall s, agrees (run r g w s) (exec none lenv r g' s) (snd (fst (v_inst W ev r i w))) (snd (v_inst W ev r i w)).
Proof.
  intros O H. destruct (statement_at r i O g w (jit_new 65536 (fun _ => 0)) H) as (g' & C & _). exists g'. split; [exact C|]. intro s.
  destruct (statement_at r i O g w s H) as (g2 & C2 & A). rewrite C in C2. injection C2 as <-. exact A.
Qed.
Lemma block_once : forall body r gs w, Forall evaluated_once body -> e_compile_all body = Some gs ->
  exists gs', compile_all (fst (v_body W ev r body w)) = Some gs' /\
    forall s, match e_exec_all W ev lenv r gs w s with
      | EOk _ q w1 s1 => exec_all none lenv r gs' s = Ok q s1 /\ w1 = snd (v_body W ev r body w)
      | EFail _ e _ s1 => exec_all none lenv r gs' s = Panic e s1
      end.
Proof.
  induction body as [|i b IH]; intros r gs w F H; cbn [e_compile_all] in H.
  - injection H as <-. exists []. split; [reflexivity|]. intro s. split; reflexivity.
  - inversion F as [|? ? Fi Fb]; subst. destruct (e_compile i) as [g|] eqn:Ei; [|discriminate]. destruct (e_compile_all b) as [rest|] eqn:Eb; [|discriminate]. injection H as <-.
    destruct (statement_once r i g w Fi Ei) as (g' & C & A). cbn [v_body]. unfold andthen, into, yields in *.
    destruct (v_inst W ev r i w) as [[i' r'] w'] eqn:V. cbn [fst snd] in *. cbn beta.
    destruct (IH r' rest w' Fb eq_refl) as (gs' & C' & A'). unfold andthen. destruct (v_body W ev r' b w') as [b' w2] eqn:V'. cbn [fst snd] in *.
    exists (g' :: gs'). split; [cbn [compile_all]; rewrite C, C'; reflexivity|]. intro s. cbn [e_exec_all exec_all]. unfold bind.
    specialize (A s). destruct (run r g w s) as [q w1 s1|e w1 s1]; unfold agrees, EffStmt.agrees in A.
    + destruct A as (A & -> & ->). rewrite A. apply A'.
    + rewrite A. reflexivity.
Qed.
End Run.


(** ** Values *)
Ltac acts2 := unfold v_bin, v_shf, v_movq, with_imm, same, left_first, right_first; unfold v_rm, v_rmi, v_ri, v_xm, v_mov, v_dest; unfold v_expr, into, andthen, yields.
Section Values.
Variable W : Type.
Variable ev : list tok -> env -> W -> Z * W.
Section Fixed.
Variables vi vo : expr -> Z.
Hypothesis Vi : forall n, vi (ELit n) = n.
Hypothesis Vo : forall n, vo (ELit n) = n.
Lemma fixed_reg r g w : fz_reg vo (fst (v_reg W ev r g w)) = fst (v_reg W ev r g w).
Proof. destruct g; [reflexivity|]. cbn [v_reg]. acts2. destruct (value W ev r e w). cbn [fst fz_reg]. rewrite Vo. reflexivity. Qed.
Lemma fixed_mem r a w : fz_mem vo (fst (v_mem W ev r a w)) = fst (v_mem W ev r a w).
Proof.
  destruct a as [b sc d]. unfold v_mem. cbn [ia_base ia_disp ia_scale]. acts2.
  pose proof (fixed_reg r b w) as B. destruct (v_reg W ev r b w) as [b' w1]. cbn [fst] in B.
  assert (D : fz_disp vo (fst (v_disp W ev r d w1)) = fst (v_disp W ev r d w1)).
  { destruct d; try reflexivity. cbn [v_disp]. acts2. destruct (value W ev r e w1). cbn [fst fz_disp]. rewrite Vo. reflexivity. }
  destruct (v_disp W ev r d w1) as [d' w2]. cbn [fst] in D.
  assert (C : fz_scale vo (fst (v_scale W ev r sc w2)) = fst (v_scale W ev r sc w2)).
  { destruct sc; [reflexivity|]. cbn [v_scale]. acts2. pose proof (fixed_reg r r0 w2) as G. destruct (v_reg W ev r r0 w2). cbn [fst fz_scale] in *. rewrite G. reflexivity. }
  destruct (v_scale W ev r sc w2) as [c' w3]. cbn [fst fz_mem ia_base ia_disp ia_scale] in *. unfold fz_mem. cbn [ia_base ia_disp ia_scale]. rewrite B, C, D. reflexivity.
Qed.
Lemma fixed_inst r i w : fz_inst vi vo (fst (fst (v_inst W ev r i w))) = fst (fst (v_inst W ev r i w)).
Proof.
  destruct i; split_operands; unfold v_inst; acts2;
  repeat match goal with
  | |- context [v_reg W ev ?r ?g ?w] => let H := fresh in pose proof (fixed_reg r g w) as H; destruct (v_reg W ev r g w); cbn [fst] in H
  | |- context [v_mem W ev ?r ?g ?w] => let H := fresh in pose proof (fixed_mem r g w) as H; destruct (v_mem W ev r g w); cbn [fst] in H
  | |- context [value W ev ?r ?g ?w] => destruct (value W ev r g w)
  end; cbn [fst snd fz_inst fz_mov fz_rm fz_rmi fz_ri fz_xm fz_dest]; unfold fz_imm, fz_xmm; rewrite ?Vi, ?Vo;
  repeat match goal with H : _ = _ |- _ => rewrite ?H; clear H end; reflexivity.
Qed.
End Fixed.
Lemma v_literal : forall body r w, Forall (fun i => Forall literal (stmt_exprs i)) (fst (v_body W ev r body w)).
Proof.
  induction body as [|i b IH]; intros r w; [constructor|]. cbn [v_body]. unfold andthen, into.
  pose proof (fixed_inst (eval none r) (eval none r) (fun n => eq_refl) (fun n => eq_refl) r i w) as L.
  destruct (v_inst W ev r i w) as [[i' r'] w']. unfold andthen, yields. cbn [fst snd] in *. specialize (IH r' w').
  destruct (v_body W ev r' b w') as [b' w2]. cbn [fst] in *. constructor; [|exact IH]. rewrite <- L. apply fz_literal.
Qed.
Lemma v_frozen ev' : forall body r w q, frozen ev' q (fst (v_body W ev r body w)) = fst (v_body W ev r body w).
Proof.
  induction body as [|i b IH]; intros r w q; [reflexivity|]. cbn [v_body]. unfold andthen, into.
  assert (L : forall q1 q2, fz_inst (eval ev' q1) (eval ev' q2) (fst (fst (v_inst W ev r i w))) = fst (fst (v_inst W ev r i w))) by (intros; apply fixed_inst; reflexivity).
  destruct (v_inst W ev r i w) as [[i' r'] w']. unfold andthen, yields. cbn [fst snd] in *. specialize (IH r' w').
  destruct (v_body W ev r' b w') as [b' w2]. cbn [fst] in *. cbn [frozen]. unfold frozen1 at 1. rewrite L, IH. reflexivity.
Qed.
End Values.

(** A block of statements evaluated once is the block with the values. *)
Theorem block_values W ev lenv r body w s : Forall evaluated_once body -> e_compile_all body <> None ->
  let '(body', w') := v_body W ev r body w in
  Forall (fun i => Forall literal (stmt_exprs i)) body' /\
  forall ev' q, match e_block W ev lenv r body w s with
    | EOk _ _ w1 s1 => step (OAsm ev' lenv q body') s = Ok None s1 /\ w1 = w'
    | EFail _ e _ s1 => step (OAsm ev' lenv q body') s = Panic e s1
    end.
Proof.
  intros F C. destruct (e_compile_all body) as [gs|] eqn:E; [|contradiction]. destruct (block_once W ev lenv body r gs w F E) as (gs' & Cs & A).
  pose proof (v_literal W ev body r w) as L. pose proof (v_frozen W ev none body r w r) as Z. destruct (v_body W ev r body w) as [body' w']. cbn [fst snd] in *.
  split; [exact L|]. intros ev' q. pose proof (block_frozen none ev' lenv r q body' s) as B. rewrite Z in B. rewrite <- B.
  cbn [step]. rewrite Cs. unfold bind, e_block. rewrite E. specialize (A s).
  destruct (e_exec_all W ev lenv r gs w s) as [q1 w1 s1|e w1 s1]; [destruct A as [A ->]|]; rewrite A; [split|]; reflexivity.
Qed.
