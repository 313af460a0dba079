(** The expression next() is a counter: it returns a number and adds one to it.
    addq R(next()), (next()); movq [R(next()) + (next())], R(next()); ret   counting from 5. *)
From Verif Require Import Base ModelMem ModelSyntax ModelMacro ModelEff SpecX86 SpecAsm SpecTaken SpecState SpecHist MemDemo SpecProg ProgDemo SpecScope SpecEff.
From Coq Require Import Permutation.
Local Open Scope list_scope.
Local Open Scope Z_scope.
Definition toks (x : string) : list tok := [TIdent x; TGroup Paren []].
Definition call (x : string) : expr := EToks (toks x).
Definition next : expr := call "next".
Definition evN (ts : list tok) (r : env) (n : Z) : Z * Z := (n, n + 1).
Definition progN : list inst :=
  [IAdd QWORD (RmReg (RExpr next)) (RmiImm next); IMovq (MovInd (mkInd (RExpr next) PScaleNone (PExpr false next))) (MovReg (RExpr next)); IRet].
Definition final {W} (x : eres W) : jit := match x with EOk _ _ _ s | EFail _ _ _ s => s end.
Definition world {W} (x : eres W) : option W := match x with EOk _ _ w _ => Some w | EFail _ _ _ _ => None end.
Definition runN (body : list inst) (n : Z) : eres Z := e_block Z evN lenvD rD body n newD.
Lemma world_ok {W} (x : eres W) w : world x = Some w -> exists q, x = EOk W q w (final x).
Proof. destruct x; cbn; intro H; inversion H; subst. eexists; reflexivity. Qed.
Lemma case53 : Forall evaluated_once progN /\ (exists q, runN progN 5 = EOk Z q 10 (final (runN progN 5))) /\
  v_body Z evN rD progN 5 = ([IAdd QWORD (RmReg (RExpr (ELit 6))) (RmiImm (ELit 5));
    IMovq (MovInd (mkInd (RExpr (ELit 8)) PScaleNone (PExpr false (ELit 9)))) (MovReg (RExpr (ELit 7))); IRet], 10) /\
  bytes (final (runN progN 5)) P0 0 9 = [0x48; 0x83; 0xc6; 5;  0x49; 0x89; 0x78; 9;  0xc3].
Proof.
  split; [repeat constructor|]. split; [apply world_ok; vm_compute; reflexivity|]. split; vm_compute; reflexivity.
Qed.

(** ** Expressions that are evaluated more than once *)
Definition ev0 (ts : list tok) (r : env) : Z := match ts with TIdent "a" :: _ => 1 | _ => 2 end.
Definition trace (i : inst) : option (list (list tok)) := world (e_block _ (recording ev0) lenvD rD [i] [] newD).
Definition twice : list inst :=
  [IMovq (MovReg (RExpr (call "a"))) (MovImm (ELit 5) None); ITestq (RmReg (RExpr (call "a"))) (RiImm (ELit 5)); ITestb (RmReg (RExpr (call "a"))) (RiImm (ELit 5));
   IXchg QWORD (RmReg (RExpr (call "a"))) (RmReg (RExpr (call "b")))].
Lemma traces : map trace twice = [Some [toks "a"; toks "a"]; Some [toks "a"; toks "a"]; Some [toks "a"; toks "a"]; Some [toks "a"; toks "b"; toks "b"; toks "a"]].
Proof. vm_compute. reflexivity. Qed.
Lemma more_than_once : exists ev lenv r i s q w1 s1, e_block _ (recording ev) lenv r [i] [] s = EOk _ q w1 s1 /\ ~ Permutation w1 (written i).
Proof.
  exists ev0, lenvD, rD, (IMovq (MovReg (RExpr (call "a"))) (MovImm (ELit 5) None)), newD.
  destruct (world_ok (e_block _ (recording ev0) lenvD rD [IMovq (MovReg (RExpr (call "a"))) (MovImm (ELit 5) None)] [] newD) [toks "a"; toks "a"]) as [q E]; [vm_compute; reflexivity|].
  exists q. eexists. eexists. split; [exact E|]. intro P. apply Permutation_length in P. discriminate P.
Qed.
(** movq R(next()), 5 from 1: the code is for register 2. *)
Definition movN : list inst := [IMovq (MovReg (RExpr next)) (MovImm (ELit 5) None)].
Lemma other_code : exists W ev lenv r body w s q w1 s1, reached s /\ e_block W ev lenv r body w s = EOk W q w1 s1 /\
  forall ev' r', step (OAsm ev' lenv r' (fst (v_body W ev r body w))) s <> Ok None s1.
Proof.
  exists Z, evN, lenvD, rD, movN, 1, newD. destruct (world_ok (runN movN 1) 3) as [q E]; [vm_compute; reflexivity|]. exists q. eexists. eexists.
  split; [exact reachedN|]. split; [exact E|]. intros ev' r' H.
  assert (B : bytes (outcome (step (OAsm ev' lenvD r' (fst (v_body Z evN rD movN 1))) newD)) P0 0 2 = [0x48; 0xb9]) by (vm_compute; reflexivity).
  rewrite H in B. cbn [outcome] in B. assert (B' : bytes (final (runN movN 1)) P0 0 2 = [0x48; 0xba]) by (vm_compute; reflexivity). congruence.
Qed.
(** In a block that panics. *)
Definition failed {W} (x : eres W) : option (panic * W) := match x with EOk _ _ _ _ => None | EFail _ e w _ => Some (e, w) end.
Definition ev3 (ts : list tok) (r : env) : Z := match ts with TIdent "a" :: _ => 300 | _ => 2 ^ 40 end.
Definition said_trace (i : inst) : option (panic * list (list tok)) := failed (e_block _ (recording ev3) lenvD rD [i] [] newD).
Definition said_twice : list inst :=
  [IXor BYTE (RmReg (RExpr (call "c"))) (RmiImm (call "a")); IMovb (RmReg (RExpr (call "c"))) (RmiImm (call "a")); IMovl (RmReg (RExpr (call "c"))) (RmiImm (call "b"));
   IMovw (RmReg (RExpr (call "c"))) (RmiImm (call "b")); ICall (DestDisp (call "b")); IXor DWORD (RmReg (RExpr (call "c"))) (RmiImm (call "b"))].
Lemma said_traces : map said_trace said_twice = [Some (ImmRange, [toks "a"; toks "a"]); Some (ImmRange, [toks "a"; toks "c"]); Some (ImmRange, [toks "b"; toks "c"]);
  Some (ImmRange, [toks "b"; toks "c"]); Some (ImmRange, [toks "b"; toks "b"]); Some (ImmRange, [toks "b"])].
Proof. vm_compute. reflexivity. Qed.
Lemma failed_is {W} (x : eres W) e w : failed x = Some (e, w) -> exists s, x = EFail W e w s.
Proof. destruct x; cbn; intro H; inversion H; subst. eexists; reflexivity. Qed.
Lemma panic_twice : exists ev lenv r i ts s w1 s1, evaluated_once i /\ written i = [ts] /\ e_block _ (recording ev) lenv r [i] [] s = EFail _ ImmRange w1 s1 /\ w1 = [ts; ts].
Proof.
  exists ev3, lenvD, rD, (IXor BYTE (RmReg (RReg 1)) (RmiImm (call "a"))), (toks "a"), newD.
  destruct (failed_is (e_block _ (recording ev3) lenvD rD [IXor BYTE (RmReg (RReg 1)) (RmiImm (call "a"))] [] newD) ImmRange [toks "a"; toks "a"]) as [s1 E]; [vm_compute; reflexivity|].
  exists [toks "a"; toks "a"], s1. split; [exact I|]. split; [reflexivity|]. split; [exact E|reflexivity].
Qed.
