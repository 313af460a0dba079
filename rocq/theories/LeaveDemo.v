(** next() counts, and stop() leaves the block (stop()?, or a panic of its own).
    addq R(next()), (next()); addsd xmm(stop()), xmm(1); ret    counting from 5. *)
From Verif Require Import Base ModelMem ModelSyntax ModelMacro ModelEff ModelLeave SpecX86 SpecAsm SpecState SpecHist MemDemo SpecProg ProgDemo SpecLeave LeaveFacts LeaveBlock EffDemo.
Local Open Scope list_scope.
Local Open Scope Z_scope.
Definition stop : expr := call "stop".
Definition evL (ts : list tok) (r : env) (n : Z) : option Z * Z := match ts with TIdent "stop" :: _ => (None, n) | _ => (Some n, n + 1) end.
Definition addN : inst := IAdd QWORD (RmReg (RExpr next)) (RmiImm next).
Definition runL (body : list inst) (n : Z) : lres Z := l_block Z evL lenvD rD body n newD.
Definition lfinal {W} (x : lres W) : jit := match x with LOk _ _ _ s | LFail _ _ _ s | LLeft _ _ s => s end.
Definition lworld {W} (x : lres W) : option W := match x with LLeft _ w _ => Some w | _ => None end.
Lemma lworld_ok {W} (x : lres W) w : lworld x = Some w -> x = LLeft W w (lfinal x).
Proof. destruct x; cbn; intro H; inversion H; subst. reflexivity. Qed.

(** The prefix of addsd is left behind; the whole of roundpd but its mode; nothing of a store. *)
Definition progS : list inst := [addN; IAddsd stop (XmXmm (ELit 1)); IRet].
Definition progR : list inst := [IRoundpd next (XmXmm next) stop; IRet].
Definition progM : list inst := [addN; IMovq (MovInd (mkInd (RExpr next) PScaleNone (PExpr false stop))) (MovReg (RExpr next)); IRet].
Lemma case55 : runL progS 5 = LLeft Z 7 (lfinal (runL progS 5)) /\ bytes (lfinal (runL progS 5)) P0 0 6 = [0x48; 0x83; 0xc6; 5; 0xf2; 0xcc] /\
  counter (pages (lfinal (runL progS 5)) P0) = 5.
Proof. split; [apply lworld_ok; vm_compute; reflexivity|]. split; vm_compute; reflexivity. Qed.
Lemma case55_mode : runL progR 1 = LLeft Z 3 (lfinal (runL progR 1)) /\ bytes (lfinal (runL progR 1)) P0 0 6 = [0x66; 0x0f; 0x3a; 0x09; 0xca; 0xcc] /\
  counter (pages (lfinal (runL progR 1)) P0) = 5.
Proof. split; [apply lworld_ok; vm_compute; reflexivity|]. split; vm_compute; reflexivity. Qed.
Lemma case55_clean : Forall (fun i => prefix_of i = None) progM /\ runL progM 5 = LLeft Z 9 (lfinal (runL progM 5)) /\
  bytes (lfinal (runL progM 5)) P0 0 5 = [0x48; 0x83; 0xc6; 5; 0xcc] /\ counter (pages (lfinal (runL progM 5)) P0) = 4.
Proof. split; [repeat constructor|]. split; [apply lworld_ok; vm_compute; reflexivity|]. split; vm_compute; reflexivity. Qed.

Lemma stray_prefix : exists W ev lenv r body w s w' s', reached s /\ l_block W ev lenv r body w s = LLeft W w' s' /\
  forall done rest r1 w1 s1, body = done ++ rest -> e_block W (staying ev) lenv r done w s = EOk W r1 w1 s1 -> s1 <> s'.
Proof.
  exists Z, evL, lenvD, rD, [IAddsd stop (XmXmm (ELit 1))], 5, newD. eexists. eexists. split; [exact reachedN|].
  split; [apply (lworld_ok _ 5); vm_compute; reflexivity|]. intros done rest r1 w1 s1 Hb He Hs.
  assert (C : counter (pages (lfinal (l_block Z evL lenvD rD [IAddsd stop (XmXmm (ELit 1))] 5 newD)) P0) = 1) by (vm_compute; reflexivity).
  rewrite <- Hs in C. destruct done as [|i done].
  - assert (H1 : s1 = newD) by (injection He; congruence). rewrite H1 in C. vm_compute in C. discriminate C.
  - injection Hb as <- Hb. destruct done; [|discriminate Hb].
    assert (F : counter (pages (final (e_block Z (staying evL) lenvD rD [IAddsd stop (XmXmm (ELit 1))] 5 newD)) P0) = 4) by (vm_compute; reflexivity).
    rewrite He in F. cbn [final] in F. congruence.
Qed.
(** movw R(stop()), 5 is left; then movl rax, rbx: the code is movw ax, bx. *)
Definition movl_ab : list inst := [IMovl (RmReg (RReg 0)) (RmiReg (RReg 3))].
Definition left_w : jit := lfinal (runL [IMovw (RmReg (RExpr stop)) (RmiReg (RReg 1))] 5).
Lemma next_changed : exists W ev lenv r body w s w' s' ev' r' s2, reached s /\ l_block W ev lenv r body w s = LLeft W w' s' /\
  step (OAsm ev' lenv r' movl_ab) s' = Ok None s2 /\ counter (pages s P0) = 0 /\ cur s = P0 /\
  forall rest, decode (bytes s2 P0 0 3 ++ rest) = Some (mkIns Mov W16 [OReg W16 0; OReg W16 3], rest).
Proof.
  exists Z, evL, lenvD, rD, [IMovw (RmReg (RExpr stop)) (RmiReg (RReg 1))], 5, newD, 5, left_w, evD, rD, (outcome (step (OAsm evD lenvD rD movl_ab) left_w)).
  split; [exact reachedN|]. split; [apply lworld_ok; vm_compute; reflexivity|].
  split; [assert (T : match step (OAsm evD lenvD rD movl_ab) left_w with Ok None _ => true | _ => false end = true) by (vm_compute; reflexivity);
          destruct (step (OAsm evD lenvD rD movl_ab) left_w) as [[l|] s2|e s2]; try discriminate T; reflexivity|].
  split; [reflexivity|]. split; [reflexivity|]. intro rest.
  assert (B : bytes (outcome (step (OAsm evD lenvD rD movl_ab) left_w)) P0 0 3 = [0x66; 0x89; 0xd8]) by (vm_compute; reflexivity). rewrite B. vm_compute. reflexivity.
Qed.
Lemma alone : bytes (outcome (step (OAsm evD lenvD rD movl_ab) newD)) P0 0 2 = [0x89; 0xd8] /\
  forall rest, decode ([0x89; 0xd8] ++ rest) = Some (mkIns Mov W32 [OReg W32 0; OReg W32 3], rest).
Proof. split; [vm_compute; reflexivity|intro; vm_compute; reflexivity]. Qed.
