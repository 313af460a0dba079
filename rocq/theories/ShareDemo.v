(** Two assemblers next to each other, used in turns. *)
From Verif Require Import Base ModelMem ModelEnc ModelSyntax ModelMacro SpecX86 SpecAsm SpecTaken SpecState SpecHist MemRun MemDemo SpecProg SpecMachine SpecScope SpecMulti MultiDemo SpecLive LiveDemo SpecShare ShareFacts ShareRun.
Local Notation length := List.length.
Local Open Scope list_scope.
Local Open Scope Z_scope.

Definition basesS (k : nat) : Z := match k with O => 65536 | _ => 65536 + 3 * PAGE_SIZE end.
Definition startS : world := fresh basesS (fun _ => 0xcc).
(** 0: a: movq rax, 5; b: jmp c; c: addq rax, 1; ret      1: jmp b; b: ret.
    The code of 0 is assembled while 1 is, and code somewhere else writes to the stack. *)
Definition preS : list event :=
  [Call 0 OLabel; Call 1 OLabel; Call 0 OLabel; Call 1 OLabel; Call 0 OLabel; Call 1 (asm [IJmp (DestRel "b")]); Call 0 (asm (bodyL "c"))].
Definition postS : list event := [Call 1 (asm [ILabel "b"; IRet]); Call 0 OFinalize; Call 1 (OBind 9%nat); Call 1 OFinalize].
Definition esS : list event := preS ++ Other (upd (shared (history preS startS)) 4096 7) :: postS.
Lemma one_other M pre m post : preS ++ Other M :: postS = pre ++ Other m :: post -> pre = preS /\ m = M.
Proof.
  intro E. unfold preS, postS in *. cbn [app] in E.
  do 7 (destruct pre as [|? pre]; [discriminate E|cbn [app] in E; injection E as <- E]).
  destruct pre as [|? pre]; [cbn [app] in E; injection E as <- _; auto|].
  cbn [app] in E; injection E as _ E; do 4 (destruct pre as [|? pre]; [discriminate E|cbn [app] in E; injection E as _ E]); destruct pre; discriminate E.
Qed.
Lemma listsS : answers 0 esS startS = [inl (Some 0%nat); inl (Some 1%nat); inl (Some 2%nat); inl None; inl None] /\
  answers 1 esS startS = [inl (Some 0%nat); inl (Some 1%nat); inl None; inl None; inr IndexOOB; inl None].
Proof. vm_compute. split; reflexivity. Qed.
Lemma codeS : let w := history esS startS in
  as_slice (view w 0) = [0x48; 0xb8; 5; 0; 0; 0; 0; 0; 0; 0; 0xe9; 0; 0; 0; 0; 0x48; 0x83; 0xc0; 1; 0xc3] /\ as_slice (view w 1) = [0xe9; 0; 0; 0; 0; 0xc3] /\ shared w 4096 = 7.
Proof. vm_compute. auto. Qed.
Lemma base_happen e w j : (forall i, sane (objs w i)) -> base (objs (happen e w) j) = base (objs w j) /\ (forall i, sane (objs (happen e w) i)).
Proof.
  intro H. destruct e as [k o|m]; [|split; [reflexivity|exact H]].
  assert (S : sane (view w k)) by (apply (sane_knows (objs w k)); [reflexivity|apply H]). split.
  - rewrite objs_call. destruct (Nat.eqb_spec j k) as [->|]; [|reflexivity]. apply (sane_step o (view w k) S).
  - intro i. rewrite objs_call. destruct (Nat.eqb i k); [|apply H]. apply (sane_step o (view w k) S).
Qed.
(** Assemblers apart, no raw patches: orderly if other code leaves the allocation of [k] alone. *)
Fixpoint quiet (k : nat) (es : list event) (w : world) : Prop :=
  match es with
  | [] => True
  | e :: r => match e with Call j o => is_patch o = false /\ (j <> k -> apart (base (objs w j)) (base (objs w k))) | Other m => True end /\ quiet k r w
  end.
Lemma quiet_orderly k : forall es w v, (forall i, sane (objs w i)) -> (forall i, base (objs v i) = base (objs w i)) -> quiet k es v ->
  (forall pre m post x, es = pre ++ Other m :: post -> owned (base (objs w k)) x -> m x = shared (history pre w) x) -> orderly k es w.
Proof.
  induction es as [|e r IH]; intros w v Hs Hb Hq Ho; [apply ord_none|]. destruct Hq as [He Hq].
  assert (R : orderly k r (happen e w)).
  { apply (IH _ v); auto.
    - apply (base_happen e w k Hs).
    - intro i. rewrite Hb. symmetry. apply base_happen, Hs.
    - intros pre m post x E Hx. apply (Ho (e :: pre) m post x); [rewrite E; reflexivity|]. rewrite (proj1 (base_happen e w k Hs)) in Hx. exact Hx. }
  destruct e as [j o|m]; [apply ord_call|apply ord_other]; auto.
  - rewrite <- !Hb. apply He.
  - destruct He as [He _]. destruct o; try exact I; discriminate He.
  - intros x Hx. apply (Ho [] m r x); auto.
Qed.
Lemma orderlyS k : (k = 0 \/ k = 1)%nat -> orderly k esS startS.
Proof.
  intro Hk. assert (A : forall j, (j = 0 \/ j = 1)%nat -> j <> k -> apart (base (objs startS j)) (base (objs startS k))).
  { intros j Hj N. change (apart (basesS j) (basesS k)). unfold apart, basesS. destruct Hj as [-> | ->], Hk as [-> | ->]; try (elim N; reflexivity); [left|right]; apply Z.le_refl. }
  apply (quiet_orderly k esS startS startS).
  - intro i. apply sane_new.
  - reflexivity.
  - unfold esS, preS, postS. cbn [app quiet]. repeat (apply conj; [first [exact I|split; [reflexivity|apply A; auto]]|]). exact I.
  - intros pre m post x E Hx. apply one_other in E. destruct E as [-> ->]. unfold upd. destruct (x =? 4096) eqn:E4; [|reflexivity]. exfalso.
    change (owned (basesS k) x) in Hx. unfold owned, basesS, PAGE_SIZE in Hx. destruct Hk as [-> | ->]; lia.
Qed.
(** A raw patch of assembler 1 at an address of assembler 0 writes there. *)
Definition strayS : list event := [Call 0 (asm [IRet; IRet; IRet; IRet; IRet]); Call 1 OLabel; Call 1 (OBind 0%nat); Call 1 (OPatchAddr 65536 0%nat)].
Lemma strayS_writes : answers 1 strayS startS = [inl (Some 0%nat); inl None; inl None] /\ ~ owned (basesS 1) 65537 /\ owned (basesS 0) 65537 /\
  shared (history strayS startS) 65537 = 251 /\ mem (run_any (calls_on 0 strayS) (jit_new (basesS 0) (fun _ => 0xcc))) 65537 = 0xc3.
Proof. split; [vm_compute; reflexivity|]. split; [unfold owned, basesS, PAGE_SIZE; lia|]. split; [unfold owned, basesS, PAGE_SIZE; lia|]. split; vm_compute; reflexivity. Qed.
(** The calls on assembler 0, wherever its memory comes from, make the block [blkL "c"]. *)
Definition opsS : list op := [OLabel; OLabel; OLabel; asm (bodyL "c")].
Lemma calls0 : calls_on 0 esS = opsS ++ [OFinalize]. Proof. reflexivity. Qed.
Lemma run_any_run : forall ops s s', run ops s = Some s' -> run_any ops s = s'.
Proof.
  induction ops as [|o r IH]; intros s s' H; [injection H as <-; reflexivity|]. cbn [run run_any] in *. unfold after in H.
  destruct (step o s) as [a t|e t]; [apply IH, H|]. destruct (tolerated o e); [apply IH, H|discriminate].
Qed.
Section Memory.
Variable m : Z -> Z.
Let s0 : jit := jit_new 65536 m.
Lemma runS : run (opsS ++ [OFinalize]) s0 = Some (the (run (opsS ++ [OFinalize]) s0)). Proof. apply some_the. vm_compute. reflexivity. Qed.
Lemma blocksS : blocks opsS s0 = [blkL "c"]. Proof. vm_compute. reflexivity. Qed.
Lemma blocksS' : blocks (opsS ++ [OFinalize]) s0 = [blkL "c"]. Proof. vm_compute. reflexivity. Qed.
Lemma boundS : bound_once (opsS ++ [OFinalize]) s0.
Proof.
  split.
  - intros pre o rest s l E Hr Hb.
    assert (D : (pre = firstn 3 opsS /\ o = asm (bodyL "c")) \/ match o with OLabel | OSelect _ | OFinalize => True | _ => False end).
    { unfold opsS in *. cbn [app firstn] in *. do 5 (destruct pre as [|? pre]; [injection E as <- _; auto 8|cbn [app] in E; injection E as <- E]). destruct pre; discriminate E. }
    apply free_ok. destruct D as [[-> ->]|D]; [|elim (no_call o l D Hb)].
    apply (state_of _ _ s (free l) Hr); clear Hr E; destruct Hb as (x & Hx & <-); cbn in Hx; intuition; try discriminate; match goal with H : ILabel _ = ILabel _ |- _ => injection H as <- end; vm_compute; repeat split.
  - intros b Hb. rewrite blocksS' in Hb. destruct Hb as [<-|[]]. vm_compute. repeat constructor; cbn; intuition discriminate.
Qed.
Lemma livesS : lives s0 (run_any (opsS ++ [OFinalize]) s0) [blkL "c"].
Proof.
  rewrite (run_any_run _ _ _ runS). rewrite <- blocksS. apply (lives_grow s0 opsS s0 _ [] (lives_none s0)); [reflexivity|exact runS|exact boundS|].
  intros b Hb. rewrite blocksS in Hb. destruct Hb as [<-|[]].
  split; [repeat split; cbn; auto; repeat constructor|]; intros x Hx; vm_compute in Hx; intuition; subst; vm_compute in *; discriminate.
Qed.
End Memory.
Lemma lives0 : lives (jit_new (basesS 0) (around (basesS 0) (fun _ => 0xcc) (shared (history esS startS))))
  (run_any (calls_on 0 esS) (jit_new (basesS 0) (around (basesS 0) (fun _ => 0xcc) (shared (history esS startS))))) [blkL "c"].
Proof. rewrite calls0. apply livesS. Qed.
Lemma case61 : orderly 0 esS startS /\ orderly 1 esS startS /\
  answers 0 esS startS = [inl (Some 0%nat); inl (Some 1%nat); inl (Some 2%nat); inl None; inl None] /\
  answers 1 esS startS = [inl (Some 0%nat); inl (Some 1%nat); inl None; inl None; inr IndexOOB; inl None] /\
  as_slice (view (history esS startS) 0) = [0x48; 0xb8; 5; 0; 0; 0; 0; 0; 0; 0; 0xe9; 0; 0; 0; 0; 0x48; 0x83; 0xc0; 1; 0xc3] /\
  as_slice (view (history esS startS) 1) = [0xe9; 0; 0; 0; 0; 0xc3] /\ shared (history esS startS) 4096 = 7.
Proof.
  split; [apply orderlyS; auto|]. split; [apply orderlyS; auto|]. split; [apply listsS|]. split; [apply listsS|]. exact codeS.
Qed.
