(** Concrete histories: cases that meet the hypotheses of the statements about
    histories, and witnesses against the statements that do not hold as written. *)
From Verif Require Import Base ModelMem ModelEnc ModelSyntax ModelMacro SpecX86 SpecState SpecHist MemRun MemThm.

Definition evD : list tok -> env -> Z := fun _ _ => 0.
Definition rD : env := fun _ => 0.
Open Scope string_scope.
(** Labels a, b made by label(), c an f64 constant, p an absolute address of b, d a datum. *)
Definition lenvD (x : string) : label :=
  if String.eqb x "a" then 0%nat else if String.eqb x "b" then 1%nat else if String.eqb x "c" then 2%nat else if String.eqb x "p" then 3%nat else 4%nat.
Definition riprel (x : string) : ind_addr := mkInd (RReg 16) PScaleNone (PLabel x).
Definition asm (body : list inst) : op := OAsm evD lenvD rD body.
Definition newD : jit := jit_new 65536 (fun _ => 0xcc).
(** jmp a;  b: movsd xmm0,[rip+c]; ret  on page 0;  call b  on page 1; a is not bound. *)
Definition h1 : list op :=
  [OLabel; OLabel; OCreate (KF64 0x3ff0000000000000); OCreate (KAbs 1%nat); OCreate (DI64 77);
   asm [IJmp (DestRel "a"); ILabel "b"; IMovsd (XmXmm (ELit 0)) (XmInd (riprel "c")); IRet];
   OSelect 1; asm [ICall (DestRel "b")]; OSelect 0].
(** After the first finalize, a is bound behind the constants and more code follows. *)
Definition h2 : list op := [asm [ILabel "a"; IRet]].
Definition the (o : option jit) : jit := match o with Some s => s | None => newD end.
Definition sA : jit := the (run h1 newD).
Definition sB : jit := the (after OFinalize sA).
Definition sC : jit := the (run h2 sB).
Definition sD : jit := the (after OFinalize sC).
Lemma some_the o : match o with Some _ => true | None => false end = true -> o = Some (the o).
Proof. destruct o; [reflexivity|discriminate]. Qed.
Lemma runA : run h1 newD = Some sA. Proof. apply some_the. vm_compute. reflexivity. Qed.
Lemma runB : after OFinalize sA = Some sB. Proof. apply some_the. vm_compute. reflexivity. Qed.
Lemma runC : run h2 sB = Some sC. Proof. apply some_the. vm_compute. reflexivity. Qed.
Lemma runD : after OFinalize sC = Some sD. Proof. apply some_the. vm_compute. reflexivity. Qed.
Lemma reachedA : reached sA. Proof. exact (reached_run h1 newD sA (reached_new _ _) eq_refl runA). Qed.
Lemma reachedB : reached sB. Proof. exact (reached_api OFinalize sA sB reachedA eq_refl runB). Qed.
Lemma reachedC : reached sC. Proof. exact (reached_run h2 sB sC reachedB eq_refl runC). Qed.
Lemma reachedD : reached sD. Proof. exact (reached_api OFinalize sC sD reachedC eq_refl runD). Qed.

(** Page 0 after the second finalize: jmp a (to 32), movsd xmm0,[rip+3] (the constant at 16), ret,
    two bytes never written, 1.0, the address of b, and ret at a. *)
Lemma page0 : bytes sD P0 0 33 =
  [0xe9; 27; 0; 0; 0; 0xf2; 0x0f; 0x10; 5; 3; 0; 0; 0; 0xc3; 0xcc; 0xcc;
   0; 0; 0; 0; 0; 0; 0xf0; 0x3f; 5; 0; 1; 0; 0; 0; 0; 0; 0xc3].
Proof. vm_compute. reflexivity. Qed.
(** A call that returns a label; a call that returns none. *)
Lemma ok_label (r : res (option label)) l : match r with Ok (Some k) _ => Nat.eqb k l | _ => false end = true -> r = Ok (Some l) (outcome r).
Proof. destruct r as [[k|] s|]; try discriminate. intro H. apply Nat.eqb_eq in H. subst. reflexivity. Qed.
Lemma ok_unit (r : res unit) : match r with Ok _ _ => true | _ => false end = true -> r = Ok tt (outcome r).
Proof. destruct r as [[] s|]; [reflexivity|discriminate]. Qed.
Lemma ok_none (r : res (option label)) : match r with Ok None _ => true | _ => false end = true -> r = Ok None (outcome r).
Proof. destruct r as [[k|] s|]; try discriminate; reflexivity. Qed.

(** Creation of the constant c in [sK], to the first finalize, [sK2]. *)
Definition sK : jit := the (run [OLabel; OLabel] newD).
Lemma reachedK : reached sK.
Proof. apply (reached_run [OLabel; OLabel] newD); [apply reached_new|reflexivity|]. apply some_the. vm_compute. reflexivity. Qed.
Definition hK : list op := [OCreate (KAbs 1%nat); OCreate (DI64 77);
   asm [IJmp (DestRel "a"); ILabel "b"; IMovsd (XmXmm (ELit 0)) (XmInd (riprel "c")); IRet];
   OSelect 1; asm [ICall (DestRel "b")]; OSelect 0].
Definition sK0 : jit := outcome (step (OCreate (KF64 0x3ff0000000000000)) sK).
Definition sK1 : jit := the (run hK sK0).
Definition sK2 : jit := the (after OFinalize sK1).
Lemma createdK : created_then sK (KF64 0x3ff0000000000000) 2%nat hK sK1 sK2.
Proof.
  exists sK0. split; [apply ok_label; vm_compute; reflexivity|]. split; [reflexivity|]. split; [reflexivity|].
  split; apply some_the; vm_compute; reflexivity.
Qed.
(** Creation of the absolute address of label a, which is bound only after the first finalize. *)
Definition sP : jit := outcome (step (OCreate (KAbs 0%nat)) sK).
Definition sP' : jit := the (after OFinalize sP).
Definition hP' : list op := [asm [IRet; ILabel "a"]; OFinalize; asm [IRet]; OFinalize].
Definition sP'' : jit := the (run hP' sP').
Lemma createdP : created_then sK (KAbs 0%nat) 2%nat [] sP sP'.
Proof.
  exists sP. split; [apply ok_label; vm_compute; reflexivity|]. split; [reflexivity|]. split; [reflexivity|].
  split; [reflexivity|]. apply some_the. vm_compute. reflexivity.
Qed.
Lemma runP : run hP' sP' = Some sP''. Proof. apply some_the. vm_compute. reflexivity. Qed.

(** ** Cases *)
Ltac vm := vm_compute; reflexivity.
Lemma case10 : reached sA /\ refs sA 1%nat = [Rel P1 4 1] /\ after OFinalize sA = Some sB /\
  label_addr sB 1%nat = Some 65541 /\ field sB (Rel P1 4 1) = [0; 0; 0; 0xf0] /\ ref_dest sB (Rel P1 4 1) = 65541.
Proof. split; [exact reachedA|]. split; [vm|]. split; [exact runB|]. split; [vm|]. split; vm. Qed.
Lemma case11 : reached sA /\ refs sA 0%nat = [Rel P0 4 1] /\ after OFinalize sA = Some sB /\ label_addr sB 0%nat = None /\
  field sB (Rel P0 4 1) = [0; 0; 0; 0] /\ run h2 sB = Some sC /\ after OFinalize sC = Some sD /\ label_addr sD 0%nat = Some 65568 /\
  ref_dest sD (Rel P0 4 1) = 65568.
Proof.
  split; [exact reachedA|]. split; [vm|]. split; [exact runB|]. split; [vm|]. split; [vm|]. split; [exact runC|]. split; [exact runD|].
  split; vm.
Qed.
Lemma case12 : exists s', step OFinalize (run_any [OCreate (KAbs 9%nat)] newD) = Panic IndexOOB s'.
Proof.
  assert (H : match step OFinalize (run_any [OCreate (KAbs 9%nat)] newD) with Panic IndexOOB _ => true | _ => false end = true) by vm.
  destruct (step OFinalize _) as [|[]]; try discriminate. eauto.
Qed.
Lemma case13 : reached sA /\ after OFinalize sA = Some sB /\ counter (pages sA P0) = 14 /\
  bytes sA P0 0 14 = [0xe9; 0; 0; 0; 0; 0xf2; 0x0f; 0x10; 5; 0; 0; 0; 0; 0xc3] /\
  bytes sB P0 0 14 = [0xe9; 0; 0; 0; 0; 0xf2; 0x0f; 0x10; 5; 3; 0; 0; 0; 0xc3].
Proof. split; [exact reachedA|]. split; [exact runB|]. split; [vm|]. split; vm. Qed.
(** A page with three bytes left. *)
Definition sEnd : jit := mkJit 65536 (fun _ => 0) P1 (fun _ => with_counter (PAGE_SIZE - 3) page_new) [].
Lemma case14 : (exists s', step (OPage None (CEmitl 7)) sEnd = Panic PageOverflow s') /\ (exists s', step (OPage None (CEmitw 7)) sEnd = Ok None s').
Proof.
  split.
  - assert (H : match step (OPage None (CEmitl 7)) sEnd with Panic PageOverflow _ => true | _ => false end = true) by vm.
    destruct (step (OPage None (CEmitl 7)) sEnd) as [|[]]; try discriminate. eauto.
  - eexists. apply ok_none. vm.
Qed.
Definition sA1 : jit := the (after (OSelect 1) sA).
Lemma case15 : reached sA1 /\ cur sA1 = P1 /\ target_page (asm [IRet]) sA1 = Some P1 /\
  counter (pages (outcome (step (asm [IRet]) sA1)) P1) = 6 /\ counter (pages (outcome (step (asm [IRet]) sA1)) P0) = 14.
Proof.
  split; [apply (reached_api (OSelect 1) sA); [exact reachedA|reflexivity|apply some_the; vm]|].
  split; [vm|]. split; [vm|]. split; vm.
Qed.
Lemma case16 : reached sK /\ created_then sK (KF64 0x3ff0000000000000) 2%nat hK sK1 sK2 /\ loc_of sK2 2%nat = Some (P0, 16) /\
  bytes sK2 P0 16 8 = [0; 0; 0; 0; 0; 0; 0xf0; 0x3f].
Proof. split; [exact reachedK|]. split; [exact createdK|]. split; vm. Qed.
Lemma case17 : loc_of sB 4%nat = Some (P2, 0) /\ bytes sB P2 0 8 = [77; 0; 0; 0; 0; 0; 0; 0] /\ on_data_page (asm [IRet]) = false.
Proof. split; [vm|]. split; vm. Qed.
Lemma case18 : created_then sK (KAbs 0%nat) 2%nat [] sP sP' /\ label_addr sP' 0%nat = None /\ bytes sP' P0 0 8 = [0; 0; 0; 0; 0; 0; 0; 0] /\
  run hP' sP' = Some sP'' /\ label_addr sP'' 0%nat = Some 65545 /\ bytes sP'' P0 0 8 = [9; 0; 1; 0; 0; 0; 0; 0].
Proof. split; [exact createdP|]. split; [vm|]. split; [vm|]. split; [exact runP|]. split; vm. Qed.
Lemma case19 : returned h1 newD = [0; 1; 2; 3; 4]%nat /\ label_addr sB 1%nat = Some 65541 /\ label_addr sD 1%nat = Some 65541 /\
  label_addr sB 0%nat = None.
Proof. split; [vm|]. split; [vm|]. split; vm. Qed.
Definition sB1 : jit := the (run [OSelect 1; OLabel] sB).
Definition sB2 : jit := the (after OFinalize sB1).
Lemma case20 : reached sA /\ after OFinalize sA = Some sB /\ run [OSelect 1; OLabel] sB = Some sB1 /\ after OFinalize sB1 = Some sB2 /\
  bytes sB2 P0 0 40 = bytes sB P0 0 40 /\ counter (pages sB P0) = 32.
Proof.
  split; [exact reachedA|]. split; [exact runB|]. split; [apply some_the; vm|]. split; [apply some_the; vm|]. split; vm.
Qed.
Lemma case21 : reached sC /\ after OFinalize sC = Some sD /\ code_block (pages sD P0) = [(0, 14, 32); (32, 33, 33)] /\ counter (pages sD P0) = 33.
Proof. split; [exact reachedC|]. split; [exact runD|]. split; vm. Qed.
Lemma case22 : after OFinalize sA = Some sB /\ run h2 sB = Some sC /\ after OFinalize sC = Some sD /\
  dump_slice sB = Some (bytes sB P0 0 14) /\ dump_slice sD = Some [0xc3].
Proof. split; [exact runB|]. split; [exact runC|]. split; [exact runD|]. split; vm. Qed.
Lemma case24 : cur sD = P0 /\ include sD 65536 = true /\ include sD 65535 = false.
Proof. split; [vm|]. split; vm. Qed.
Lemma case32 : cop_bytes (CEmitl 0x12345678) = Some [0x78; 0x56; 0x34; 0x12] /\
  bytes (outcome (step (OPage None (CEmitl 0x12345678)) sD)) P0 33 4 = [0x78; 0x56; 0x34; 0x12] /\ cursor sD = 33.
Proof. split; [vm|]. split; vm. Qed.
Lemma label_pointer s l a : label_addr s l = Some a -> a <> 0 -> get_label_address l s = Ok a s.
Proof. intros H Hz. pose proof (getters_agree s l) as G. rewrite H in G. apply G, Hz. Qed.
Lemma case36 : reached sD /\ code_pointer sD 65541 /\ code_pointer sD 65569 /\ codeptr_sub 65541 65569 = -28.
Proof.
  split; [exact reachedD|]. split; [right; exists 1%nat; apply label_pointer; [vm|discriminate]|].
  split; [|vm]. left. unfold get_current_address, bind, ModelMem.get, codeptr.
  replace (addr sD (cur sD) (counter (pages sD (cur sD)))) with 65569 by vm. reflexivity.
Qed.

(** ** Witnesses *)
(** jmp patched before its reference is resolved: finalize overwrites the patch.
    The instruction is jmp a; it is patched to go to b, then a is linked. *)
Definition hW : list op := [OLabel; OLabel; OLabel; OBind 2%nat; asm [IJmp (DestRel "a"); ILabel "a"; IRet; ILabel "b"; IRet]].
Definition sW : jit := the (run hW newD).
Definition sW' : jit := outcome (apply_jmp_patch 2%nat 1%nat sW).
Definition sW'' : jit := the (after OFinalize sW').
Lemma reachedW : reached sW.
Proof. apply (reached_run hW newD); [apply reached_new|reflexivity|apply some_the; vm]. Qed.
(** A patch of a branch whose own reference is still pending is lost. *)
Lemma patch_lost : exists s p d s' s'', reached s /\ apply_jmp_patch p d s = Ok tt s' /\ after OFinalize s' = Some s'' /\
  exists q x, loc_of s p = Some (q, x) /\ bytes s'' q x 5 <> bytes s' q x 5.
Proof.
  exists sW, 2%nat, 1%nat, sW', sW''. split; [exact reachedW|]. split; [apply ok_unit; vm|]. split; [apply some_the; vm|].
  exists P0, 0. split; [vm|]. vm_compute. discriminate.
Qed.
(** The same code with the reference resolved first. *)
Definition sX : jit := the (after OFinalize sW).
Lemma case23 : reached sX /\ loc_of sX 2%nat = Some (P0, 0) /\ byte sX P0 0 = 0xe9 /\ label_addr sX 1%nat = Some 65542 /\
  bytes sX P0 0 7 = [0xe9; 0; 0; 0; 0; 0xc3; 0xc3] /\ bytes (outcome (apply_jmp_patch 2%nat 1%nat sX)) P0 0 7 = [0xe9; 1; 0; 0; 0; 0xc3; 0xc3].
Proof.
  split; [apply (reached_api OFinalize sW); [exact reachedW|reflexivity|apply some_the; vm]|].
  split; [vm|]. split; [vm|]. split; [vm|]. split; vm.
Qed.
Lemma page2_emits : exists s s', reached s /\ step (OPage (Some 2) (CEmitb 1)) s = Ok None s' /\ counter (pages s' P2) <> counter (pages s P2).
Proof. exists newD. eexists. split; [apply reached_new|]. split; [apply ok_none; vm|]. vm_compute. discriminate. Qed.
(** include is asked about the selected page and the one after it. *)
Definition newD1 : jit := the (after (OSelect 1) newD).
Lemma reached_D1 : reached newD1.
Proof. apply (reached_api (OSelect 1) newD); [apply reached_new|reflexivity|apply some_the; vm]. Qed.
Lemma include_witness : exists s ptr, reached s /\ (exists p i, p <> P2 /\ 0 <= i < PAGE_SIZE /\ ptr = addr s p i) /\ include s ptr = false.
Proof.
  exists newD1, 65536. split; [exact reached_D1|]. split; [|vm].
  exists P0, 0. split; [discriminate|]. split; [unfold PAGE_SIZE; lia|vm].
Qed.
Lemma include_data : exists s i, reached s /\ 0 <= i < PAGE_SIZE /\ include s (addr s P2 i) = true.
Proof. exists newD1, 0. split; [exact reached_D1|]. split; [unfold PAGE_SIZE; lia|vm]. Qed.
