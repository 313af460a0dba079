(** One program with its labels created in another order. *)
From Verif Require Import Base ModelMem ModelEnc ModelSyntax ModelMacro SpecState SpecHist SpecShare MemDemo SpecRename RenameRun.
Local Notation length := List.length.
Local Open Scope list_scope.
Local Open Scope Z_scope.

(** a = label(); a: jmp a;  b = label(); jmp b; b: call a; ret;  abs_address(b); data_i32(9); finalize *)
Definition hA : list op :=
  [OLabel; asm [ILabel "a"; IJmp (DestRel "a")]; OLabel; asm [IJmp (DestRel "b"); ILabel "b"; ICall (DestRel "a"); IRet]; OCreate (KAbs 1%nat); OCreate (DI32 9); OFinalize].
(** The same with a label that is not used, then b, then a. *)
Definition fAB (l : label) : label := match l with 0%nat => 2%nat | 1%nat => 1%nat | S (S k) => S (S (S k)) end.
Definition hB : list op :=
  [OLabel; OLabel; OLabel; OAsm evD (fun x => fAB (lenvD x)) rD [ILabel "a"; IJmp (DestRel "a")];
   OAsm evD (fun x => fAB (lenvD x)) rD [IJmp (DestRel "b"); ILabel "b"; ICall (DestRel "a"); IRet]; OCreate (KAbs 1%nat); OCreate (DI32 9); OFinalize].
Lemma fAB_inj x y : fAB x = fAB y -> x = y.
Proof. destruct x as [|[|x]], y as [|[|y]]; cbn; congruence. Qed.
Ltac given_tac := let H := fresh in intros ? H; cbn in H; try contradiction; try (destruct H as (? & H & <-)); repeat match type of H with _ \/ _ => destruct H as [H|H] end; subst; try contradiction; vm_compute; split; repeat constructor.
Lemma case72 : (forall x y, fAB x = fAB y -> x = y) /\ alike fAB 0 0 hA hB /\ forallb api hA = true /\
  replies hA newD = [inl None; inl None; inl (Some 2%nat); inl (Some 3%nat); inl None] /\
  replies hB newD = [inl None; inl None; inl (Some 3%nat); inl (Some 4%nat); inl None] /\
  match run hA newD, run hB newD with
  | Some s1, Some s2 => bytes s1 P0 0 16 = [0xe9; 0xfb; 0xff; 0xff; 0xff; 0xe9; 0; 0; 0; 0; 0xe8; 0xf1; 0xff; 0xff; 0xff; 0xc3] /\
      bytes s1 P0 16 8 = [10; 0; 1; 0; 0; 0; 0; 0] /\ bytes s1 P2 0 4 = [9; 0; 0; 0] /\
      bytes s2 P0 0 24 = bytes s1 P0 0 24 /\ bytes s2 P2 0 4 = bytes s1 P2 0 4
  | _, _ => False
  end.
Proof.
  split; [exact fAB_inj|]. split.
  { unfold hA, hB. apply alike_right, alike_right, alike_right, alike_left.
    refine (alike_call fAB _ _ (asm [ILabel "a"; IJmp (DestRel "a")]) _ _ _ _ _ _); [discriminate|discriminate|given_tac|]. apply alike_left.
    refine (alike_call fAB _ _ (asm [IJmp (DestRel "b"); ILabel "b"; ICall (DestRel "a"); IRet]) _ _ _ _ _ _); [discriminate|discriminate|given_tac|].
    refine (alike_create fAB _ _ (KAbs 1%nat) _ _ _ _ _); [given_tac|reflexivity|]. refine (alike_create fAB _ _ (DI32 9) _ _ _ _ _); [given_tac|reflexivity|].
    refine (alike_call fAB _ _ OFinalize _ _ _ _ _ _); [discriminate|discriminate|given_tac|]. constructor. }
  split; [reflexivity|]. split; [vm_compute; reflexivity|]. split; [vm_compute; reflexivity|]. vm_compute. repeat split.
Qed.
