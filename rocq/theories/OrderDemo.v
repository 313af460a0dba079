(** Code on two pages, written in turn and one page after the other. *)
From Verif Require Import Base ModelMem ModelEnc ModelSyntax ModelMacro SpecState SpecProg SpecHist SpecShare MemDemo SpecOrder OrderRun.
Local Open Scope list_scope.
Local Open Scope Z_scope.

(** a: jmp b  on page 0;  b: call a  on page 1;  jmp b; ret  on page 0;  0x90  on page 1 *)
Definition uA1 : Z * op := (0, asm [ILabel "a"; IJmp (DestRel "b")]).
Definition uB1 : Z * op := (1, asm [ILabel "b"; ICall (DestRel "a")]).
Definition uA2 : Z * op := (0, asm [IJmp (DestRel "b"); IRet]).
Definition uB2 : Z * op := (0, OPage (Some 1) (CEmitb 0x90)).
Definition hO (us : list (Z * op)) : list (Z * op) := [(0, OLabel); (0, OLabel)] ++ us ++ [(1, OCreate (KAbs 0%nat)); (0, OFinalize)].
Lemma binds_uA1 l : binds (snd uA1) l -> l = 0%nat. Proof. intros (x & [<-|[]] & <-). reflexivity. Qed.
Lemma binds_uB1 l : binds (snd uB1) l -> l = 1%nat. Proof. intros (x & [<-|[]] & <-). reflexivity. Qed.
Lemma binds_uA2 l : ~ binds (snd uA2) l. Proof. intros (x & [] & _). Qed.
Lemma binds_uB2 l : ~ binds (snd uB2) l. Proof. intros []. Qed.
Definition viewO (us : list (Z * op)) : option (list Z * list Z * list Z) :=
  option_map (fun s => (bytes s P0 0 11, bytes s P1 0 6, bytes s P1 8 8)) (run (calls (hO us)) newD).
Lemma case73 : let a := hO [uA1; uB1; uA2; uB2] in let b := hO [uB1; uB2; uA1; uA2] in
  Forall selectable a /\ Forall (fun u => api (snd u) = true) a /\ reordered a b /\
  viewO [uA1; uB1; uA2; uB2] = Some ([0xe9; 0xfb; 0xff; 0xff; 0x0f; 0xe9; 0xf6; 0xff; 0xff; 0x0f; 0xc3], [0xe8; 0xfb; 0xff; 0xff; 0xef; 0x90], [0; 0; 1; 0; 0; 0; 0; 0]) /\
  viewO [uB1; uB2; uA1; uA2] = viewO [uA1; uB1; uA2; uB2].
Proof.
  cbv zeta. split; [unfold hO; cbn [app]; repeat (apply Forall_cons; [unfold selectable; cbn; auto|]); apply Forall_nil|]. split; [unfold hO; repeat constructor|]. split.
  { unfold hO. set (t := [(1, OCreate (KAbs 0%nat)); (0, OFinalize)]).
    apply reordered_trans with ([(0, OLabel); (0, OLabel)] ++ [uB1; uA1; uA2; uB2] ++ t).
    { apply (reordered_swap [(0, OLabel); (0, OLabel)] uA1 uB1 ([uA2; uB2] ++ t)); try reflexivity; [discriminate|]. intros l [H1 H2]. apply binds_uA1 in H1. apply binds_uB1 in H2. congruence. }
    apply reordered_trans with ([(0, OLabel); (0, OLabel)] ++ [uB1; uA1; uB2; uA2] ++ t).
    { apply (reordered_swap [(0, OLabel); (0, OLabel); uB1; uA1] uA2 uB2 t); try reflexivity; [discriminate|]. intros l [H1 H2]. exact (binds_uA2 l H1). }
    apply (reordered_swap [(0, OLabel); (0, OLabel); uB1] uA1 uB2 ([uA2] ++ t)); try reflexivity; [discriminate|]. intros l [H1 H2]. exact (binds_uB2 l H2). }
  split; vm_compute; reflexivity.
Qed.
