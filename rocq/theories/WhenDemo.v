(** Histories that call finalize early and late. *)
From Verif Require Import Base ModelMem ModelEnc ModelSyntax ModelMacro SpecState SpecHist SpecShare MemRun MemDemo SpecWhen.
Local Notation length := List.length.
Local Open Scope list_scope.
Local Open Scope Z_scope.

Definition bound_by (o : op) : list label :=
  match o with
  | OBind k | OBindPage _ k => [k]
  | OAsm _ lenv _ body => flat_map (fun i => match i with ILabel x => [lenv x] | _ => [] end) body
  | OEnc _ lenv _ (GBindLabel x) => [lenv x]
  | _ => []
  end.
Lemma bound_by_all o l : binds_label o l -> In l (bound_by o).
Proof.
  destruct o; cbn [binds_label bound_by]; intro H; try tauto; try (left; congruence).
  - destruct H as (x & Hx & <-). apply in_flat_map. exists (ILabel x). split; [exact Hx|left; reflexivity].
  - match type of H with match ?c with _ => _ end => destruct c; try tauto end. left. exact H.
Qed.
Fixpoint timed (ops : list op) (s : jit) : bool :=
  match ops with
  | [] => true
  | o :: r =>
      (if is_finalize o then forallb (fun p => match waiting s p with [] => true | _ => false end) all_pages else true) &&
      forallb (fun l => match label_addr s l with None => true | Some _ => false end) (bound_by o) &&
      match after o s with Some s' => timed r s' | None => true end
  end.
Lemma timed_ok : forall ops s, timed ops s = true -> well_timed ops s.
Proof.
  induction ops as [|o ops IH]; intros s H; cbn [timed well_timed] in *; [exact I|]. apply andb_true_iff in H. destruct H as [H H3]. apply andb_true_iff in H. destruct H as [H1 H2].
  split; [|split].
  - intros Hf p. rewrite Hf in H1. rewrite forallb_forall in H1. specialize (H1 p ltac:(destruct p; cbn; auto)). destruct (waiting s p); [reflexivity|discriminate].
  - intros l Hl. apply bound_by_all in Hl. rewrite forallb_forall in H2. specialize (H2 l Hl). destruct (label_addr s l); [discriminate|reflexivity].
  - destruct (after o s); [apply IH, H3|exact I].
Qed.

(** jmp a; a: jmp b      finalize      b: call a; jmp c      finalize      const_i64(7); data_i32(9)
    c: call b; ret      finalize:  the first links a, the second b, the third c, and places the constants. *)
Definition jmpW (x : string) : inst := IJmp (DestRel x).
Definition hW : list op :=
  [OLabel; OLabel; OLabel; asm [jmpW "a"; ILabel "a"; jmpW "b"]; OFinalize; asm [ILabel "b"; ICall (DestRel "a"); jmpW "c"]; OFinalize;
   OCreate (KI64 7); OCreate (DI32 9); asm [ILabel "c"; ICall (DestRel "b"); IRet]].
Definition lateW : list op :=
  [OLabel; OLabel; OLabel; asm [jmpW "a"; ILabel "a"; jmpW "b"]; asm [ILabel "b"; ICall (DestRel "a"); jmpW "c"];
   OCreate (KI64 7); OCreate (DI32 9); asm [ILabel "c"; ICall (DestRel "b"); IRet]].
Definition viewW (ops : list op) : option (list Z * list Z * list Z * list (option (pid * Z)) * list (Z * Z * Z)) :=
  option_map (fun s => (bytes s P0 0 28, bytes s P0 32 8, bytes s P2 0 4, map (loc_of s) (seq 0 5), code_block (pages s P0))) (run ops newD).
Lemma case70 : reached newD /\ forallb api hW = true /\ well_timed hW newD /\ put_off hW = lateW /\
  viewW (hW ++ [OFinalize]) = Some
    ([0xe9; 0; 0; 0; 0; 0xe9; 0; 0; 0; 0; 0xe8; 0xf6; 0xff; 0xff; 0xff; 0xe9; 0; 0; 0; 0; 0xe8; 0xf1; 0xff; 0xff; 0xff; 0xc3; 0xcc; 0xcc], [7; 0; 0; 0; 0; 0; 0; 0], [9; 0; 0; 0],
     [Some (P0, 5); Some (P0, 10); Some (P0, 20); Some (P0, 32); Some (P2, 0)], [(0, 10, 10); (10, 20, 20); (20, 26, 40)]) /\
  viewW (lateW ++ [OFinalize]) = Some
    ([0xe9; 0; 0; 0; 0; 0xe9; 0; 0; 0; 0; 0xe8; 0xf6; 0xff; 0xff; 0xff; 0xe9; 0; 0; 0; 0; 0xe8; 0xf1; 0xff; 0xff; 0xff; 0xc3; 0xcc; 0xcc], [7; 0; 0; 0; 0; 0; 0; 0], [9; 0; 0; 0],
     [Some (P0, 5); Some (P0, 10); Some (P0, 20); Some (P0, 32); Some (P2, 0)], [(0, 26, 40)]).
Proof.
  split; [apply reached_new|]. split; [reflexivity|]. split; [apply timed_ok; vm_compute; reflexivity|]. split; [reflexivity|]. split; vm_compute; reflexivity.
Qed.
(** A label bound again: the jump goes to the first binding if finalize is called between. *)
Definition hW2 : list op := [OLabel; asm [jmpW "a"; ILabel "a"]; OFinalize; asm [IRet; ILabel "a"; IRet]].
Lemma case70_again : timed hW2 newD = false /\
  option_map (fun s => bytes s P0 0 7) (run (hW2 ++ [OFinalize]) newD) = Some [0xe9; 0; 0; 0; 0; 0xc3; 0xc3] /\
  option_map (fun s => bytes s P0 0 7) (run (put_off hW2 ++ [OFinalize]) newD) = Some [0xe9; 1; 0; 0; 0; 0xc3; 0xc3].
Proof. repeat split; vm_compute; reflexivity. Qed.
(** A constant waiting: finalize places it, and the code goes on after it. *)
Definition hW3 : list op := [OCreate (KI32 7); asm [IRet]; OFinalize; asm [IRet]].
Lemma case70_constant : timed hW3 newD = false /\
  option_map (fun s => bytes s P0 0 9) (run (hW3 ++ [OFinalize]) newD) = Some [0xc3; 0xcc; 0xcc; 0xcc; 7; 0; 0; 0; 0xc3] /\
  option_map (fun s => bytes s P0 0 9) (run (put_off hW3 ++ [OFinalize]) newD) = Some [0xc3; 0xc3; 0xcc; 0xcc; 7; 0; 0; 0; 0xcc].
Proof. repeat split; vm_compute; reflexivity. Qed.
