(** Cases for C79: the session of C65. *)
From Verif Require Import Base ModelMem ModelSyntax ModelMacro SpecX86 SpecAsm SpecTaken SpecState SpecHist MemDemo SpecProg SpecScope SpecMulti SpecLive LiveDemo SpecGas SpecTwo SpecBudget BudgetDemo SpecPlan PlanDemo SpecChart.
Local Open Scope list_scope.
Local Open Scope Z_scope.

Lemma case79 : all_sensible 0 session65 /\
  option_map (fun y => map (spot y) (seq 0 9)) (charted session65 blank void) =
    Some [Some (P0, 0); Some (P0, 10); Some (P0, 15); Some (P1, 0); Some (P0, 32); Some (P0, 40); Some (P2, 0); Some (P1, 10); Some (P1, 16)].
Proof. split; [apply case78|vm_compute; reflexivity]. Qed.
(** Its second block. *)
Definition pre79 : list op := firstn 10 session65.
Definition post79 : list op := skipn 11 session65.
Definition target79 (v : string) : pid * Z := (P0, 15).
Lemma case79_code : session65 = pre79 ++ asm bodyM :: post79 /\
  match planned pre79 blank, charted pre79 blank void with
  | Some x, Some y => (chosen x, ends x (chosen x)) = (P1, 0) /\ planned (asm bodyM :: post79) x <> None /\
      forall v, In v (body_labels bodyM) -> settles (asm bodyM :: post79) x y (lenvD v) = Some (target79 v)
  | _, _ => False
  end /\
  written (eval evD rD) (fun v => place_in 65536 (target79 v)) (place_in 65536 (P1, 0)) bodyM = Some [72; 131; 192; 10; 233; 6; 0; 0; 240].
Proof.
  split; [reflexivity|]. split; [|vm_compute; reflexivity].
  destruct (planned pre79 blank) as [x|] eqn:Ex; [|vm_compute in Ex; discriminate]. destruct (charted pre79 blank void) as [y|] eqn:Ey; [|vm_compute in Ey; discriminate].
  assert (T : forall q u, planned pre79 blank = Some q -> charted pre79 blank void = Some u -> (chosen q, ends q (chosen q)) = (P1, 0) /\ option_map (fun _ => tt) (planned (asm bodyM :: post79) q) = Some tt /\ settles (asm bodyM :: post79) q u 2%nat = Some (P0, 15)).
  { intros q u Hq Hu. vm_compute in Hq. injection Hq as <-. vm_compute in Hu. injection Hu as <-. split; [vm_compute; reflexivity|]. split; vm_compute; reflexivity. }
  destruct (T x y Ex Ey) as (T1 & T2 & T3). split; [exact T1|]. split; [intro H; rewrite H in T2; discriminate T2|]. intros v [<-|[]]. exact T3.
Qed.
(** The address of label 1 as a constant. *)
Definition pre79d : list op := firstn 6 session65.
Definition mid79d : list op := firstn 7 (skipn 7 session65).
Definition post79d : list op := skipn 15 session65.
Lemma case79_data : session65 = pre79d ++ OCreate (KAbs 1%nat) :: mid79d ++ OFinalize :: post79d /\ no_finalize mid79d = true /\
  match planned pre79d blank, charted pre79d blank void with
  | Some x, Some y => known y = 5%nat /\
      match planned (OCreate (KAbs 1%nat) :: mid79d) x, charted (OCreate (KAbs 1%nat) :: mid79d) x y with
      | Some x2, Some y2 => option_map (fun z => ends z P2) (planned (OFinalize :: post79d) x2) = Some 4096 /\ spot (marks OFinalize x2 y2) 5%nat = Some (P0, 40) /\ settles (OFinalize :: post79d) x2 y2 1%nat = Some (P0, 10)
      | _, _ => False
      end
  | _, _ => False
  end /\ le 8 (place_in 65536 (P0, 10)) = [10; 0; 1; 0; 0; 0; 0; 0].
Proof. split; [reflexivity|]. split; [reflexivity|]. split; [|reflexivity]. vm_compute. repeat split; reflexivity. Qed.
