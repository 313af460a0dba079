(** Labels bound more than once. *)
From Verif Require Import Base ModelMem ModelEnc ModelSyntax ModelMacro SpecX86 SpecState SpecHist MemInv MemRun MemFacts MemThm MemMisc MemDemo Emit.
Local Notation length := List.length.
Local Open Scope list_scope.
Local Open Scope Z_scope.

Lemma still_waiting : forall ops s s' l t, reached s -> In t (refs s l) -> forallb api ops = true -> no_finalize ops = true -> run ops s = Some s' -> In t (refs s' l).
Proof.
  intros ops s s' l t R Ht Ha Hn E. destruct (life ops s s' l t R Ht Ha E) as [(_ & H & _)|(a & b & s1 & s2 & x & -> & _)]; [exact H|].
  exfalso. unfold no_finalize in Hn. rewrite forallb_app in Hn. apply andb_true_iff in Hn. destruct Hn as [_ Hn]. discriminate Hn.
Qed.
Theorem takes_last : forall s0 l s ops sr mid s1 rest s2 s3 x t, reached s0 -> step OLabel s0 = Ok (Some l) s ->
  forallb api (ops ++ mid ++ rest) = true -> no_finalize (mid ++ rest) = true ->
  run ops s = Some sr -> run mid sr = Some s1 -> label_addr s1 l = Some x -> run rest s1 = Some s2 -> (forall o, In o rest -> ~ binds_label o l) ->
  after OFinalize s2 = Some s3 -> In t (refs sr l) \/ In t (refs s1 l) \/ In t (refs s2 l) -> points_to s3 t x.
Proof.
  intros s0 l s ops sr mid s1 rest s2 s3 x t R E0 Ha Hn E1 E2 Hx E3 Hb Ef Ht.
  rewrite !forallb_app in Ha. apply andb_true_iff in Ha. destruct Ha as [A1 A23]. apply andb_true_iff in A23. destruct A23 as [A2 A3].
  unfold no_finalize in Hn. rewrite forallb_app in Hn. apply andb_true_iff in Hn. destruct Hn as [N2 N3].
  assert (Rs : reached s) by (apply (reached_api OLabel s0 s R eq_refl); unfold after; rewrite E0; reflexivity).
  pose proof (reached_run ops s sr Rs A1 E1) as Rr. pose proof (reached_run mid sr s1 Rr A2 E2) as R1. pose proof (reached_run rest s1 s2 R1 A3 E3) as R2.
  assert (W : In t (refs s2 l)).
  { destruct Ht as [Ht|[Ht|Ht]]; [|apply (still_waiting rest s1 s2 l t R1 Ht A3 N3 E3)|exact Ht].
    apply (still_waiting rest s1 s2 l t R1); [apply (still_waiting mid sr s1 l t Rr Ht A2 N2 E2)|assumption|assumption|assumption]. }
  assert (Hl : label_addr s3 l = label_addr s1 l).
  { apply (label_stays s0 l s (ops ++ mid) s1 (rest ++ [OFinalize]) s3 R E0).
    - rewrite !forallb_app, A1, A2, A3. reflexivity.
    - apply run_app. exists sr. split; assumption.
    - apply run_app. exists s2. split; [exact E3|]. cbn [run]. rewrite Ef. reflexivity.
    - intros o Ho. apply in_app_or in Ho. destruct Ho as [Ho|[<-|[]]]; [apply Hb, Ho|intro K; exact K]. }
  rewrite Hx in Hl. apply (links s2 s3 l t x R2 W Ef Hl).
Qed.
Theorem never_retaken : forall s l t s1 x ops s2, reached s -> In t (refs s l) -> after OFinalize s = Some s1 -> label_addr s1 l = Some x ->
  forallb api ops = true -> run ops s1 = Some s2 -> points_to s2 t x.
Proof.
  intros s l t s1 x ops s2 R Ht Ef Hx Ha E. destruct (links s s1 l t x R Ht Ef Hx) as [P _].
  assert (E' : run (OFinalize :: ops) s = Some s2) by (cbn [run]; rewrite Ef; exact E).
  pose proof (reached_api OFinalize s s1 R eq_refl Ef) as R1.
  assert (E1' : run [OFinalize] s = Some s1) by (cbn [run]; rewrite Ef; reflexivity).
  assert (F : field s2 t = field s1 t).
  { destruct (life (OFinalize :: ops) s s2 l t R Ht) as [(N & _ & _)|(a & b & u & v & y & Eo & Ea & Nl & Ev & Ly & Py & Eb & F)]; [exact Ha|exact E'| |].
    - exfalso. unfold never_linked in N. specialize (N [] ops s1 eq_refl E1'). congruence.
    - destruct a as [|o a].
      + cbn in Eo. injection Eo as <-. cbn [run] in Ea. injection Ea as <-. rewrite Ef in Ev. injection Ev as <-. exact F.
      + exfalso. injection Eo as <- Eo. unfold never_linked in Nl. specialize (Nl [] a s1 eq_refl E1'). congruence. }
  assert (B : base s2 = base s1) by (apply (base_run ops s1 s2 (Inv_reached _ R1) Ha E)).
  unfold points_to, ref_dest in *. destruct t; rewrite F; [|exact P]. unfold addr, contents in *. rewrite B. exact P.
Qed.
Theorem bind_again : forall s l, (l < length (labels s))%nat -> exists s', step (OBind l) s = Ok None s' /\ label_addr s' l = Some (addr s (cur s) (cursor s)) /\
  forall k, k <> l -> label_addr s' k = label_addr s k.
Proof.
  intros s l H. destruct (bind_label l s) as [[] s'|e s'] eqn:E.
  - exists s'. cbn [step]. unfold nolabel, bind. rewrite E. split; [reflexivity|]. pose proof (bind_sets l s s' E) as L.
    unfold bind_label, on_cur, bind_label_on, bind, get_counter, modify_label in E. rewrite (proj2 (Nat.ltb_lt _ _) H) in E. injection E as <-.
    split; [unfold label_addr; rewrite L; reflexivity|]. intros k Hk. unfold label_addr, loc_of. cbn [labels set_labels]. rewrite upd_nth_nth.
    rewrite (proj2 (Nat.eqb_neq _ _) Hk). reflexivity.
  - exfalso. unfold bind_label, on_cur, bind_label_on, bind, get_counter, modify_label in E. rewrite (proj2 (Nat.ltb_lt _ _) H) in E. discriminate E.
Qed.

(** a: ret; jmp a; a: ret; finalize; a: ret; jmp a; finalize.  The first jump, at 1, goes to the second a, at 6, though
    the first a stands right above it; the second jump goes to the third a, and the first stays. *)
Definition onceR : list op := [asm [ILabel "a"; IRet; IJmp (DestRel "a")]].
Definition againR : list op := [asm [ILabel "a"; IRet]].
Definition thenR : list op := [asm [ILabel "a"; IRet; IJmp (DestRel "a")]; OFinalize].
Definition s0R : jit := the (after OLabel newD).
Definition s1R : jit := the (run onceR s0R).
Definition s2R : jit := the (run againR s1R).
Definition s3R : jit := the (run [asm [IRet]] s2R).
Definition s4R : jit := the (after OFinalize s3R).
Definition s5R : jit := the (run thenR s4R).
Lemma case58 : step OLabel newD = Ok (Some 0%nat) s0R /\ run onceR s0R = Some s1R /\ run againR s1R = Some s2R /\ run [asm [IRet]] s2R = Some s3R /\
  after OFinalize s3R = Some s4R /\ run thenR s4R = Some s5R /\ refs s1R 0%nat = [Rel P0 4 2] /\
  label_addr s1R 0%nat = Some 65536 /\ label_addr s2R 0%nat = Some (65536 + 6) /\ label_addr s5R 0%nat = Some (65536 + 8) /\
  bytes s5R P0 0 14 = [0xc3; 0xe9; 0; 0; 0; 0; 0xc3; 0xc3; 0xc3; 0xe9; 0xfa; 0xff; 0xff; 0xff].
Proof.
  split; [reflexivity|]. do 5 (split; [apply some_the; vm_compute; reflexivity|]). vm_compute. repeat split; reflexivity.
Qed.
Lemma silent : exists s l x s', reached s /\ label_addr s l = Some x /\ step (OBind l) s = Ok None s' /\ label_addr s' l <> Some x.
Proof.
  destruct case58 as (E0 & E1 & _ & _ & _ & _ & _ & A & _).
  assert (R : reached s1R) by (apply (reached_run onceR s0R s1R); [apply (reached_api OLabel newD s0R (reached_new _ _) eq_refl); unfold after; rewrite E0; reflexivity|reflexivity|exact E1]).
  destruct (bind_again s1R 0%nat) as (s' & E & L & _); [vm_compute; lia|].
  exists s1R, 0%nat, 65536, s'. split; [exact R|]. split; [exact A|]. split; [exact E|]. rewrite L. intro H. vm_compute in H. discriminate H.
Qed.
