(** A process that makes two assemblers, drops the first, and fails to make two more. *)
From Verif Require Import Base ModelMem ModelProt ModelNew SpecShare SpecNew NewFacts.
Local Open Scope list_scope.
Local Open Scope Z_scope.
Definition procD : proc := mkProc [(4096, 100)] (fun _ => Heap) [].
Definition eventsD : list pevent :=
  [NewJit PAGE_SIZE true true; Alloc 8192 64; NewJit (PAGE_SIZE * 4) true true; Free 4096 100; DropJit PAGE_SIZE;
   Protect (mkProtect 4096 10 RW); NewJit 0 false false; NewJit (PAGE_SIZE * 7) true false; Alloc 4100 12].
Lemma startsD : starts procD.
Proof. repeat split; repeat constructor. Qed.
Lemma fairD : fairly 4096 eventsD procD.
Proof.
  unfold eventsD. cbn [fairly].
  assert (A : forall h a n al, (0 <? a) && (a mod al =? 0) && (0 <? n) && forallb (fun r => (a + n <=? fst r) || (fst r + snd r <=? a)) h = true ->
    0 < a /\ a mod al = 0 /\ 0 < n /\ Forall (disjoint (a, n)) h).
  { clear. intros h a n al H. apply andb_prop in H as [H F]. repeat split; try lia. apply Forall_forall. intros r Hr. rewrite forallb_forall in F. specialize (F r Hr). unfold disjoint. cbn [fst snd]. lia. }
  split; [apply A; vm_compute; reflexivity|]. split; [apply A; vm_compute; reflexivity|]. split; [apply A; vm_compute; reflexivity|].
  split; [intro H; vm_compute in H; destruct H as [H|[H|[]]]; discriminate H|].
  split; [vm_compute; auto|].
  split; [intros b Hb; left; vm_compute in Hb; destruct Hb as [<-|[<-|[]]]; vm_compute; discriminate|].
  split; [reflexivity|]. split; [apply A; vm_compute; reflexivity|]. split; [apply A; vm_compute; reflexivity|exact Logic.I].
Qed.
Lemma case63 : starts procD /\ fairly 4096 eventsD procD /\ made (pruns 4096 eventsD procD) = [PAGE_SIZE * 4; PAGE_SIZE] /\
  map (prots (pruns 4096 eventsD procD)) [PAGE_SIZE; PAGE_SIZE * 3 - 1; PAGE_SIZE * 3; PAGE_SIZE * 4; PAGE_SIZE * 6; 5000] = [RWX; RWX; RW; RWX; RW; RW].
Proof. split; [exact startsD|]. split; [exact fairD|]. split; vm_compute; reflexivity. Qed.
Lemma leaks : exists p a ok1 ok2 q, starts p /\ fair 4096 p (NewJit a ok1 ok2) /\ new 4096 a ok1 ok2 p = (None, q) /\
  ~ (exists r, In r (heap p) /\ within r a) /\ In (a, PAGE_SIZE * 3) (heap q) /\ prots q a = RWX.
Proof.
  exists procD, PAGE_SIZE, true, false. eexists. split; [exact startsD|]. split; [apply fairD|]. split; [reflexivity|]. split.
  - intros (r & [<-|[]] & H). unfold within, PAGE_SIZE in H. cbn in H. lia.
  - split; [left; reflexivity|]. vm_compute. reflexivity.
Qed.
