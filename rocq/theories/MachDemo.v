(** Cases for the statements about the processor. *)
From Verif Require Import Base ModelMem ModelEnc ModelSyntax ModelMacro SpecX86 SpecAsm SpecState SpecHist MemDemo
  SpecProg ProgDemo DemoText SpecMachine SpecCpu MachLib Fibo FiboRun FiboEnd MachImage.
Local Notation length := List.length.
Local Open Scope list_scope.
Local Open Scope Z_scope.

(** The program of ProgDemo.v on a machine whose memory is [m]. *)
Definition stG (m : Z -> Z) : mach := mkMach (fun i => if i =? 4 then 4096 else 0) (fun _ => 0) no_flags m.
Lemma case44 : reached sG /\ Forall (plain evD rD) prog /\ step opG sG = Ok None sG1 /\ run hG sG1 = Some sG4 /\ own_labels lenvD prog sG hG /\
  (forall x, In x (body_labels prog) -> linked hG sG1 (lenvD x) = Some (targetG x)) /\
  (forall m, holds (mem sG4) (65536 + 1) (65536 + 47) (stG m) ->
    keeps_code (mem sG4) (65536 + 1) (65536 + 47) (denote (eval evD rD)) targetG atG prog 17 0 (stG m)) /\
  exists st, cpu 17 (65536 + 1) (stG (mem sG4)) = Some (65536 + 46, st) /\ regs st 0 = 12 /\ xmms st 0 = 0x3ff0000000000000.
Proof.
  split; [exact reachedG|]. split; [exact plainG|]. split; [exact stepG|]. split; [exact runG|]. split; [exact ownG|]. split; [exact linkedG|]. split.
  - intros m Hm j q st' Hj E.
    assert (G : match srun mach x86 (denote (eval evD rD)) targetG atG prog j (Stmt 0) (stG m) with Inside _ s => mm s = m | _ => True end).
    { do 18 (destruct j as [|j]; [vm_compute; reflexivity|]). lia. }
    rewrite E in G. intros x Hx. rewrite G. exact (Hm x Hx).
  - assert (G : match cpu 17 (65536 + 1) (stG (mem sG4)) with Some (pc, st) => pc = 65536 + 46 /\ regs st 0 = 12 /\ xmms st 0 = 0x3ff0000000000000 | None => False end)
      by (vm_compute; repeat split).
    destruct (cpu 17 _ _) as [[pc st]|]; [|contradiction]. destruct G as (-> & G). exists st. split; [reflexivity|exact G].
Qed.

(** fibo(6) on a machine with its stack below 2^20. *)
Definition stF : mach := mkMach (fun i => if i =? 4 then 2 ^ 20 else if i =? 7 then 6 else i) (fun _ => 0) no_flags
  (poke (poke (fun _ => 0) 4096 fibo_image) (2 ^ 20) (le 8 77)).
Definition shown (r : option (Z * mach)) : option (Z * list Z) :=
  match r with Some (pc, st) => Some (pc, map (regs st) [0; 3; 4; 5; 12; 13; 14; 15]) | None => None end.
Lemma poke_byte bs : Forall (fun v => 0 <= v < 256) bs -> forall m a, (forall x, 0 <= m x < 256) -> forall x, 0 <= poke m a bs x < 256.
Proof.
  induction 1 as [|v bs Hv _ IH]; intros m a Hm x; [apply Hm|]. cbn [poke]. apply IH. intro y. unfold upd. destruct (_ =? _); [exact Hv|apply Hm].
Qed.
Lemma all_bytes bs : forallb (fun v => (0 <=? v) && (v <? 256)) bs = true -> Forall (fun v => 0 <= v < 256) bs.
Proof. intro H. apply Forall_forall. intros v Hv. rewrite forallb_forall in H. specialize (H v Hv). lia. Qed.
Lemma case45 : (exists s, run fibo_jit (jit_new 4096 (fun _ => 0)) = Some s /\ wf stF /\ holds (mem s) 4096 (4096 + 167) stF) /\
  shown (cpu 729 4096 stF) = Some (77, [8; 3; 2 ^ 20 + 8; 5; 12; 13; 14; 15]).
Proof.
  split; [|vm_compute; reflexivity].
  destruct (image_at fibo_jit fibo_image fibo_reloc ltac:(vm_compute; discriminate) fibo_view 4096 (fun _ => 0)) as (s & E & _ & Hi).
  exists s. split; [exact E|]. split; [split; [|split]|].
  - intros n Hn. cbn [stF regs]. destruct (n =? 4); [vm_compute; split; [discriminate|reflexivity]|]. destruct (n =? 7); [lia|]. change (2 ^ 64) with 18446744073709551616. lia.
  - intros n _. cbn [stF xmms]. lia.
  - intro a. cbn [stF mm]. apply poke_byte; [apply all_bytes; vm_compute; reflexivity|]. apply poke_byte; [apply all_bytes; vm_compute; reflexivity|intro; lia].
  - intros x Hx. replace x with (4096 + (x - 4096)) by lia. rewrite Hi by (change (Z.of_nat (length fibo_image)) with 167; lia).
    cbn [stF mm]. rewrite poke_out by lia.
    replace (4096 + (x - 4096)) with (4096 + Z.of_nat (Z.to_nat (x - 4096))) by lia. apply poke_in. change (length fibo_image) with 167%nat. lia.
Qed.
