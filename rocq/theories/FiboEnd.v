(** The README function, from the text of its macros to the number it returns. *)
From Verif Require Import Base ModelMem ModelEnc ModelSyntax ModelMacro SpecX86 SpecAsm SpecState SpecHist
  EncDec Emit Trace MemInv MemHist MemRun SpecProg ProgSim ModelParse DemoText SpecMachine SpecCpu MachLib MachImage Fibo FiboRun.
Local Notation length := List.length.
Local Open Scope list_scope.
Local Open Scope Z_scope.

Lemma fibo_reloc : forallb relocatable fibo_jit = true. Proof. vm_compute. reflexivity. Qed.
Lemma fibo_view m : view (length fibo_image) (run fibo_jit (jit_new 0 m)) = Some (fibo_image, Some (P0, 0)).
Proof. vm_compute. reflexivity. Qed.
Lemma holds_img img b m st : img_in img b m -> holds m b (b + Z.of_nat (length img)) st -> img_in img b (mm st).
Proof. intros Hi Hh i H. rewrite Hh by lia. apply Hi, H. Qed.
Lemma fibo_call b m : 0 < b -> b + 167 <= 2 ^ 64 -> exists s, run fibo_jit (jit_new b m) = Some s /\ label_addr s 0%nat = Some b /\
  forall st n sp, wf st -> holds (mem s) b (b + 167) st -> regs st 7 = n -> regs st 4 = sp -> 64 * (n + 1) <= sp -> sp + 8 <= 2 ^ 64 ->
    b + 167 <= sp - 64 * (n + 1) \/ sp + 8 <= b ->
    exists k st', cpu k b st = Some (quad (mm st) sp, st') /\ regs st' 0 = fib (Z.to_nat n) mod 2 ^ 64 /\ regs st' 4 = u64 (sp + 8) /\
      (forall i, saved i -> regs st' i = regs st i) /\ xmms st' = xmms st /\ forall x, ~ (sp - 64 * (n + 1) <= x < sp) -> mm st' x = mm st x.
Proof.
  intros Hb Ht. destruct (image_at fibo_jit fibo_image fibo_reloc ltac:(vm_compute; discriminate) fibo_view b m) as (s & E & Hl & Hi).
  exists s. split; [exact E|]. split; [exact Hl|]. intros [R X F M] n sp (W & _) Hh Hn Hsp H1 H2 H3. cbn [regs xmms mm] in *.
  assert (W7 := W 7 ltac:(lia)).
  destruct (fibo_runs b ltac:(lia) (S (Z.to_nat n)) n sp R X F M) as (k & pc & st' & C & -> & G0 & G4 & Gs & Gx & _ & Gm); try assumption; try lia.
  { apply (holds_img fibo_image b (mem s) (mkMach R X F M)); [exact Hi|exact Hh]. }
  exists k, st'. repeat split; assumption.
Qed.
