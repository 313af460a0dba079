(** Cases for C78. *)
From Coq Require Import Lia ZifyBool.
From Verif Require Import Base ModelMem ModelSyntax ModelMacro SpecX86 SpecAsm SpecTaken SpecState SpecHist MemDemo SpecProg SpecScope SpecMulti SpecLive LiveDemo SpecGas SpecTwo SpecBudget BudgetDemo SpecPlan.
Local Notation length := List.length.
Local Open Scope list_scope.
Local Open Scope Z_scope.

Lemma plain_bodies : Forall (plain evD rD) (bodyL "c") /\ Forall (plain evD rD) bodyM.
Proof.
  assert (B : forall l, Forall (fun e => match e with ELit _ => True | _ => False end) l -> Forall (imm_blind evD rD) l)
    by (intros l H; eapply Forall_impl; [|exact H]; intros [v|ts] He r' _; [reflexivity|destruct He]).
  split; repeat constructor; try (apply B; repeat constructor); intros; repeat split; try exact Logic.I; repeat constructor; vm_compute; discriminate.
Qed.
Lemma blocks_sensible n : (3 < n)%nat -> sensible n (asm (bodyL "c")) /\ sensible n (asm bodyM).
Proof.
  intro Hn. split; (split; [apply plain_bodies|]); (split; [repeat constructor|]); (split; [vm_compute; discriminate|]); intros x Hx; vm_compute in Hx; intuition subst; vm_compute [lenvD]; cbn; lia.
Qed.
(** The session of C65. *)
Lemma case78 : all_sensible 0 session65 /\ option_map (fun x => (ends x P0, ends x P1, ends x P2)) (planned session65 blank) = Some (48, 40, 4096).
Proof.
  split; [|vm_compute; reflexivity].
  assert (T : forall n o ops, sensible n o -> all_sensible (if makes o then S n else n) ops -> all_sensible n (o :: ops)) by (intros; split; assumption).
  unfold session65. repeat (apply T; [|]; cbn [makes]); try exact Logic.I; try (apply blocks_sensible; cbn [makes asm]; lia); cbn [sensible sound makes]; try lia.
  all: first [apply blocks_sensible; cbn [makes asm]; lia|repeat constructor; lia|unfold asm; cbn [makes sound]; lia].
Qed.
(** A constant as long as the page but for 16 bytes, behind [n] bytes. *)
Definition tail (n : nat) : list op := [OEmit (repeat 144 n); OCreate (KBytes (PAGE_SIZE - 16)); OFinalize].
Lemma big : dat_len (KBytes (PAGE_SIZE - 16)) = 268435440.
Proof. unfold dat_len. cbn [dat_bytes]. rewrite repeat_length. apply Z2Nat.id. unfold PAGE_SIZE. lia. Qed.
Lemma case_tail : all_sensible 0 (tail 16) /\ option_map (fun x => ends x P0) (planned (tail 16) blank) = Some PAGE_SIZE /\ all_sensible 0 (tail 17) /\ planned (tail 17) blank = None.
Proof.
  assert (S : forall n, all_sensible 0 (tail n)).
  { intro n. cbn [all_sensible tail]. split; [|split; [exact I|split; [exact I|exact I]]]. cbn [sensible sound]. apply Forall_forall. intros b Hb. apply repeat_spec in Hb. subst b. unfold is_byte. lia. }
  split; [apply S|]. split; [|split; [apply S|]].
  - unfold tail. cbn [planned next]. rewrite big. vm_compute. reflexivity.
  - unfold tail. cbn [planned next]. rewrite big. vm_compute. reflexivity.
Qed.
(** addq rax, 0x100000000 has no code. *)
Definition nocode : list op := [asm [IRet]; asm [IAdd QWORD (RmReg (RReg 0)) (RmiImm (ELit 4294967296))]; OFinalize].
Lemma case_nocode : planned nocode blank = None /\ option_map (fun x => ends x P0) (planned [asm [IRet]] blank) = Some 1 /\ returns nocode newD = None.
Proof. split; [|split]; vm_compute; reflexivity. Qed.
