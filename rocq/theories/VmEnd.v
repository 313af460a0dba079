(** The README's virtual machine, from the calls that generate the code to the result. *)
From Verif Require Import Base ModelMem ModelEnc ModelSyntax ModelMacro SpecX86 SpecAsm SpecTaken SpecState SpecHist SpecMulti
  MemInv MemStep MemHist MemRun SpecProg SpecMachine SpecCpu SpecHost MachLib SpecVm VmCode VmPlace VmItems VmProg VmRun.
Local Notation length := List.length.
Local Open Scope list_scope.
Local Open Scope Z_scope.

Lemma jit_split labels fs b m s4 : calls (vm_jit labels fs) (jit_new b m) = Some s4 ->
  exists s, calls (repeat OLabel labels ++ flat_map vm_fun fs) (jit_new b m) = Some s /\ step OFinalize s = Ok None s4.
Proof.
  unfold vm_jit. rewrite app_assoc. intro E. apply calls_app in E. destruct E as (s & E & F). exists s. split; [exact E|]. cbn [calls] in F.
  destruct (step OFinalize s) as [o s'|] eqn:Es; [|discriminate]. injection F as <-. cbn [step] in Es. unfold nolabel, bind, ret in Es. destruct (finalize s) as [[] s1|]; [|discriminate]. congruence.
Qed.
Theorem vm_hosted labels fs b m s4 : vm_ok labels fs -> calls (vm_jit labels fs) (jit_new b m) = Some s4 -> 0 <= b -> b + cursor s4 < 2 ^ 64 ->
  forall f, In f fs -> exists a, label_addr s4 (v_name f) = Some a /\
  forall h room x out v st sp, abi h -> (forall p, h_at h p = true -> ~ (b <= p < b + cursor s4)) -> prints fs (h_at h) (h_need h) room f x out v ->
    wf st -> holds (mem s4) b (b + cursor s4) st -> regs st 7 = x -> regs st 4 = sp -> (forall p, h_at h p = true -> sp mod 16 = 8) ->
    room <= sp -> sp + 8 <= 2 ^ 64 -> b + cursor s4 <= sp - room \/ sp <= b ->
    (forall y, h_own h y -> ~ (b <= y < b + cursor s4) /\ ~ (sp - room <= y < sp + 8)) ->
    exists k st', hosted h k [] a st = Some (out, quad (mm st) sp, st') /\ regs st' 0 = v /\ regs st' 4 = u64 (sp + 8) /\
      (forall i, saved i -> regs st' i = regs st i) /\ (out = [] -> xmms st' = xmms st) /\ forall y, ~ (sp - room <= y < sp) -> ~ h_own h y -> mm st' y = mm st y.
Proof.
  intros H E Hb Hl f Hf. destruct (jit_split _ _ _ _ _ E) as (s & E1 & F).
  assert (F' : after OFinalize s = Some s4) by (unfold after; rewrite F; reflexivity).
  destruct (vm_placed labels fs b m s s4 H E1 F') as (B & Cu & Bd & Pl).
  assert (R : reached s).
  { apply (reached_run (repeat OLabel labels ++ flat_map vm_fun fs) (jit_new b m)); [constructor| |apply calls_run, E1]. rewrite forallb_app. apply andb_true_iff. split.
    - clear. induction labels; [reflexivity|assumption].
    - rewrite <- prog_ops. apply forallb_forall. intros o Ho. apply in_map_iff in Ho. destruct Ho as (it & <- & Hi). pose proof (prog_ok _ _ H) as K. rewrite Forall_forall in K. apply (K it Hi). }
  assert (Le : cursor s <= cursor s4).
  { pose proof (Inv_reached _ R) as I. apply finalize_after in F'. destruct (finalize_spec _ _ I F') as [s1 Fn]. unfold cursor. rewrite (fn_cur _ _ _ Fn), Cu. fold (cnt s4 P0). rewrite (fin_cnt _ _ _ Fn).
    apply (ex_cnt _ _ _ (fn_ext _ _ _ Fn)). }
  exists (final s4 (v_name f)). split; [apply Bd, in_flat_map; exists f; split; [exact Hf|left; reflexivity]|].
  intros h room x out v [R0 X F0 M] sp Hh Ho (Hr & n & Ev) (W & Wx & Wm) Hc H7 H4 Al H1 H2 Hd Hw. cbn [regs xmms mm] in *.
  assert (Pl' : forall f, In f fs -> exists a e, 0 <= a /\ e <= cursor s4 /\ chain (final s4) s4 (fun_items f) a e).
  { intros g Hg. destruct (Pl g Hg) as (a & e & Ha & He & C). exists a, e. split; [exact Ha|]. split; [lia|exact C]. }
  assert (Ow : forall y, h_own h y -> ~ (b <= y < b + cursor s4)) by (intros y Hy; apply (Hw y Hy)).
  assert (Os : forall y, h_own h y -> ~ (sp - room <= y < sp + 8)) by (intros y Hy; apply (Hw y Hy)).
  destruct (at_start labels fs s4 b (cursor s4) h Ho Ow H B Bd Pl' f room sp R0 X M Hf (conj Hr H1) H2 Hd W Wm Os F0 x [] (good h room sp R0 X M [] out v)) as (k & out' & pc & st' & C & -> & -> & G0 & G4 & Gs & Gx & _ & Gm).
  - exact Hc.
  - exact H4.
  - exact H7.
  - intros a R1 F1 M1 Ha Rl. eapply (simulation labels fs s4 b (cursor s4) h Hh Ho Ow H B (conj Hb Hl) Bd Pl' n); eauto. destruct H as (_ & _ & K). apply (K f Hf).
  - exists k, st'. repeat split; assumption.
Qed.
(** No functions outside. *)
Definition alone : host := mkHost (fun _ => false) (fun _ _ _ => None) 0 (fun _ => False).
Lemma hosted_alone : forall n out pc st, hosted alone n out pc st = match cpu n pc st with Some (pc', st') => Some (out, pc', st') | None => None end.
Proof.
  induction n as [|n IH]; intros out pc st; [reflexivity|]. cbn [hosted]. rewrite cpu_S. unfold host_step. cbn [alone h_at]. destruct (cpu_step pc st) as [[pc' st']|]; [|reflexivity].
  apply IH.
Qed.
Theorem vm_correct labels fs b m s4 : vm_ok labels fs -> calls (vm_jit labels fs) (jit_new b m) = Some s4 -> 0 <= b -> b + cursor s4 < 2 ^ 64 ->
  forall f, In f fs -> exists a, label_addr s4 (v_name f) = Some a /\
  forall room x v st sp, returns fs room f x v -> wf st -> holds (mem s4) b (b + cursor s4) st -> regs st 7 = x -> regs st 4 = sp ->
    room <= sp -> sp + 8 <= 2 ^ 64 -> b + cursor s4 <= sp - room \/ sp <= b ->
    exists k st', cpu k a st = Some (quad (mm st) sp, st') /\ regs st' 0 = v /\ regs st' 4 = u64 (sp + 8) /\
      (forall i, saved i -> regs st' i = regs st i) /\ xmms st' = xmms st /\ forall y, ~ (sp - room <= y < sp) -> mm st' y = mm st y.
Proof.
  intros H E Hb Hl f Hf. destruct (vm_hosted labels fs b m s4 H E Hb Hl f Hf) as (a & La & K). exists a. split; [exact La|].
  intros room x v st sp Hr W Hh H7 H4 H1 H2 Hd.
  destruct (K alone room x [] v st sp) as (k & st' & C & G0 & G4 & Gs & Gx & Gm); try assumption; try discriminate.
  - intros y [].
  - exists k, st'. rewrite hosted_alone in C. destruct (cpu k a st) as [[pc1 st1]|]; [|discriminate]. injection C as -> ->.
    repeat split; try assumption; [apply Gx; reflexivity|]. intros y Hy. apply Gm; [exact Hy|intros []].
Qed.
(** Every call of a function outside is made with the stack aligned: otherwise a function that does not return then would show it. *)
Definition strict (h : host) : host := mkHost (h_at h) (fun out p st => if regs st 4 mod 16 =? 8 then h_serve h out p st else None) (h_need h) (h_own h).
Lemma strict_abi h : abi h -> abi (strict h).
Proof.
  intros A out p st Hp W Al Hn Ht. destruct (A out p st Hp W Al Hn Ht) as (st' & E & K). exists st'. split; [|exact K]. cbn [strict h_serve]. rewrite Al. exact E.
Qed.
Lemma strict_step h out pc st r : host_step (strict h) out pc st = Some r -> host_step h out pc st = Some r /\ (h_at h pc = true -> regs st 4 mod 16 = 8).
Proof.
  unfold host_step. cbn [strict h_at h_serve]. destruct (h_at h pc); [|intro H; split; [exact H|discriminate]].
  destruct (regs st 4 mod 16 =? 8) eqn:E; [|discriminate]. intro H. split; [exact H|]. intros _. apply Z.eqb_eq, E.
Qed.
Lemma strict_run h : forall k out pc st r, hosted (strict h) k out pc st = Some r ->
  hosted h k out pc st = Some r /\ forall j out' pc' st', (j < k)%nat -> hosted h j out pc st = Some (out', pc', st') -> h_at h pc' = true -> regs st' 4 mod 16 = 8.
Proof.
  induction k as [|k IH]; intros out pc st r H; cbn [hosted] in *; [split; [exact H|lia]|].
  destruct (host_step (strict h) out pc st) as [[[o1 pc1] st1]|] eqn:E; [|discriminate]. apply strict_step in E. destruct E as [E Al]. destruct (IH _ _ _ _ H) as [H1 H2]. rewrite E. split; [exact H1|].
  intros [|j] out' pc' st' Hj Hr Hp; cbn [hosted] in Hr; [injection Hr as <- <- <-; apply Al, Hp|]. rewrite E in Hr. apply (H2 j out' pc' st'); [lia|assumption|assumption].
Qed.
Theorem vm_prints labels fs b m s4 : vm_ok labels fs -> calls (vm_jit labels fs) (jit_new b m) = Some s4 -> 0 <= b -> b + cursor s4 < 2 ^ 64 ->
  forall f, In f fs -> exists a, label_addr s4 (v_name f) = Some a /\
  forall h room x out v st sp, abi h -> (forall p, h_at h p = true -> ~ (b <= p < b + cursor s4)) -> prints fs (h_at h) (h_need h) room f x out v ->
    wf st -> holds (mem s4) b (b + cursor s4) st -> regs st 7 = x -> regs st 4 = sp -> sp mod 16 = 8 ->
    room <= sp -> sp + 8 <= 2 ^ 64 -> b + cursor s4 <= sp - room \/ sp <= b ->
    (forall y, h_own h y -> ~ (b <= y < b + cursor s4) /\ ~ (sp - room <= y < sp + 8)) ->
    exists k st', hosted h k [] a st = Some (out, quad (mm st) sp, st') /\
      (forall j out' pc st1, (j < k)%nat -> hosted h j [] a st = Some (out', pc, st1) -> h_at h pc = true -> regs st1 4 mod 16 = 8) /\
      regs st' 0 = v /\ regs st' 4 = u64 (sp + 8) /\ (forall i, saved i -> regs st' i = regs st i) /\
      forall y, ~ (sp - room <= y < sp) -> ~ h_own h y -> mm st' y = mm st y.
Proof.
  intros H E Hb Hl f Hf. destruct (vm_hosted labels fs b m s4 H E Hb Hl f Hf) as (a & La & K). exists a. split; [exact La|].
  intros h room x out v st sp Ab Ho Hp W Hh H7 H4 Al H1 H2 Hd Hw.
  destruct (K (strict h) room x out v st sp (strict_abi h Ab) Ho Hp W Hh H7 H4 (fun _ _ => Al) H1 H2 Hd Hw) as (k & st' & C & G0 & G4 & Gs & Gx & Gm).
  apply strict_run in C. destruct C as [C1 C2]. exists k, st'. repeat split; assumption.
Qed.
