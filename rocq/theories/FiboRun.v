(** The README function computes Fibonacci numbers. *)
From Verif Require Import Base ModelMem ModelEnc ModelSyntax ModelMacro SpecX86 SpecAsm SpecState SpecHist
  EncDec Emit Trace MemInv MemHist MemRun SpecProg ProgSim ModelParse DemoText SpecMachine SpecCpu MachLib Fibo.
Local Notation length := List.length.
Local Open Scope list_scope.
Local Open Scope Z_scope.


Lemma step_img img b k n x st st' c pc1 : img_in img b (mm st) -> insn_at img k n x -> x86 x (b + k + n) st = Some (st', c) ->
  after_ins x (b + k + n) (Some (st', c)) = Some (pc1, st') -> cpu_step (b + k) st = Some (pc1, st').
Proof. intros Hi Ht Hx Ha. rewrite (step_at img b k n x st Hi Ht), Hx. exact Ha. Qed.

Section Run.
Variable b : Z.
Hypothesis Hb : 0 <= b /\ b + 167 <= 2 ^ 64.
Definition good (n sp : Z) (R X M : Z -> Z) (pc : Z) (st : mach) : Prop :=
  pc = quad M sp /\ regs st 0 = fib (Z.to_nat n) mod 2 ^ 64 /\ regs st 4 = u64 (sp + 8) /\ (forall i, saved i -> regs st i = R i) /\
  xmms st = X /\ (forall i, 0 <= i < 16 -> word (regs st i)) /\ (forall x, ~ (sp - 64 * (n + 1) <= x < sp) -> mm st x = M x).

Ltac rg := cbv [upd Z.eqb Pos.eqb]; rewrite ?u64_word by (unfold word; lia); try reflexivity; try lia; try assumption.
Ltac wd := unfold word in *; lia.
Ltac im := cbn [mm]; repeat match goal with |- img_in _ _ (poke _ _ _) => apply img_poke; [|rewrite le_length; change (Z.of_nat (length fibo_image)) with 167; lia] end; assumption.
Tactic Notation "go" constr(k) uconstr(lem) := match goal with |- runs ?pc _ _ => replace pc with (b + k) by lia end;
  eapply runs_step; [eapply (step_img fibo_image); [im|apply fibo_at; reflexivity|eapply lem|cbn [after_ins rel_of i_ops]; reflexivity]|].

Ltac qd := repeat first [rewrite quad_same | rewrite quad_other by lia]; try reflexivity; try (apply Z.mod_small; wd).
(** From the label end: restore the registers and return. *)
Lemma fibo_end sp R X F M : (forall i, 0 <= i < 16 -> word (R i)) -> img_in fibo_image b M -> R 4 = sp - 56 -> R 5 = sp - 8 -> 56 <= sp -> sp + 8 <= 2 ^ 64 ->
  word (quad M (sp - 56)) -> word (quad M (sp - 48)) -> word (quad M (sp - 40)) -> word (quad M (sp - 32)) -> word (quad M (sp - 8)) ->
  runs (b + 154) (mkMach R X F M) (fun pc st => pc = quad M sp /\ mm st = M /\ xmms st = X /\ regs st 0 = R 0 /\ regs st 3 = R 3 /\ regs st 4 = u64 (sp + 8) /\
    regs st 5 = quad M (sp - 8) /\ regs st 12 = quad M (sp - 32) /\ regs st 13 = quad M (sp - 40) /\ regs st 14 = quad M (sp - 48) /\
    regs st 15 = quad M (sp - 56) /\ forall i, 0 <= i < 16 -> word (regs st i)).
Proof.
  intros HR Hi H4 H5 Hs Ht W15 W14 W13 W12 W5.
  go 154 (x_pop _ R X F M 15 (sp - 56) (sp - 48) (quad M (sp - 56))); [rg|lia|rg|reflexivity|exact W15|].
  go 156 (x_pop _ _ X F M 14 (sp - 48) (sp - 40) (quad M (sp - 48))); [rg|lia|rg|reflexivity|exact W14|].
  go 158 (x_pop _ _ X F M 13 (sp - 40) (sp - 32) (quad M (sp - 40))); [rg|lia|rg|reflexivity|exact W13|].
  go 160 (x_pop _ _ X F M 12 (sp - 32) (sp - 24) (quad M (sp - 32))); [rg|lia|rg|reflexivity|exact W12|].
  go 162 (x_mov_rr _ _ X F M 4 5 (sp - 8)); [rg|wd|].
  go 165 (x_pop _ _ X F M 5 (sp - 8) sp (quad M (sp - 8))); [rg|lia|rg|reflexivity|exact W5|].
  go 166 (x_ret _ _ X F M sp (quad M sp)); [rg|lia|reflexivity|].
  apply runs_now. cbn [mm xmms regs]. repeat match goal with |- _ /\ _ => split; [rg|] end. intros i Hw. unfold upd.
  repeat match goal with |- word (if ?c then _ else _) => destruct c end; try assumption; try (apply HR, Hw); try (wd).
  unfold word, u64. apply Z.mod_pos_bound. reflexivity.
Qed.
Lemma fibo_runs : forall k n sp R X F M, 0 <= n < Z.of_nat k -> (forall i, 0 <= i < 16 -> word (R i)) -> img_in fibo_image b M ->
  R 7 = n -> R 4 = sp -> 64 * (n + 1) <= sp -> sp + 8 <= 2 ^ 64 -> b + 167 <= sp - 64 * (n + 1) \/ sp <= b ->
  runs b (mkMach R X F M) (good n sp R X M).
Proof.
  induction k as [|k IH]; intros n sp R X F M Hn HR Hi H7 H4 Hs Ht Hd; [lia|].
  assert (W5 := HR 5 ltac:(lia)). assert (W12 := HR 12 ltac:(lia)). assert (W13 := HR 13 ltac:(lia)). assert (W14 := HR 14 ltac:(lia)). assert (W15 := HR 15 ltac:(lia)).
  assert (Wn : word n) by (rewrite <- H7; apply HR; lia).
  go 0 (x_push _ R X F M 5 (sp - 8) (R 5)); [rg|lia|lia|rg|].
  go 1 (x_mov_rr _ _ X F _ 5 4 (sp - 8)); [rg|wd|].
  go 4 (x_sub_ri _ _ X F _ 4 16 (sp - 8) (sp - 24)); [rg|wd|wd|rg|].
  go 8 (x_push _ _ X _ _ 12 (sp - 32) (R 12)); [rg|lia|lia|rg|].
  go 10 (x_push _ _ X _ _ 13 (sp - 40) (R 13)); [rg|lia|lia|rg|].
  go 12 (x_push _ _ X _ _ 14 (sp - 48) (R 14)); [rg|lia|lia|rg|].
  go 14 (x_push _ _ X _ _ 15 (sp - 56) (R 15)); [rg|lia|lia|rg|].
  go 16 (x_store _ _ X _ _ 5 (-8) 7 (sp - 16) n); [rg|wd|lia|rg|].
  go 20 (x_load _ _ X _ _ 12 5 (-8) (sp - 16) n); [rg|wd|lia|qd|wd|].
  go 24 (x_mov_ri _ _ X _ _ 13 0); [wd|].
  go 34 (x_cmp_rr _ _ X _ _ 12 13 n 0); [rg|rg|wd|wd|].
  set (M1 := poke _ (sp - 16) (le 8 n)).
  assert (Hi1 : img_in fibo_image b M1) by (unfold M1; im).
  assert (Q15 : quad M1 (sp - 56) = R 15) by (unfold M1; qd). assert (Q14 : quad M1 (sp - 48) = R 14) by (unfold M1; qd).
  assert (Q13 : quad M1 (sp - 40) = R 13) by (unfold M1; qd). assert (Q12 : quad M1 (sp - 32) = R 12) by (unfold M1; qd).
  assert (Q5 : quad M1 (sp - 8) = R 5) by (unfold M1; qd). assert (Qn : quad M1 (sp - 16) = n) by (unfold M1; qd).
  assert (Qr : quad M1 sp = quad M sp) by (unfold M1; qd).
  assert (HM1 : forall x, ~ (sp - 56 <= x < sp) -> M1 x = M x) by (intros x Hx; unfold M1; rewrite !poke_out by (rewrite le_length; lia); reflexivity).
  clearbody M1.
  match goal with |- context [mkMach ?r X _ M1] => set (R1 := r) end.
  assert (HR1 : forall i, 0 <= i < 16 -> word (R1 i)).
  { intros i Hw. unfold R1, upd. repeat match goal with |- word (if ?c then _ else _) => destruct c end; try (apply HR, Hw); wd. }
  assert (E4 : R1 4 = sp - 56) by rg. assert (E5 : R1 5 = sp - 8) by rg. assert (E12 : R1 12 = n) by rg. assert (E3 : R1 3 = R 3) by rg.
  clearbody R1.
  assert (Last : forall R2 F2 M2, (forall i, 0 <= i < 16 -> word (R2 i)) -> R2 4 = sp - 56 -> R2 5 = sp - 8 -> R2 3 = R 3 -> R2 0 = fib (Z.to_nat n) mod 2 ^ 64 ->
    (forall x, ~ (sp - 64 * (n + 1) <= x < sp - 56) -> M2 x = M1 x) -> runs (b + 154) (mkMach R2 X F2 M2) (good n sp R X M)).
  { intros R2 F2 M2 G G4 G5 G3 G0 GM.
    assert (GQ : forall d, -56 <= d <= 0 -> quad M2 (sp + d) = quad M1 (sp + d)) by (intros d Dd; apply quad_ext; intros x Hx; apply GM; lia).
    assert (G15 := GQ (-56) ltac:(lia)). assert (G14 := GQ (-48) ltac:(lia)). assert (G13 := GQ (-40) ltac:(lia)). assert (G12 := GQ (-32) ltac:(lia)).
    assert (G8 := GQ (-8) ltac:(lia)). assert (Gr := GQ 0 ltac:(lia)). rewrite Z.add_0_r, Qr in Gr.
    change (sp + -56) with (sp - 56) in G15. change (sp + -48) with (sp - 48) in G14. change (sp + -40) with (sp - 40) in G13.
    change (sp + -32) with (sp - 32) in G12. change (sp + -8) with (sp - 8) in G8.
    rewrite Q15 in G15. rewrite Q14 in G14. rewrite Q13 in G13. rewrite Q12 in G12. rewrite Q5 in G8.
    eapply runs_imp; [apply (fibo_end sp R2 X F2 M2); try assumption; try lia; rewrite ?G15, ?G14, ?G13, ?G12, ?G8; try assumption|].
    - apply (img_ext fibo_image b M1 M2 Hi1). intros x Hx. change (Z.of_nat (length fibo_image)) with 167 in Hx. apply GM. lia.
    - intros pc st (E1 & E2 & E6 & E7 & E8 & E9 & EA & EB & EC & ED & EE & EF). unfold good.
      split; [congruence|]. split; [congruence|]. split; [assumption|]. split; [|split; [assumption|split; [exact EF|]]].
      + intros i [-> | [-> | [-> | [-> | [-> | ->]]]]]; congruence.
      + intros x Hx. rewrite E2, GM by lia. apply HM1. lia. }
  destruct (Z.eq_dec n 0) as [N0|N0].
  { go 37 (x_jne_fall _ R1 X M1 n 0 15); [wd|wd|exact N0|].
    go 43 (x_mov_ri _ _ X _ _ 0 0); [wd|].
    go 53 (x_jmp _ _ X _ _ 96). replace (b + 53 + 5 + 96) with (b + 154) by lia.
    apply Last; [|rg|rg|rg|rewrite N0; reflexivity|reflexivity].
    intros i Hw. unfold upd. destruct (_ =? _); [wd|apply HR1, Hw]. }
  go 37 (x_jne_taken _ R1 X M1 n 0 15); [wd|wd|exact N0|].
  go 58 (x_mov_ri _ _ X _ _ 13 1); [wd|].
  go 68 (x_cmp_rr _ _ X _ _ 12 13 n 1); [rg|rg|wd|wd|].
  destruct (Z.eq_dec n 1) as [N1|N1].
  { go 71 (x_jne_fall _ _ X M1 n 1 15); [wd|wd|exact N1|].
    go 77 (x_mov_ri _ _ X _ _ 0 1); [wd|].
    go 87 (x_jmp _ _ X _ _ 62). replace (b + 87 + 5 + 62) with (b + 154) by lia.
    apply Last; [|rg|rg|rg|rewrite N1; reflexivity|reflexivity].
    intros i Hw. unfold upd. repeat match goal with |- word (if ?c then _ else _) => destruct c end; try (apply HR1, Hw); wd. }
  go 71 (x_jne_taken _ _ X M1 n 1 15); [wd|wd|exact N1|].
  go 92 (x_load _ _ X _ _ 12 5 (-8) (sp - 16) n); [rg|wd|lia|exact Qn|wd|].
  go 96 (x_mov_ri _ _ X _ _ 13 1); [wd|].
  go 106 (x_sub_rr _ _ X _ _ 12 13 n 1 (n - 1)); [rg|rg|wd|wd|rewrite u64_word by wd; reflexivity|].
  go 109 (x_mov_rr _ _ X _ _ 7 12 (n - 1)); [rg|wd|].
  go 112 (x_call _ _ X _ _ (-117) (sp - 64)); [rg|lia|lia|].
  replace (b + 112 + 5 + -117) with b by lia.
  eapply runs_seq; [apply (IH (n - 1) (sp - 64)); try lia|].
  { intros i Hw. unfold upd. repeat match goal with |- word (if ?c then _ else _) => destruct c end; try (apply HR1, Hw); wd. }
  { im. }
  { rg. }
  { rg. }
  intros pc' [Ra Xa Fa Ma] (Pa & V0 & V4 & Vs & Vx & Vw & Vm). cbn [regs xmms mm] in *. subst Xa.
  rewrite quad_same, Z.mod_small in Pa by lia. subst pc'.
  assert (A5 : Ra 5 = sp - 8) by (rewrite Vs by (unfold saved; lia); rg).
  assert (A3 : Ra 3 = R 3) by (rewrite Vs by (unfold saved; lia); rg).
  rewrite u64_word in V4 by wd. replace (sp - 64 + 8) with (sp - 56) in V4 by lia.
  assert (Mout : forall x, ~ (sp - 64 * (n + 1) <= x < sp - 56) -> Ma x = M1 x) by (intros x Hx; rewrite Vm by lia; apply poke_out; rewrite le_length; lia).
  clear Vs Vm.
  assert (Hia : img_in fibo_image b Ma) by (apply (img_ext fibo_image b M1 Ma Hi1); intros x Hx; change (Z.of_nat (length fibo_image)) with 167 in Hx; apply Mout; lia).
  assert (Qna : quad Ma (sp - 16) = n) by (rewrite <- Qn; apply quad_ext; intros x Hx; apply Mout; lia).
  set (v1 := fib (Z.to_nat (n - 1)) mod 2 ^ 64) in *.
  assert (Wv1 : word v1) by (apply Z.mod_pos_bound; reflexivity).
  go 117 (x_mov_rr _ Ra X _ _ 12 0 v1); [rg|wd|].
  go 120 (x_load _ _ X _ _ 13 5 (-8) (sp - 16) n); [rg|wd|lia|exact Qna|wd|].
  go 124 (x_mov_ri _ _ X _ _ 14 2); [wd|].
  go 134 (x_sub_rr _ _ X _ _ 13 14 n 2 (n - 2)); [rg|rg|wd|wd|rewrite u64_word by wd; reflexivity|].
  go 137 (x_mov_rr _ _ X _ _ 7 13 (n - 2)); [rg|wd|].
  go 140 (x_call _ _ X _ _ (-145) (sp - 64)); [rg|lia|lia|].
  replace (b + 140 + 5 + -145) with b by lia.
  eapply runs_seq; [apply (IH (n - 2) (sp - 64)); try lia|].
  { intros i Hw. unfold upd. repeat match goal with |- word (if ?c then _ else _) => destruct c end; try (apply Vw, Hw); wd. }
  { im. }
  { rg. }
  { rg. }
  intros pc' [Rc Xc Fc Mc] (Pc & U0 & U4 & Us & Ux & Uw & Um). cbn [regs xmms mm] in *. subst Xc.
  rewrite quad_same, Z.mod_small in Pc by lia. subst pc'.
  assert (C5 : Rc 5 = sp - 8) by (rewrite Us by (unfold saved; lia); rg).
  assert (C3 : Rc 3 = R 3) by (rewrite Us by (unfold saved; lia); rg).
  assert (C12 : Rc 12 = v1) by (rewrite Us by (unfold saved; lia); rg).
  rewrite u64_word in U4 by wd. replace (sp - 64 + 8) with (sp - 56) in U4 by lia.
  assert (Nout : forall x, ~ (sp - 64 * (n + 1) <= x < sp - 56) -> Mc x = M1 x)
    by (intros x Hx; rewrite Um by lia; rewrite poke_out by (rewrite le_length; lia); apply Mout; exact Hx).
  clear Us Um.
  assert (Hic : img_in fibo_image b Mc) by (apply (img_ext fibo_image b M1 Mc Hi1); intros x Hx; change (Z.of_nat (length fibo_image)) with 167 in Hx; apply Nout; lia).
  set (v2 := fib (Z.to_nat (n - 2)) mod 2 ^ 64) in *.
  assert (Wv2 : word v2) by (apply Z.mod_pos_bound; reflexivity).
  go 145 (x_mov_rr _ Rc X _ _ 13 0 v2); [rg|wd|].
  go 148 (x_add_rr _ _ X _ _ 12 13 v1 v2 (u64 (v1 + v2))); [rg|rg|wd|wd|reflexivity|].
  go 151 (x_mov_rr _ _ X _ _ 0 12 (u64 (v1 + v2))); [rg|apply Z.mod_pos_bound; reflexivity|].
  replace (b + 151 + 3) with (b + 154) by lia.
  apply Last; [|rg|rg|rg| |exact Nout].
  - intros i Hw. unfold upd. repeat match goal with |- word (if ?c then _ else _) => destruct c end; try (apply Uw, Hw); try assumption; apply Z.mod_pos_bound; reflexivity.
  - change (upd _ _ _ 0) with (u64 (v1 + v2)). unfold u64, v1, v2. rewrite <- Z.add_mod by discriminate. f_equal.
    replace (Z.to_nat n) with (S (S (Z.to_nat (n - 2)))) by lia. replace (Z.to_nat (n - 1)) with (S (Z.to_nat (n - 2))) by lia. reflexivity.
Qed.
End Run.
