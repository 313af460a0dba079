(** What the functions of monoasm/tests compute, continued: counts, shifts, xmm logic. *)
From Verif Require Import Base ModelMem ModelEnc ModelSyntax ModelMacro SpecX86 SpecAsm SpecState SpecHist SpecProg ModelParse DemoText
  EncDec Emit Trace MemInv SpecMachine SpecCpu MachLib MachImage Fibo FiboRun TestProgs TestRun.
Local Notation length := List.length.
Local Open Scope list_scope.
Local Open Scope Z_scope.

(** ** Counts *)
Lemma ones_step : forall n v, ones (S n) v = v mod 2 + ones n (v / 2).
Proof.
  induction n as [|n IH]; intro v.
  - cbn [ones]. change (Z.of_nat 0) with 0. rewrite Z.bit0_odd, Zmod_odd. destruct (Z.odd v); reflexivity.
  - change (ones (S (S n)) v) with (Z.b2z (Z.testbit v (Z.of_nat (S n))) + ones (S n) v). rewrite IH. cbn [ones].
    rewrite Nat2Z.inj_succ, <- Z.div2_bits by lia. lia.
Qed.
Lemma ones_ok : forall n v, is_ones n v (ones n v).
Proof. unfold is_ones. induction n as [|n IH]; intro v; [reflexivity|]. rewrite ones_step, IH. reflexivity. Qed.
Lemma leading_ok n v : 0 <= v < 2 ^ Z.of_nat n -> is_lz n v (leading n v).
Proof. intro H. unfold is_lz. destruct (v =? 0) eqn:E; [apply Z.eqb_eq in E; subst; apply leading_zero|apply leading_log; lia]. Qed.
Lemma trailing_ok n v : 0 <= v < 2 ^ Z.of_nat n -> is_tz n v (trailing n v).
Proof. intro H. unfold is_tz. destruct (v =? 0) eqn:E; [apply Z.eqb_eq in E; subst; apply trailing_zero|apply trailing_spec; lia]. Qed.
Lemma ones_bound : forall n v, 0 <= ones n v <= Z.of_nat n.
Proof. induction n as [|n IH]; intro v; cbn [ones]; [lia|]. specialize (IH v). destruct (Z.testbit v (Z.of_nat n)); cbn [Z.b2z]; lia. Qed.
Lemma leading_bound : forall n v, 0 <= leading n v <= Z.of_nat n.
Proof. induction n as [|n IH]; intro v; cbn [leading]; [lia|]. specialize (IH v). destruct (Z.testbit v (Z.of_nat n)); lia. Qed.
Lemma trailing_bound : forall n v, 0 <= trailing n v <= Z.of_nat n.
Proof. induction n as [|n IH]; intro v; cbn [trailing]; [lia|]. specialize (IH (v / 2)). destruct (Z.odd v); lia. Qed.
Lemma small_trunc w v : 0 <= v <= 64 -> trunc w v = v.
Proof. intro H. apply Z.mod_small. destruct w; cbv -[Z.lt Z.le]; lia. Qed.
Lemma u32_bound v : 0 <= u32 v < 2 ^ Z.of_nat 32. Proof. apply (Z.mod_pos_bound v 4294967296). reflexivity. Qed.

Definition i_popcntl : list Z := Eval vm_compute in code_of 8 t_popcntl.
Lemma a_popcntl : all_at i_popcntl. Proof. all_at_tac. Qed.
Lemma f_popcntl : computes t_popcntl 8 0 0 (fun _ => True) (fun st st' => is_ones 32 (u32 (regs st 7)) (regs st' 0)).
Proof.
  start i_popcntl. sx a_popcntl. sx a_popcntl. fin a_popcntl. rewrite !(trunc_word (R 7) W7). change (trunc W32 (R 7)) with (u32 (R 7)).
  rewrite small_trunc by (pose proof (ones_bound (nbits W32) (u32 (R 7))); change (Z.of_nat (nbits W32)) with 32 in *; lia). apply ones_ok.
Qed.
Definition i_lzcntl : list Z := Eval vm_compute in code_of 8 t_lzcntl.
Lemma a_lzcntl : all_at i_lzcntl. Proof. all_at_tac. Qed.
Lemma f_lzcntl : computes t_lzcntl 8 0 0 (fun _ => True) (fun st st' => is_lz 32 (u32 (regs st 7)) (regs st' 0)).
Proof.
  start i_lzcntl. sx a_lzcntl. sx a_lzcntl. fin a_lzcntl. rewrite !(trunc_word (R 7) W7). change (trunc W32 (R 7)) with (u32 (R 7)).
  rewrite small_trunc by (pose proof (leading_bound (nbits W32) (u32 (R 7))); change (Z.of_nat (nbits W32)) with 32 in *; lia). apply leading_ok, u32_bound.
Qed.
Definition i_tzcntl : list Z := Eval vm_compute in code_of 8 t_tzcntl.
Lemma a_tzcntl : all_at i_tzcntl. Proof. all_at_tac. Qed.
Lemma f_tzcntl : computes t_tzcntl 8 0 0 (fun _ => True) (fun st st' => is_tz 32 (u32 (regs st 7)) (regs st' 0)).
Proof.
  start i_tzcntl. sx a_tzcntl. sx a_tzcntl. fin a_tzcntl. rewrite !(trunc_word (R 7) W7). change (trunc W32 (R 7)) with (u32 (R 7)).
  rewrite small_trunc by (pose proof (trailing_bound (nbits W32) (u32 (R 7))); change (Z.of_nat (nbits W32)) with 32 in *; lia). apply trailing_ok, u32_bound.
Qed.

(** ** Shifts *)
Lemma byte_put r v : 0 <= v < 256 -> trunc W8 (r - trunc W8 r + trunc W8 v) = v.
Proof.
  intro H. unfold trunc. change (2 ^ bits W8) with 256. rewrite (Z.mod_small v) by exact H. pose proof (Z_div_mod_eq_full r 256).
  replace (r - r mod 256 + v) with (v + (r / 256) * 256) by lia. rewrite Z_mod_plus_full. apply Z.mod_small, H.
Qed.
Ltac shift_by A n := sx A; sx A; sl A (x_shift _ _ _ _ _ _ 0 n _ _); [rg; apply byte_put; lia|rg; reflexivity|fin A].
Lemma trunc_twice w v : trunc w (trunc w v) = trunc w v.
Proof. unfold trunc. apply Z.mod_mod. destruct w; discriminate. Qed.
Lemma trunc32_small v : 0 <= v < 2 ^ 32 -> trunc W32 v = v. Proof. intro H. apply Z.mod_small. exact H. Qed.
Ltac clean W7 := rewrite !(trunc_word _ W7), ?trunc_twice.
Definition i_shll : list Z := Eval vm_compute in code_of 8 t_shll.
Lemma a_shll : all_at i_shll. Proof. all_at_tac. Qed.
Lemma f_shll : computes t_shll 8 0 0 (fun _ => True) (fun st st' => regs st' 0 = u32 (regs st 7 * 2 ^ 31)).
Proof.
  start i_shll. shift_by a_shll 31. clean W7.
  unfold trunc. change (2 ^ bits W32) with 4294967296. change (2 ^ mask W32 31) with (2 ^ 31). unfold u32. apply Zmult_mod_idemp_l.
Qed.
Definition i_sall : list Z := Eval vm_compute in code_of 8 t_sall.
Lemma a_sall : all_at i_sall. Proof. all_at_tac. Qed.
Lemma f_sall : computes t_sall 8 0 0 (fun _ => True) (fun st st' => regs st' 0 = u32 (regs st 7 * 2 ^ 31)).
Proof.
  start i_sall. shift_by a_sall 31. clean W7.
  unfold trunc. change (2 ^ bits W32) with 4294967296. change (2 ^ mask W32 31) with (2 ^ 31). unfold u32. apply Zmult_mod_idemp_l.
Qed.
Definition i_shrl : list Z := Eval vm_compute in code_of 8 t_shrl.
Lemma a_shrl : all_at i_shrl. Proof. all_at_tac. Qed.
Lemma f_shrl : computes t_shrl 8 0 0 (fun _ => True) (fun st st' => regs st' 0 = u32 (regs st 7) / 2).
Proof.
  start i_shrl. shift_by a_shrl 1. clean W7.
  change (trunc W32 (R 7)) with (u32 (R 7)). change (2 ^ mask W32 1) with 2. apply trunc32_small. pose proof (u32_bound (R 7)) as B. change (2 ^ Z.of_nat 32) with (2 ^ 32) in B. pose proof (Z_div_mod_eq_full (u32 (R 7)) 2). pose proof (Z.mod_pos_bound (u32 (R 7)) 2 eq_refl). lia.
Qed.
Definition i_sarl : list Z := Eval vm_compute in code_of 8 t_sarl.
Lemma a_sarl : all_at i_sarl. Proof. all_at_tac. Qed.
Lemma f_sarl : computes t_sarl 8 0 0 (fun _ => True) (fun st st' => regs st' 0 = u32 (i32 (regs st 7) / 2 ^ 31)).
Proof.
  start i_sarl. shift_by a_sarl 31. clean W7.
  change (mask W32 31) with 31. rewrite <- (i32_trunc (R 7)). reflexivity.
Qed.
Definition i_roll : list Z := Eval vm_compute in code_of 8 t_roll.
Lemma a_roll : all_at i_roll. Proof. all_at_tac. Qed.
Lemma f_roll : computes t_roll 8 0 0 (fun _ => True) (fun st st' => regs st' 0 = u32 (regs st 7) mod 2 ^ 28 * 16 + u32 (regs st 7) / 2 ^ 28).
Proof.
  start i_roll. shift_by a_roll 4. clean W7.
  change (trunc W32 (R 7)) with (u32 (R 7)). pose proof (u32_bound (R 7)) as B. change (2 ^ Z.of_nat 32) with 4294967296 in B. set (v := u32 (R 7)) in *.
  change (mask W32 4 mod bits W32) with 4. change (2 ^ (bits W32 - 4)) with 268435456. change (2 ^ 28) with 268435456. change (2 ^ 4) with 16. unfold trunc.
  change (2 ^ bits W32) with 4294967296. pose proof (Z_div_mod_eq_full v 268435456). pose proof (Z.mod_pos_bound v 268435456 eq_refl). symmetry. apply (Z.mod_unique_pos _ _ (v / 268435456)); lia.
Qed.
Definition i_rorl : list Z := Eval vm_compute in code_of 8 t_rorl.
Lemma a_rorl : all_at i_rorl. Proof. all_at_tac. Qed.
Lemma f_rorl : computes t_rorl 8 0 0 (fun _ => True) (fun st st' => regs st' 0 = u32 (regs st 7) mod 16 * 2 ^ 28 + u32 (regs st 7) / 16).
Proof.
  start i_rorl. shift_by a_rorl 4. clean W7.
  change (trunc W32 (R 7)) with (u32 (R 7)). pose proof (u32_bound (R 7)) as B. change (2 ^ Z.of_nat 32) with 4294967296 in B. set (v := u32 (R 7)) in *.
  change (mask W32 4 mod bits W32) with 4. change (2 ^ (bits W32 - 4)) with 268435456. change (2 ^ 28) with 268435456. change (2 ^ 4) with 16. unfold trunc.
  change (2 ^ bits W32) with 4294967296. pose proof (Z_div_mod_eq_full v 16). pose proof (Z.mod_pos_bound v 16 eq_refl). symmetry. apply (Z.mod_unique_pos _ _ (v / 16)); lia.
Qed.

(** ** xmm registers *)
Definition i_andpd : list Z := Eval vm_compute in code_of 20 t_andpd.
Lemma a_andpd : all_at i_andpd. Proof. all_at_tac. Qed.
(** The double in the low quadword loses its sign bit. *)
Lemma f_andpd : computes t_andpd 20 0 0 (fun _ => True) (fun st st' => xmms st' 0 = xmms st 0 mod 2 ^ 63).
Proof.
  start i_andpd. sx a_andpd. sx a_andpd. sx a_andpd. fin a_andpd.
  change (trunc W64 _) with (Z.ones 63). rewrite Z.land_ones by discriminate. reflexivity.
Qed.
Definition i_xorpd : list Z := Eval vm_compute in code_of 20 (t_xorpd 0).
Lemma a_xorpd : all_at i_xorpd. Proof. all_at_tac. Qed.
(** ... or has it inverted. *)
Lemma flip v : 0 <= v -> Z.lxor v (2 ^ 63) = if Z.testbit v 63 then v - 2 ^ 63 else v + 2 ^ 63.
Proof.
  intro H. destruct (Z.testbit v 63) eqn:E.
  - rewrite Z.sub_nocarry_ldiff.
    + apply Z.bits_inj'. intros n Hn. rewrite Z.lxor_spec, Z.ldiff_spec, Z.pow2_bits_eqb by lia. destruct (Z.eq_dec 63 n) as [<-|N].
      * rewrite E, Z.eqb_refl. reflexivity.
      * replace (63 =? n) with false by lia. destruct (Z.testbit v n); reflexivity.
    + apply Z.bits_inj'. intros n Hn. rewrite Z.ldiff_spec, Z.pow2_bits_eqb, Z.bits_0 by lia. destruct (Z.eq_dec 63 n) as [<-|N].
      * rewrite E, Z.eqb_refl. reflexivity.
      * replace (63 =? n) with false by lia. reflexivity.
  - rewrite Z.add_nocarry_lxor; [reflexivity|]. apply Z.bits_inj'. intros n Hn. rewrite Z.land_spec, Z.pow2_bits_eqb, Z.bits_0 by lia.
    destruct (Z.eq_dec 63 n) as [<-|N]; [rewrite E; reflexivity|replace (63 =? n) with false by lia; apply Bool.andb_false_r].
Qed.
Lemma f_xorpd foo : computes (t_xorpd foo) 20 0 0 (fun _ => True)
  (fun st st' => xmms st' 0 = if Z.testbit (xmms st 0) 63 then xmms st 0 - 2 ^ 63 else xmms st 0 + 2 ^ 63).
Proof.
  start i_xorpd. sx a_xorpd. sx a_xorpd. sx a_xorpd. fin a_xorpd. rewrite <- flip; [reflexivity|]. apply (Wx 0). lia.
Qed.

(** ** Counts of a value in the data page *)
Section Instr.
Variables (next : Z) (R X : Z -> Z) (F : flags) (M : Z -> Z).
Notation st := (mkMach R X F M).
Lemma x_lea d k a : u64 (next + 0 + k) = a -> x86 (mkIns Lea W64 [OReg W64 d; OMem (mkMem (Some BRip) None k)]) next st = Some (mkMach (upd R d a) X F M, Fall).
Proof.
  intros <-. cbn [x86 i_mnem i_ops i_width put fall option_map]. unfold put_reg, set_regs. cbn [regs xmms fl mm]. unfold ea. cbn [m_base m_index m_disp].
  rewrite trunc_word by (apply Z.mod_pos_bound; reflexivity). reflexivity.
Qed.
Lemma x_store_ix r i c k s a v : u64 (R r + R i * c + k) = a -> a + 8 <= 2 ^ 64 -> R s = v ->
  x86 (mkIns Mov W64 [OMem (mkMem (Some (BReg r)) (Some (i, c)) k); OReg W64 s]) next st = Some (mkMach R X F (poke M a (le 8 v)), Fall).
Proof.
  intros Ha H <-. cbn [x86 i_mnem i_ops i_width get obind put regs size]. unfold ea. cbn [m_base m_index m_disp]. rewrite Ha, (store_quad _ _ _ _ _ _ H), le_trunc. reflexivity.
Qed.
Lemma x_popcnt_ix d r i c k a v : u64 (R r + R i * c + k) = a -> a + 8 <= 2 ^ 64 -> quad M a = v ->
  exists f, x86 (mkIns Popcnt W64 [OReg W64 d; OMem (mkMem (Some (BReg r)) (Some (i, c)) k)]) next st = Some (mkMach (upd R d (ones 64 v)) X f M, Fall).
Proof.
  intros Ha H Hv. eexists. cbn [x86 i_mnem i_ops i_width get obind put regs size]. unfold ea. cbn [m_base m_index m_disp]. rewrite Ha, (load_quad _ _ _ _ _ _ H Hv). cbn [obind].
  unfold put_reg, set_regs, set_fl. cbn [regs xmms fl mm fall option_map]. rewrite small_trunc by apply (ones_bound 64). reflexivity.
Qed.
Lemma x_lzcnt_ix d r i c k a v : u64 (R r + R i * c + k) = a -> a + 8 <= 2 ^ 64 -> quad M a = v ->
  exists f, x86 (mkIns Lzcnt W64 [OReg W64 d; OMem (mkMem (Some (BReg r)) (Some (i, c)) k)]) next st = Some (mkMach (upd R d (leading 64 v)) X f M, Fall).
Proof.
  intros Ha H Hv. eexists. cbn [x86 i_mnem i_ops i_width get obind put regs size]. unfold ea. cbn [m_base m_index m_disp]. rewrite Ha, (load_quad _ _ _ _ _ _ H Hv). cbn [obind].
  unfold put_reg, set_regs, set_fl. cbn [regs xmms fl mm fall option_map]. rewrite small_trunc by apply (leading_bound 64). reflexivity.
Qed.
Lemma x_tzcnt_ix d r i c k a v : u64 (R r + R i * c + k) = a -> a + 8 <= 2 ^ 64 -> quad M a = v ->
  exists f, x86 (mkIns Tzcnt W64 [OReg W64 d; OMem (mkMem (Some (BReg r)) (Some (i, c)) k)]) next st = Some (mkMach (upd R d (trailing 64 v)) X f M, Fall).
Proof.
  intros Ha H Hv. eexists. cbn [x86 i_mnem i_ops i_width get obind put regs size]. unfold ea. cbn [m_base m_index m_disp]. rewrite Ha, (load_quad _ _ _ _ _ _ H Hv). cbn [obind].
  unfold put_reg, set_regs, set_fl. cbn [regs xmms fl mm fall option_map]. rewrite small_trunc by apply (trailing_bound 64). reflexivity.
Qed.
End Instr.
Definition i_popcntq : list Z := Eval vm_compute in code_of 30 t_popcntq.
Lemma a_popcntq : all_at i_popcntq. Proof. all_at_tac. Qed.
Lemma f_popcntq : computes t_popcntq 30 (2 * PAGE_SIZE + 20) (2 * PAGE_SIZE + 28) (fun _ => True) (fun st st' => is_ones 64 (regs st 7) (regs st' 0)).
Proof.
  start i_popcntq. change PAGE_SIZE with 268435456 in *.
  sl a_popcntq (x_lea _ _ _ _ _ 6 _ (b + 536870912)); [unfold u64; rewrite Z.mod_small by lia; lia|].
  sl a_popcntq (x_mov_ri _ _ _ _ _ 1 8); [unfold word; lia|].
  sl a_popcntq (x_store_ix _ _ _ _ _ 6 1 2 4 7 (b + 536870932) (R 7)); [rg; unfold u64; rewrite Z.mod_small by lia; lia|lia|rg|].
  match goal with |- context [poke M ?a ?l] => set (M1 := poke M a l) end.
  assert (Hi1 : img_in i_popcntq b M1) by (apply img_poke; [exact Hi|rewrite le_length; change (Z.of_nat (length i_popcntq)) with 30; lia]).
  assert (Q1 : quad M1 (b + 536870932) = R 7) by (unfold M1; rewrite quad_same; apply Z.mod_small, W7).
  assert (Qr : quad M1 (R 4) = quad M (R 4)) by (apply quad_other; lia).
  assert (Ho : forall x, ~ (b + 536870932 <= x < b + 536870940) -> M1 x = M x) by (intros x Hx; apply poke_out; rewrite le_length; lia).
  clearbody M1.
  match goal with |- runs _ (mkMach ?r _ ?f _) _ => destruct (x_popcnt_ix (b + 22 + 7) r X f M1 0 6 1 2 4 (b + 536870932) (R 7)) as (f' & Hx);
    [rg; unfold u64; rewrite Z.mod_small by lia; lia|lia|exact Q1|] end.
  sl a_popcntq Hx. clear Hx.
  sl a_popcntq (x_ret _ _ _ _ _ (R 4) _); [reflexivity|assumption|exact Qr|].
  apply runs_now. cbn [regs xmms mm]. split; [reflexivity|]. split; [reflexivity|].
  split; [intros ? [-> | [-> | [-> | [-> | [-> | ->]]]]]; reflexivity|]. split; [intros x Hx; apply Ho; lia|]. rg. apply ones_ok.
Qed.
Definition i_lzcntq : list Z := Eval vm_compute in code_of 30 t_lzcntq.
Lemma a_lzcntq : all_at i_lzcntq. Proof. all_at_tac. Qed.
Lemma f_lzcntq : computes t_lzcntq 30 (2 * PAGE_SIZE + 20) (2 * PAGE_SIZE + 28) (fun _ => True) (fun st st' => is_lz 64 (regs st 7) (regs st' 0)).
Proof.
  start i_lzcntq. change PAGE_SIZE with 268435456 in *.
  sl a_lzcntq (x_lea _ _ _ _ _ 6 _ (b + 536870912)); [unfold u64; rewrite Z.mod_small by lia; lia|].
  sl a_lzcntq (x_mov_ri _ _ _ _ _ 1 8); [unfold word; lia|].
  sl a_lzcntq (x_store_ix _ _ _ _ _ 6 1 2 4 7 (b + 536870932) (R 7)); [rg; unfold u64; rewrite Z.mod_small by lia; lia|lia|rg|].
  match goal with |- context [poke M ?a ?l] => set (M1 := poke M a l) end.
  assert (Hi1 : img_in i_lzcntq b M1) by (apply img_poke; [exact Hi|rewrite le_length; change (Z.of_nat (length i_lzcntq)) with 30; lia]).
  assert (Q1 : quad M1 (b + 536870932) = R 7) by (unfold M1; rewrite quad_same; apply Z.mod_small, W7).
  assert (Qr : quad M1 (R 4) = quad M (R 4)) by (apply quad_other; lia).
  assert (Ho : forall x, ~ (b + 536870932 <= x < b + 536870940) -> M1 x = M x) by (intros x Hx; apply poke_out; rewrite le_length; lia).
  clearbody M1.
  match goal with |- runs _ (mkMach ?r _ ?f _) _ => destruct (x_lzcnt_ix (b + 22 + 7) r X f M1 0 6 1 2 4 (b + 536870932) (R 7)) as (f' & Hx);
    [rg; unfold u64; rewrite Z.mod_small by lia; lia|lia|exact Q1|] end.
  sl a_lzcntq Hx. clear Hx.
  sl a_lzcntq (x_ret _ _ _ _ _ (R 4) _); [reflexivity|assumption|exact Qr|].
  apply runs_now. cbn [regs xmms mm]. split; [reflexivity|]. split; [reflexivity|].
  split; [intros ? [-> | [-> | [-> | [-> | [-> | ->]]]]]; reflexivity|]. split; [intros x Hx; apply Ho; lia|]. rg. apply leading_ok; exact W7.
Qed.
Definition i_tzcntq : list Z := Eval vm_compute in code_of 30 t_tzcntq.
Lemma a_tzcntq : all_at i_tzcntq. Proof. all_at_tac. Qed.
Lemma f_tzcntq : computes t_tzcntq 30 (2 * PAGE_SIZE + 20) (2 * PAGE_SIZE + 28) (fun _ => True) (fun st st' => is_tz 64 (regs st 7) (regs st' 0)).
Proof.
  start i_tzcntq. change PAGE_SIZE with 268435456 in *.
  sl a_tzcntq (x_lea _ _ _ _ _ 6 _ (b + 536870912)); [unfold u64; rewrite Z.mod_small by lia; lia|].
  sl a_tzcntq (x_mov_ri _ _ _ _ _ 1 8); [unfold word; lia|].
  sl a_tzcntq (x_store_ix _ _ _ _ _ 6 1 2 4 7 (b + 536870932) (R 7)); [rg; unfold u64; rewrite Z.mod_small by lia; lia|lia|rg|].
  match goal with |- context [poke M ?a ?l] => set (M1 := poke M a l) end.
  assert (Hi1 : img_in i_tzcntq b M1) by (apply img_poke; [exact Hi|rewrite le_length; change (Z.of_nat (length i_tzcntq)) with 30; lia]).
  assert (Q1 : quad M1 (b + 536870932) = R 7) by (unfold M1; rewrite quad_same; apply Z.mod_small, W7).
  assert (Qr : quad M1 (R 4) = quad M (R 4)) by (apply quad_other; lia).
  assert (Ho : forall x, ~ (b + 536870932 <= x < b + 536870940) -> M1 x = M x) by (intros x Hx; apply poke_out; rewrite le_length; lia).
  clearbody M1.
  match goal with |- runs _ (mkMach ?r _ ?f _) _ => destruct (x_tzcnt_ix (b + 22 + 7) r X f M1 0 6 1 2 4 (b + 536870932) (R 7)) as (f' & Hx);
    [rg; unfold u64; rewrite Z.mod_small by lia; lia|lia|exact Q1|] end.
  sl a_tzcntq Hx. clear Hx.
  sl a_tzcntq (x_ret _ _ _ _ _ (R 4) _); [reflexivity|assumption|exact Qr|].
  apply runs_now. cbn [regs xmms mm]. split; [reflexivity|]. split; [reflexivity|].
  split; [intros ? [-> | [-> | [-> | [-> | [-> | ->]]]]]; reflexivity|]. split; [intros x Hx; apply Ho; lia|]. rg. apply trailing_ok; exact W7.
Qed.
