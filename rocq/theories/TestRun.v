(** What the functions of monoasm/tests compute, for every argument. *)
From Verif Require Import Base ModelMem ModelEnc ModelSyntax ModelMacro SpecX86 SpecAsm SpecState SpecHist SpecProg ModelParse DemoText
  EncDec Emit Trace MemInv SpecMachine SpecCpu MachLib MachImage Fibo FiboRun TestProgs.
Local Notation length := List.length.
Local Open Scope list_scope.
Local Open Scope Z_scope.

(** ** Images *)
Definition code_of (n : nat) (ops : list op) : list Z :=
  match run ops (jit_new 0 (fun _ => 0)) with Some s => bytes s P0 0 n | None => [] end.
Definition tab (img : list Z) := table_from (length img) 0 img.
Definition all_at (img : list Z) : Prop := Forall (fun e => insn_at img (fst (fst e)) (snd (fst e)) (snd e)) (tab img).
Lemma tab_at img k n x : all_at img -> find_ins k (tab img) = Some (n, x) -> insn_at img k n x.
Proof. intros H F. apply find_in in F. exact (proj1 (Forall_forall _ _) H _ F). Qed.
Ltac all_at_tac := unfold all_at; match goal with |- Forall _ ?t => let t' := eval vm_compute in t in change t with t' end;
  repeat constructor; cbn [fst snd]; try (intro; vm_compute; reflexivity); try (vm_compute; intro; discriminate).

Lemma computes_by ops l off img len d0 d1 (pre : mach -> Prop) post : forallb relocatable ops = true -> Z.of_nat (length img) <= PAGE_SIZE ->
  (forall m, view_of l (length img) (run ops (jit_new 0 m)) = Some (img, Some (P0, off))) -> len = Z.of_nat (length img) ->
  (forall b R X F M, 0 < b -> b + 3 * PAGE_SIZE <= 2 ^ 64 -> img_in img b M -> (forall i, 0 <= i < 16 -> word (R i)) -> (forall i, 0 <= i < 16 -> 0 <= X i < 2 ^ 128) ->
    R 4 + 8 <= b \/ b + 3 * PAGE_SIZE <= R 4 -> R 4 + 8 <= 2 ^ 64 -> pre (mkMach R X F M) ->
    runs (b + off) (mkMach R X F M) (fun pc st' => pc = quad M (R 4) /\ regs st' 4 = u64 (R 4 + 8) /\ (forall i, saved i -> regs st' i = R i) /\
        (forall x, ~ (b + d0 <= x < b + d1) -> mm st' x = M x) /\ post (mkMach R X F M) st')) ->
  computes_at ops l off len d0 d1 pre post.
Proof.
  intros Hr Hl Hv -> H b m Hb Ht. destruct (image_of ops l off img Hr Hl Hv b m) as (s & E & La & Hi). exists s. split; [exact E|]. split; [exact La|].
  intros [R X F M] (Wr & Wx & _) Hh Hs Hs2 Hp. cbn [regs mm] in *.
  destruct (H b R X F M) as (k & pc & st' & C & -> & G4 & Gs & Gm & Gp); try assumption.
  - intros i Hi'. rewrite Hh by lia. apply Hi, Hi'.
  - exists k, st'. repeat split; assumption.
Qed.

Ltac sx A := match goal with |- runs (?b + ?k) _ _ => eapply runs_step;
   [eapply step_img; [eassumption|apply (tab_at _ k _ _ A); vm_compute; reflexivity|
      cbv beta iota zeta delta [x86 i_mnem i_ops i_width get put fall option_map obind put_reg set_regs set_xmms put_xmm set_fl set_mm regs xmms fl mm do_unary do_alu fst snd get_xm get128 put_wide]; reflexivity
     |reflexivity]|];
   match goal with |- runs (b + k + ?n) _ _ => let kn := eval vm_compute in (k + n) in replace (b + k + n) with (b + kn) by lia end end.

(** The same with a lemma for the instruction. *)
Tactic Notation "sl" constr(A) uconstr(lem) := match goal with |- runs (?b + ?k) _ _ => eapply runs_step;
   [eapply step_img; [eassumption|apply (tab_at _ k _ _ A); vm_compute; reflexivity|eapply lem|reflexivity]|..];
   try match goal with |- runs (b + k + ?n) _ _ => let kn := eval vm_compute in (k + n) in replace (b + k + n) with (b + kn) by lia end end.
Ltac rg := cbv [upd Z.eqb Pos.eqb]; try reflexivity.
Ltac fin A := sl A (x_ret _ _ _ _ _ _ _); [reflexivity|rg; assumption|reflexivity|apply runs_now; cbn [regs xmms mm]; split; [rg|]; split; [rg|];
   split; [intros ? [-> | [-> | [-> | [-> | [-> | ->]]]]]; rg|]; split; [intros; try reflexivity|]; rg].
Ltac start img := apply (computes_by _ _ _ img); [vm_compute; reflexivity|vm_compute; discriminate|intro; vm_compute; reflexivity|reflexivity|
  intros b R X F M Hb Ht Hi Wr Wx Hs Hs2 Hp; cbn [regs xmms mm] in Hp |- *;
  assert (W0 := Wr 0 ltac:(lia)); assert (W1 := Wr 1 ltac:(lia)); assert (W2 := Wr 2 ltac:(lia)); assert (W6 := Wr 6 ltac:(lia)); assert (W7 := Wr 7 ltac:(lia))].

(** ** Sign extension *)
Lemma trunc32_bit v : Z.testbit (trunc W32 v) 31 = Z.testbit v 31.
Proof. unfold trunc. apply Z.mod_pow2_bits_low. reflexivity. Qed.
Definition i_cdq : list Z := Eval vm_compute in code_of 7 t_cdq.
Lemma a_cdq : all_at i_cdq. Proof. all_at_tac. Qed.
Lemma f_cdq : computes t_cdq 7 0 0 (fun _ => True) (fun st st' => regs st' 0 = if Z.testbit (regs st 7) 31 then 0xffffffff else 0).
Proof.
  start i_cdq. sx a_cdq. sx a_cdq. sx a_cdq. fin a_cdq.
  rewrite !(trunc_word _ W7). change (msb W32 (R 7)) with (Z.testbit (R 7) 31). destruct (Z.testbit (R 7) 31); reflexivity.
Qed.

(** ** Division *)
Section Instr.
Variables (next : Z) (R X : Z -> Z) (F : flags) (M : Z -> Z).
Notation st := (mkMach R X F M).
Lemma x_div w s a n : w = W64 \/ w = W32 -> trunc w (R s) = a -> 0 < a -> trunc w (R 2) * 2 ^ bits w + trunc w (R 0) = n -> n / a < 2 ^ bits w ->
  x86 (mkIns (Unary DIV) w [OReg w s]) next st = Some (mkMach (upd (upd R 0 (n / a)) 2 (n mod a)) X no_flags M, Fall).
Proof.
  intros Hw Ha H0 Hn Hq. cbn [x86 i_mnem i_ops i_width]. unfold do_unary. cbn [get obind regs]. rewrite Ha.
  replace (match w with W8 => _ | _ => _ end) with (if a =? 0 then None else if 2 ^ bits w <=? wide w st / a then None
    else Some (set_fl no_flags (put_wide w (wide w st mod a) (wide w st / a) st))) by (destruct Hw as [-> | ->]; reflexivity).
  assert (Ew : wide w st = n) by exact Hn. rewrite Ew.
  assert (Ht : forall v, 0 <= trunc w v < 2 ^ bits w) by (intro v; destruct Hw as [-> | ->]; apply Z.mod_pos_bound; reflexivity).
  assert (N0 : 0 <= n) by (pose proof (Ht (R 2)); pose proof (Ht (R 0)); nia).
  assert (Hr : 0 <= n mod a < 2 ^ bits w) by (pose proof (Z.mod_pos_bound n a H0); pose proof (Ht (R s)); lia).
  assert (Q0 : 0 <= n / a) by (apply Z.div_pos; lia).
  replace (a =? 0) with false by lia. replace (2 ^ bits w <=? n / a) with false by lia.
  assert (E1 : trunc w (n mod a) = n mod a) by (apply Z.mod_small; exact Hr). assert (E2 : trunc w (n / a) = n / a) by (apply Z.mod_small; lia).
  destruct Hw as [-> | ->]; cbn [fall option_map]; unfold put_wide, put_reg, set_regs, set_fl; cbn [regs xmms mm]; rewrite E1, E2; reflexivity.
Qed.
Lemma x_idiv w s d n : w = W64 \/ w = W32 -> sgn w (trunc w (R s)) = d -> d <> 0 -> signed (2 ^ (2 * bits w)) (trunc w (R 2) * 2 ^ bits w + trunc w (R 0)) = n ->
  - 2 ^ (bits w - 1) <= Z.quot n d < 2 ^ (bits w - 1) ->
  x86 (mkIns (Unary IDIV) w [OReg w s]) next st = Some (mkMach (upd (upd R 0 (trunc w (Z.quot n d))) 2 (trunc w (Z.rem n d))) X no_flags M, Fall).
Proof.
  intros Hw Ha H0 Hn Hq. cbn [x86 i_mnem i_ops i_width]. unfold do_unary. cbn [get obind regs].
  replace (match w with W8 => _ | _ => _ end) with (if sgn w (trunc w (R s)) =? 0 then None
    else if negb (Z.quot (signed (2 ^ (2 * bits w)) (wide w st)) (sgn w (trunc w (R s))) =? sgn w (Z.quot (signed (2 ^ (2 * bits w)) (wide w st)) (sgn w (trunc w (R s))))) then None
    else Some (set_fl no_flags (put_wide w (Z.rem (signed (2 ^ (2 * bits w)) (wide w st)) (sgn w (trunc w (R s)))) (Z.quot (signed (2 ^ (2 * bits w)) (wide w st)) (sgn w (trunc w (R s)))) st)))
    by (destruct Hw as [-> | ->]; reflexivity).
  assert (Ew : signed (2 ^ (2 * bits w)) (wide w st) = n) by exact Hn. rewrite Ew, Ha.
  replace (d =? 0) with false by lia.
  assert (Es : sgn w (Z.quot n d) = Z.quot n d).
  { unfold sgn, signed. replace (2 ^ bits w) with (2 * 2 ^ (bits w - 1)) by (destruct Hw as [-> | ->]; reflexivity).
    set (h := 2 ^ (bits w - 1)) in *. assert (0 < h) by (destruct Hw as [-> | ->]; reflexivity). cbv zeta.
    replace (2 * h / 2) with h by (rewrite Z.mul_comm, Z.div_mul by discriminate; reflexivity). destruct (Z_lt_le_dec (Z.quot n d) 0).
    - replace ((Z.quot n d) mod (2 * h)) with (Z.quot n d + 2 * h) by (apply (Z.mod_unique_pos _ _ (-1)); lia).
      destruct (_ <? _) eqn:E; lia.
    - rewrite Z.mod_small by lia. destruct (_ <? _) eqn:E; lia. }
  rewrite Es, Z.eqb_refl. cbn [negb].
  destruct Hw as [-> | ->]; cbn [fall option_map]; unfold put_wide, put_reg, set_regs, set_fl; cbn [regs xmms mm]; reflexivity.
Qed.
Lemma x_shift o d c r f : trunc W8 (R 1) = c -> do_shift o W32 (trunc W32 (R d)) (mask W32 c) F = Some (r, f) ->
  x86 (mkIns (Shift o) W32 [OReg W32 d; OReg W8 1]) next st = Some (mkMach (upd R d (trunc W32 r)) X f M, Fall).
Proof. intros <- H. cbn [x86 i_mnem i_ops i_width get obind regs fl]. rewrite H. reflexivity. Qed.
End Instr.

Definition i_udiv : list Z := Eval vm_compute in code_of 13 t_udiv.
Lemma a_udiv : all_at i_udiv. Proof. all_at_tac. Qed.
Lemma f_udiv : computes t_udiv 13 0 0 (fun st => regs st 6 < regs st 2)
  (fun st st' => regs st' 0 = (regs st 6 * 2 ^ 64 + regs st 7) / regs st 2 /\ regs st' 2 = (regs st 6 * 2 ^ 64 + regs st 7) mod regs st 2).
Proof.
  start i_udiv. sx a_udiv. sx a_udiv. sx a_udiv. rewrite !(trunc_word (R 2) W2).
  sl a_udiv (x_div _ _ _ _ _ W64 1 (R 2) (R 6 * 2 ^ 64 + R 7)).
  - left. reflexivity.
  - rg. apply trunc_word, W2.
  - unfold word in *. lia.
  - rg. rewrite !trunc_word by (try assumption; apply Z.mod_pos_bound; reflexivity). reflexivity.
  - apply Z.div_lt_upper_bound; unfold word in *; change (bits W64) with 64; nia.
  - fin a_udiv. split; reflexivity.
Qed.
Lemma signed_range m v : 0 < m -> m mod 2 = 0 -> - (m / 2) <= signed m v < m / 2.
Proof. intros H He. unfold signed. pose proof (Z.mod_pos_bound v m H). pose proof (Z_div_mod_eq_full m 2). cbv zeta. destruct (_ <? _) eqn:E; lia. Qed.
Lemma signed_mod m v : 0 < m -> signed m v mod m = v mod m.
Proof.
  intro H. unfold signed. cbv zeta. pose proof (Z.mod_pos_bound v m H). destruct (_ <? _); [apply Z.mod_small; assumption|].
  symmetry. apply (Z.mod_unique_pos _ _ (-1)); lia.
Qed.
Lemma signed_id m v : 0 < m -> m mod 2 = 0 -> - (m / 2) <= v < m / 2 -> signed m v = v.
Proof.
  intros H He Hv. pose proof (Z_div_mod_eq_full m 2). unfold signed. cbv zeta. destruct (Z_lt_le_dec v 0).
  - replace (v mod m) with (v + m) by (apply (Z.mod_unique_pos _ _ (-1)); lia). destruct (_ <? _) eqn:E; lia.
  - rewrite Z.mod_small by lia. destruct (_ <? _) eqn:E; lia.
Qed.
Lemma signed_idem m v : 0 < m -> signed m (v mod m) = signed m v.
Proof. intro H. unfold signed. rewrite Z.mod_mod by lia. reflexivity. Qed.

Definition i_idiv : list Z := Eval vm_compute in code_of 13 t_idiv.
Lemma a_idiv : all_at i_idiv. Proof. all_at_tac. Qed.
(** The divisor is in rdx. *)
Lemma f_idiv : computes t_idiv 13 0 0 (fun st => i64 (regs st 2) <> 0 /\ - 2 ^ 63 <= Z.quot (dividend st) (i64 (regs st 2)) < 2 ^ 63)
  (fun st st' => i64 (regs st' 0) = Z.quot (dividend st) (i64 (regs st 2)) /\ i64 (regs st' 2) = Z.rem (dividend st) (i64 (regs st 2))).
Proof.
  start i_idiv. destruct Hp as [Hd Hq]. sx a_idiv. sx a_idiv. sx a_idiv. rewrite !(trunc_word (R 2) W2).
  sl a_idiv (x_idiv _ _ _ _ _ W64 1 (i64 (R 2)) (signed (2 ^ 128) (R 6 * 2 ^ 64 + R 7))).
  - left. reflexivity.
  - rg. rewrite !(trunc_word _ W2). reflexivity.
  - exact Hd.
  - rg. rewrite !trunc_word by (try assumption; apply Z.mod_pos_bound; reflexivity). reflexivity.
  - exact Hq.
  - fin a_idiv. change (dividend _) with (signed (2 ^ 128) (R 6 * 2 ^ 64 + R 7)) in *. set (n := signed _ _) in *. set (d := i64 (R 2)) in *.
    change (trunc W64 ?v) with (v mod 2 ^ 64). unfold i64. change 18446744073709551616 with (2 ^ 64). rewrite !signed_idem by reflexivity.
    assert (Rd : - 2 ^ 63 <= d < 2 ^ 63) by (apply (signed_range (2 ^ 64) (R 2)); reflexivity).
    split; apply signed_id; try reflexivity; [exact Hq|]. change (2 ^ 64 / 2) with (2 ^ 63).
    pose proof (Z.rem_bound_abs n d Hd). lia.
Qed.

Definition i_divl : list Z := Eval vm_compute in code_of 19 t_divl.
Lemma a_divl : all_at i_divl. Proof. all_at_tac. Qed.
(** The dividend below 2^31: cdq extends its sign. *)
Lemma f_divl : computes t_divl 19 0 0 (fun st => u32 (regs st 7) < 2 ^ 31 /\ u32 (regs st 6) <> 0)
  (fun st st' => regs st' 0 = u32 (regs st 7) / u32 (regs st 6) /\ regs st' 2 = u32 (regs st 7) mod u32 (regs st 6)).
Proof.
  start i_divl. destruct Hp as [Hn Hd]. sx a_divl. sx a_divl. sx a_divl. sx a_divl.
  sl a_divl (x_div _ _ _ _ _ W32 6 (u32 (R 6)) (u32 (R 7))).
  - right. reflexivity.
  - rg.
  - assert (0 <= u32 (R 6)) by (apply Z.mod_pos_bound; reflexivity). lia.
  - rg. change (trunc W32 (R 7)) with (u32 (R 7)). assert (B := Z.mod_pos_bound (R 7) 4294967296 eq_refl). change (R 7 mod 4294967296) with (u32 (R 7)) in B.
    assert (E : trunc W32 (u32 (R 7)) = u32 (R 7)) by (apply Z.mod_small; exact B). rewrite !E.
    replace (msb W32 (u32 (R 7))) with false; [reflexivity|]. symmetry. unfold msb. rewrite Z.testbit_false by discriminate.
    change (2 ^ (bits W32 - 1)) with (2 ^ 31). rewrite (Z.div_small _ _ (conj (proj1 B) Hn)). reflexivity.
  - apply Z.div_lt_upper_bound; assert (B6 := Z.mod_pos_bound (R 6) 4294967296 eq_refl); change (R 6 mod 4294967296) with (u32 (R 6)) in B6; change (2 ^ bits W32) with 4294967296; [lia|].
    change (2 ^ 31) with 2147483648 in Hn. nia.
  - fin a_divl. split; reflexivity.
Qed.

Lemma cdq_wide v : signed (2 ^ 64) (trunc W32 (if msb W32 v then 2 ^ bits W32 - 1 else 0) * 2 ^ 32 + trunc W32 v) = i32 v.
Proof.
  replace (msb W32 v) with (negb (v mod 4294967296 <? 2147483648)).
  - unfold i32, signed. cbv zeta. change (4294967296 / 2) with 2147483648. change (trunc W32 v) with (v mod 4294967296).
    assert (B := Z.mod_pos_bound v 4294967296 eq_refl). change (2 ^ 64) with 18446744073709551616. change (2 ^ 32) with 4294967296.
    destruct (v mod 4294967296 <? 2147483648) eqn:E; cbn [negb].
    + change (trunc W32 0) with 0. rewrite Z.mul_0_l, Z.add_0_l, (Z.mod_small (v mod 4294967296)) by lia. change (18446744073709551616 / 2) with 9223372036854775808. match goal with |- (if ?c then _ else _) = _ => destruct c eqn:E2 end; lia.
    + change (trunc W32 (2 ^ bits W32 - 1)) with 4294967295. rewrite (Z.mod_small (4294967295 * 4294967296 + _)) by lia.
      change (18446744073709551616 / 2) with 9223372036854775808. match goal with |- (if ?c then _ else _) = _ => destruct c eqn:E2 end; lia.
  - unfold msb. rewrite <- (Z.mod_pow2_bits_low v 32) by reflexivity. change (bits W32 - 1) with 31. change (2 ^ 32) with 4294967296.
    assert (B := Z.mod_pos_bound v 4294967296 eq_refl). set (u := v mod 4294967296) in *. destruct (u <? 2147483648) eqn:E; symmetry.
    + apply Z.testbit_false; [discriminate|]. change (2 ^ 31) with 2147483648. rewrite Z.div_small by lia. reflexivity.
    + apply Z.testbit_true; [discriminate|]. change (2 ^ 31) with 2147483648. replace (u / 2147483648) with 1; [reflexivity|].
      apply (Z.div_unique_pos _ _ 1 (u - 2147483648)); lia.
Qed.
Lemma quot32 n d : - 2 ^ 31 <= n < 2 ^ 31 -> - 2 ^ 31 <= d < 2 ^ 31 -> d <> 0 -> ~ (n = - 2 ^ 31 /\ d = - 1) -> - 2 ^ 31 <= Z.quot n d < 2 ^ 31.
Proof.
  intros Hn Hd H0 Hx. change (2 ^ 31) with 2147483648 in *. pose proof (Z.quot_rem n d H0). pose proof (Z.rem_bound_abs n d H0).
  pose proof (Z.rem_sign_mul n d H0). nia.
Qed.

Definition i_idivl : list Z := Eval vm_compute in code_of 11 t_idivl.
Lemma a_idivl : all_at i_idivl. Proof. all_at_tac. Qed.
Lemma i32_range v : - 2 ^ 31 <= i32 v < 2 ^ 31. Proof. apply (signed_range 4294967296 v); reflexivity. Qed.
Lemma i32_trunc v : i32 (trunc W32 v) = i32 v. Proof. apply signed_idem. reflexivity. Qed.
Lemma i32_id v : - 2 ^ 31 <= v < 2 ^ 31 -> i32 v = v. Proof. intro H. apply signed_id; try reflexivity. exact H. Qed.
Lemma rem32 n d : - 2 ^ 31 <= d < 2 ^ 31 -> d <> 0 -> - 2 ^ 31 <= Z.rem n d < 2 ^ 31.
Proof. intros Hd H0. pose proof (Z.rem_bound_abs n d H0). lia. Qed.
Lemma f_idivl : computes t_idivl 11 0 0 div32_ok (fun st st' => i32 (regs st' 0) = Z.quot (i32 (regs st 7)) (i32 (regs st 6)) /\ i32 (regs st' 2) = Z.rem (i32 (regs st 7)) (i32 (regs st 6))).
Proof.
  start i_idivl. destruct Hp as [Hd Hx]. cbn [regs] in Hd, Hx. sx a_idivl. sx a_idivl. sx a_idivl. sx a_idivl.
  assert (Q := quot32 _ _ (i32_range (R 7)) (i32_range (R 6)) Hd Hx).
  sl a_idivl (x_idiv _ _ _ _ _ W32 6 (i32 (R 6)) (i32 (R 7))).
  - right. reflexivity.
  - rg. apply (i32_trunc (R 6)).
  - exact Hd.
  - rg. rewrite !(trunc_word (R 7) W7). rewrite <- (cdq_wide (R 7)) at 1. f_equal. f_equal. f_equal. unfold trunc. apply Z.mod_mod. discriminate.
  - exact Q.
  - fin a_idivl. rewrite !i32_trunc. split; apply i32_id; [exact Q|apply rem32; [apply i32_range|exact Hd]].
Qed.
Definition i_idivl_rem : list Z := Eval vm_compute in code_of 13 t_idivl_rem.
Lemma a_idivl_rem : all_at i_idivl_rem. Proof. all_at_tac. Qed.
Lemma f_idivl_rem : computes t_idivl_rem 13 0 0 div32_ok (fun st st' => i32 (regs st' 0) = Z.rem (i32 (regs st 7)) (i32 (regs st 6))).
Proof.
  start i_idivl_rem. destruct Hp as [Hd Hx]. cbn [regs] in Hd, Hx. sx a_idivl_rem. sx a_idivl_rem. sx a_idivl_rem. sx a_idivl_rem.
  assert (Q := quot32 _ _ (i32_range (R 7)) (i32_range (R 6)) Hd Hx).
  sl a_idivl_rem (x_idiv _ _ _ _ _ W32 6 (i32 (R 6)) (i32 (R 7))).
  - right. reflexivity.
  - rg. apply (i32_trunc (R 6)).
  - exact Hd.
  - rg. rewrite !(trunc_word (R 7) W7). rewrite <- (cdq_wide (R 7)) at 1. f_equal. f_equal. f_equal. unfold trunc. apply Z.mod_mod. discriminate.
  - exact Q.
  - sx a_idivl_rem. fin a_idivl_rem. rewrite !i32_trunc. apply i32_id, rem32; [apply i32_range|exact Hd].
Qed.

(** ** Counting bits *)
Lemma leading_log : forall n v, 0 < v < 2 ^ Z.of_nat n -> leading n v = Z.of_nat n - 1 - Z.log2 v.
Proof.
  induction n as [|n IH]; intros v Hv; [cbn in Hv; lia|]. cbn [leading]. rewrite Nat2Z.inj_succ in *.
  destruct (Z_lt_le_dec v (2 ^ Z.of_nat n)) as [L|L].
  - replace (Z.testbit v (Z.of_nat n)) with false; [rewrite IH by lia; lia|]. symmetry. apply Z.bits_above_log2; [lia|]. apply Z.log2_lt_pow2; lia.
  - assert (E : Z.log2 v = Z.of_nat n) by (apply Z.log2_unique; lia). rewrite <- E at 1. rewrite Z.bit_log2 by lia. lia.
Qed.
Lemma leading_zero : forall n, leading n 0 = Z.of_nat n.
Proof. induction n as [|n IH]; [reflexivity|]. cbn [leading]. rewrite Z.testbit_0_l, IH. lia. Qed.
Lemma trailing_zero : forall n, trailing n 0 = Z.of_nat n.
Proof. induction n as [|n IH]; [reflexivity|]. cbn [trailing]. rewrite Z.odd_0. change (0 / 2) with 0. rewrite IH. lia. Qed.
Lemma trailing_spec : forall n v, 0 < v < 2 ^ Z.of_nat n -> exists q, 0 <= trailing n v < Z.of_nat n /\ v = (2 * q + 1) * 2 ^ trailing n v.
Proof.
  induction n as [|n IH]; intros v Hv; [cbn in Hv; lia|]. cbn [trailing]. rewrite Nat2Z.inj_succ, Z.pow_succ_r in * by lia. pose proof (Z_div_mod_eq_full v 2) as D.
  destruct (Z.odd v) eqn:O; [exists (v / 2)|].
  - rewrite (Zmod_odd v), O in D. split; [lia|]. change (2 ^ 0) with 1. lia.
  - rewrite (Zmod_odd v), O in D. destruct (IH (v / 2) ltac:(lia)) as (q & Hb & E). exists q. split; [lia|].
    rewrite Z.add_1_l, Z.pow_succ_r by lia. lia.
Qed.
