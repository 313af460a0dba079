(** C67, part 1: the encoder's bytes are ModRM, SIB, displacement and REX as gas chooses them. *)
From Verif Require Import Base ModelMem ModelEnc ModelSyntax ModelMacro SpecX86 SpecAsm SpecTaken SpecGas SpecState Trace Emit EncDec
  Fidelity FidelityInst.
Ltac Zify.zify_post_hook ::= Z.div_mod_to_equations.
Local Open Scope list_scope. Local Open Scope Z_scope.

Definition mm_good (mm : modrm_mode) : Prop :=
  match mm with ModReg n => 0 <= n <= 15 | ModDigit d => 0 <= d <= 7 end.
Definition mm_no (mm : modrm_mode) : Z := match mm with ModReg n => n | ModDigit d => d end.
Definition low4 (n : Z) : bool := (4 <=? n) && (n <=? 7).
Definition low_rm (r : rm) : bool := mode_is_reg (rm_mode r) && low4 (rm_base r).
Definition low_mm (mm : modrm_mode) : bool := match mm with ModReg n => low4 n | _ => false end.
Definition force (rk : rexkind) (mm : modrm_mode) (r : rm) : bool :=
  match rk with RexByte => low_mm mm || low_rm r | _ => false end.

Lemma rex_flat rk rg b i m : 0 <= rg <= 15 -> 0 <= b <= 15 -> 0 <= i <= 15 ->
  t_rex_fn rk rg b i m = (map IB (rex_of (is_w rk) (match rk with RexByte => low4 rg || (mode_is_reg m && low4 b) | _ => false end) rg i b), None).
Proof.
  intros Hr Hb Hi.
  assert (E : forall fixed, fixed = 64 \/ fixed = 72 -> rex_bits fixed rg b i = fixed + 4 * (rg / 8) + 2 * (i / 8) + b / 8).
  { intros fixed Hf. rewrite (rex_byte fixed) by (assumption || lia). lia. }
  unfold rex_of. destruct rk; cbn [t_rex_fn is_w Z.b2z].
  - unfold t_rexw. rewrite E by auto. replace (0 <? _) with true by lia. cbn [orb map]. unfold titem. do 3 f_equal. lia.
  - unfold t_rex_none, t_rex. rewrite E by auto. rewrite orb_false_r.
    destruct ((7 <? rg) || (7 <? b) || (7 <? i)) eqn:C.
    + replace (0 <? _) with true by lia. cbn [map]. unfold titem. do 3 f_equal. lia.
    + replace (0 <? _) with false by lia. reflexivity.
  - unfold t_rex_none_byte, t_rex. rewrite E by auto. unfold low4.
    destruct ((7 <? rg) || (7 <? b) || (7 <? i)) eqn:C.
    + replace (0 <? _) with true by lia. cbn [orb map]. unfold titem. do 3 f_equal. lia.
    + replace (0 <? _) with false by lia. cbn [orb].
      replace ((3 <? rg) || (3 <? b) && mode_is_reg m) with ((4 <=? rg) && (rg <=? 7) || mode_is_reg m && ((4 <=? b) && (b <=? 7)))
        by (destruct (mode_is_reg m); lia).
      match goal with |- _ = (map IB (if ?c then _ else _), None) => destruct c end; [|reflexivity].
      cbn [map]. replace (64 + _) with 64 by lia. reflexivity.
Qed.

Lemma le_mod n : forall v k, Z.of_nat n <= k -> le n (v mod 256 ^ k) = le n v.
Proof.
  induction n as [|n IH]; intros v k Hk; [reflexivity|]. cbn [le]. 
  replace k with (Z.succ (k - 1)) by lia. rewrite Z.pow_succ_r by lia.
  assert (Hp : 0 < 256 ^ (k - 1)) by (apply Z.pow_pos_nonneg; lia).
  f_equal.
  - unfold u8. symmetry. apply Znumtheory.Zmod_div_mod; [lia|lia|]. exists (256 ^ (k - 1)). ring.
  - rewrite Z.rem_mul_r by lia. rewrite (Z.mul_comm 256), Z.div_add by lia.
    rewrite (Z.div_small (v mod 256)) by (apply Z.mod_pos_bound; lia). apply IH. lia.
Qed.
Lemma le4_u32 v : le 4 (u32 v) = le 4 v. Proof. exact (le_mod 4 v 4 ltac:(lia)). Qed.
Lemma le8_u64 v : le 8 (u64 v) = le 8 v. Proof. exact (le_mod 8 v 8 ltac:(lia)). Qed.
Lemma le2_u16 v : le 2 (u16 v) = le 2 v. Proof. exact (le_mod 2 v 2 ltac:(lia)). Qed.
Lemma le1_u8 v : [u8 (u8 v)] = le 1 v. Proof. cbn [le]. rewrite u8_u8. reflexivity. Qed.

Lemma mode_from sc d : mode_encode (MInd sc (from_disp d)) = if d =? 0 then 0 else if in_i8 d then 1 else 2.
Proof. unfold from_disp. destruct (d =? 0), sc; try destruct (in_i8 d); reflexivity. Qed.
Lemma none_from d : (match from_disp d with DispNone => true | _ => false end) = (d =? 0).
Proof. unfold from_disp. destruct (d =? 0); [reflexivity|]. destruct (in_i8 d); reflexivity. Qed.

Lemma log2_pow k : 0 <= k <= 3 -> Z.log2 (2 ^ k) = k. Proof. intro. apply Z.log2_pow2. lia. Qed.

(** The distances to labels, whatever they are. *)
Section Fill.
Variable fil : label -> Z.

(** An encoder operand is the canonical one for a machine operand. *)
Inductive rm_is : rm -> operand -> Prop :=
| ris_reg n w : 0 <= n <= 15 -> rm_is (mkRm n MReg) (OReg w n)
| ris_xmm n : 0 <= n <= 15 -> rm_is (mkRm n MReg) (OXmm n)
| ris_rip d : in_i32 d = true -> rm_is (mkRm 16 (MInd ScaleNone (from_disp d))) (OMem (mkMem (Some BRip) None d))
| ris_lab l : rm_is (mkRm 16 (MInd ScaleNone (DLabel l))) (OMem (mkMem (Some BRip) None (fil l)))
| ris_ind b d : 0 <= b <= 15 -> in_i32 d = true ->
    rm_is (mkRm b (MInd ScaleNone (from_disp d))) (OMem (mkMem (Some (BReg b)) None d))
| ris_idx b k i d : 0 <= b <= 15 -> 0 <= k <= 3 -> 0 <= i <= 15 -> in_i32 d = true ->
    rm_is (mkRm b (MInd (S1 k i) (from_disp d))) (OMem (mkMem (Some (BReg b)) (Some (i, 2 ^ k)) d)).

(** The bytes of a displacement. *)
Definition disp_b (d : disp) (i : imm) : list Z := flat fil (fst (t_disp d i)).
Lemma disp_b_from d i : disp_b (from_disp d) i = if d =? 0 then [] else if in_i8 d then le 1 d else le 4 d.
Proof.
  unfold from_disp. destruct (d =? 0); [reflexivity|]. destruct (in_i8 d); unfold disp_b; cbn [t_disp fst titem flat flat_map item_bytes app].
  - apply le1_u8.
  - rewrite app_nil_r, ?le4_u32. reflexivity.
Qed.

Lemma enc_flat op rk mm r m i : Forall is_byte op -> mm_good mm -> rm_is r m ->
  exists its, t_encode op rk mm r i = (its, None) /\
    flat fil its = rex_of (is_w rk) (force rk mm r) (mm_no mm) (index_of m) (base_of m) ++ op ++ modrm_of (mm_no mm) m ++ flat fil (imm_items i).
Proof.
  intros Hop Hmm Hr.
  set (rg := match mm with ModDigit _ => 0 | ModReg r => r end).
  assert (Hrg : 0 <= rg <= 15) by (destruct mm; cbn in *; lia).
  assert (Hno : rg / 8 = mm_no mm / 8) by (destruct mm; cbn in *; lia).
  assert (Hlow : low4 rg = low_mm mm) by (destruct mm; reflexivity).
  assert (Hfield : mm_reg mm mod 8 = mm_no mm mod 8) by (destruct mm; cbn in *; lia).
  assert (Hmn : 0 <= mm_no mm mod 8 <= 7) by lia.
  (* common assembly *)
  assert (Hgo : forall b idx md tl d,
    0 <= b <= 15 -> 0 <= idx <= 15 ->
    t_encode op rk mm r i =
      tseq (t_rex_fn rk rg b idx md) (tseq (tbytes op) (map IB tl ++ fst (t_disp d i) ++ imm_items i, None)) ->
    Forall is_byte tl -> mode_is_reg md && low4 b = low_rm r -> idx / 8 = index_of m / 8 -> b / 8 = base_of m / 8 ->
    tl ++ disp_b d i = modrm_of (mm_no mm) m ->
    exists its, t_encode op rk mm r i = (its, None) /\
    flat fil its = rex_of (is_w rk) (force rk mm r) (mm_no mm) (index_of m) (base_of m) ++ op ++ modrm_of (mm_no mm) m ++ flat fil (imm_items i)).
  { intros b idx md tl d Hb Hi Ht Htl Hl Hix Hba Hm. rewrite Ht, rex_flat by assumption.
    eexists. split; [reflexivity|]. unfold tseq, tbytes. cbn [fst snd].
    rewrite !flat_app, !flat_bytes, (map_u8_id op), (map_u8_id tl) by assumption.
    rewrite <- Hm. unfold disp_b. rewrite <- !app_assoc. f_equal.
    rewrite map_u8_id.
    - unfold rex_of, force. rewrite Hno, Hix, Hba, Hl, Hlow. reflexivity.
    - unfold rex_of. destruct (_ || _); repeat constructor; unfold is_byte; destruct (is_w rk); cbn [Z.b2z]; lia. }
  assert (Hrip : is_rip rg = false) by (unfold is_rip, rip; lia).
  unfold t_encode in Hgo |- *. fold rg in Hgo |- *. rewrite Hrip in *. cbn [negb tassert] in *.
  rewrite tseq_ret_l in *. unfold t_disp_imm in *.
  destruct Hr as [n w Hn|n Hn|d Hd|l|b d Hb Hd|b k ix d Hb Hk Hix Hd]; cbn [rm_base rm_mode] in *.
  1,2: (assert (E : is_rip n = false) by (unfold is_rip, rip; lia); rewrite E in *;
        cbn [mode_is_reg negb andb is_indirect_no_disp mode_disp] in *;
        apply (Hgo n 0 MReg [64 * 3 + 8 * (mm_reg mm mod 8) + n mod 8] DispNone); auto; try lia;
        [rewrite t_modrm_eq, t_imm_none; reflexivity
        |repeat constructor; unfold is_byte; lia
        |unfold disp_b; cbn [t_disp fst tret flat flat_map app modrm_of]; rewrite Hfield; f_equal; lia]).
  - (* rip + d *)
    change (is_rip 16) with true in *. cbv iota in *.
    set (d' := match from_disp d with D8 x => D32 x | DispNone => D32 0 | z => z end).
    assert (Hd' : match rip_ind_from {| rm_base := 16; rm_mode := MInd ScaleNone (from_disp d) |} with
                  | Some r' => r' = mkRm rbp (MInd ScaleNone d') | None => False end)
      by (unfold d'; destruct (from_disp d); reflexivity).
    destruct (rip_ind_from _) as [r'|]; [|contradiction]. subst r'. cbn [rm_base rm_mode mode_disp] in *.
    assert (Ed' : disp_b d' i = le 4 d).
    { unfold d', from_disp. destruct (d =? 0) eqn:E0; [replace d with 0 by lia; reflexivity|].
      destruct (in_i8 d); unfold disp_b; cbn [t_disp titem fst flat flat_map item_bytes]; rewrite app_nil_r; apply le4_u32. }
    apply (Hgo rbp 0 (MInd ScaleNone d') [8 * (mm_reg mm mod 8) + 5] d'); auto; unfold rbp; try lia.
    + rewrite t_modrm_eq, t_imm_none, (t_disp_none d'). cbn [mode_encode].
      replace (64 * 0 + 8 * (mm_reg mm mod 8) + 5 mod 8) with (8 * (mm_reg mm mod 8) + 5) by lia. reflexivity.
    + repeat constructor; unfold is_byte; lia.
    + rewrite Ed', Hfield. reflexivity.
  - change (is_rip 16) with true in *. cbv iota in *.
    change (rip_ind_from {| rm_base := 16; rm_mode := MInd ScaleNone (DLabel l) |}) with (Some (mkRm rbp (MInd ScaleNone (DLabel l)))) in *.
    cbv iota in *. cbn [rm_base rm_mode mode_disp] in *.
    apply (Hgo rbp 0 (MInd ScaleNone (DLabel l)) [8 * (mm_reg mm mod 8) + 5] (DLabel l)); auto; unfold rbp; try lia.
    + rewrite t_modrm_eq, t_imm_none, (t_disp_none (DLabel l)). cbn [mode_encode].
      replace (64 * 0 + 8 * (mm_reg mm mod 8) + 5 mod 8) with (8 * (mm_reg mm mod 8) + 5) by lia. reflexivity.
    + repeat constructor; unfold is_byte; lia.
    + rewrite Hfield. reflexivity.
  - assert (Erip : is_rip b = false) by (unfold is_rip, rip; lia). rewrite Erip in *.
    cbn [mode_is_reg negb andb] in *. rewrite land7 in *.
    assert (Hm : modrm_of (mm_no mm) (OMem (mkMem (Some (BReg b)) None d)) =
      let '(md, ds) := disp_of b d in if b mod 8 =? 4 then [64 * md + 8 * (mm_no mm mod 8) + 4; 0x24] ++ ds else [64 * md + 8 * (mm_no mm mod 8) + b mod 8] ++ ds) by reflexivity.
    unfold disp_of in Hm.
    destruct (b mod 8 =? 4) eqn:E4.
    + apply (Hgo b 4 (MInd ScaleNone (from_disp d)) [64 * mode_encode (MInd ScaleNone (from_disp d)) + 8 * (mm_reg mm mod 8) + 4; 64 * 0 + 8 * 4 + 4] (from_disp d)); auto; try lia.
      * rewrite t_modrm_eq, t_sib_eq, t_imm_none, (t_disp_none (from_disp d)) by lia.
        change (4 mod 8) with 4. replace (b mod 8) with 4 by lia. reflexivity.
      * rewrite mode_from. repeat constructor; unfold is_byte; destruct (d =? 0), (in_i8 d); lia.
      * rewrite mode_from, disp_b_from, Hm, Hfield. replace (b mod 8 =? 5) with false by lia. rewrite andb_true_r.
        destruct (d =? 0); [reflexivity|]. destruct (in_i8 d); reflexivity.
    + cbn [is_indirect_no_disp andb mode_scale scale_index mode_disp] in *. rewrite none_from in *.
      destruct ((d =? 0) && (b mod 8 =? 5)) eqn:E5.
      * apply (Hgo b 0 (MInd ScaleNone (from_disp d)) [64 * 1 + 8 * (mm_reg mm mod 8) + b mod 8] (D8 0)); auto; try lia.
        -- rewrite t_modrm_eq, t_imm_none. reflexivity.
        -- repeat constructor; unfold is_byte; lia.
        -- rewrite Hm, Hfield. assert (d = 0) by lia. subst d. replace (b mod 8 =? 5) with true by lia. reflexivity.
      * apply (Hgo b 0 (MInd ScaleNone (from_disp d)) [64 * mode_encode (MInd ScaleNone (from_disp d)) + 8 * (mm_reg mm mod 8) + b mod 8] (from_disp d)); auto; try lia.
        -- rewrite t_modrm_eq, t_imm_none, (t_disp_none (from_disp d)). reflexivity.
        -- rewrite mode_from. repeat constructor; unfold is_byte; destruct (d =? 0), (in_i8 d); lia.
        -- rewrite mode_from, disp_b_from, Hm, Hfield.
           destruct (d =? 0) eqn:E0; cbn [andb] in *; [rewrite E5; reflexivity|]. destruct (in_i8 d); reflexivity.
  - assert (Erip : is_rip b = false) by (unfold is_rip, rip; lia). rewrite Erip in *.
    cbn [mode_is_reg negb andb] in *. rewrite land7 in *.
    assert (Hm : modrm_of (mm_no mm) (OMem (mkMem (Some (BReg b)) (Some (ix, 2 ^ k)) d)) =
      let '(md, ds) := disp_of b d in [64 * md + 8 * (mm_no mm mod 8) + 4; 64 * k + 8 * (ix mod 8) + b mod 8] ++ ds).
    { cbn [modrm_of]. rewrite log2_pow by lia. reflexivity. }
    unfold disp_of in Hm.
    destruct (b mod 8 =? 4) eqn:E4.
    + apply (Hgo b ix (MInd (S1 k ix) (from_disp d)) [64 * mode_encode (MInd (S1 k ix) (from_disp d)) + 8 * (mm_reg mm mod 8) + 4; 64 * k + 8 * (ix mod 8) + b mod 8] (from_disp d)); auto; try lia.
      * rewrite t_modrm_eq, t_sib_eq, t_imm_none, (t_disp_none (from_disp d)) by lia. change (4 mod 8) with 4. reflexivity.
      * rewrite mode_from. repeat constructor; unfold is_byte; destruct (d =? 0), (in_i8 d); lia.
      * rewrite mode_from, disp_b_from, Hm, Hfield. replace (b mod 8 =? 5) with false by lia. rewrite andb_true_r.
        destruct (d =? 0); [reflexivity|]. destruct (in_i8 d); reflexivity.
    + cbn [is_indirect_no_disp andb mode_scale scale_index mode_disp] in *. rewrite none_from in *.
      destruct ((d =? 0) && (b mod 8 =? 5)) eqn:E5.
      * apply (Hgo b ix (MInd (S1 k ix) (from_disp d)) [64 * 1 + 8 * (mm_reg mm mod 8) + 4; 64 * k + 8 * (ix mod 8) + b mod 8] (D8 0)); auto; try lia.
        -- rewrite t_modrm_eq, t_sib_eq, t_imm_none by lia. change (4 mod 8) with 4. reflexivity.
        -- repeat constructor; unfold is_byte; lia.
        -- rewrite Hm, Hfield. assert (d = 0) by lia. subst d. replace (b mod 8 =? 5) with true by lia. reflexivity.
      * apply (Hgo b ix (MInd (S1 k ix) (from_disp d)) [64 * mode_encode (MInd (S1 k ix) (from_disp d)) + 8 * (mm_reg mm mod 8) + 4; 64 * k + 8 * (ix mod 8) + b mod 8] (from_disp d)); auto; try lia.
        -- rewrite t_modrm_eq, t_sib_eq, t_imm_none, (t_disp_none (from_disp d)) by lia. change (4 mod 8) with 4. reflexivity.
        -- rewrite mode_from. repeat constructor; unfold is_byte; destruct (d =? 0), (in_i8 d); lia.
        -- rewrite mode_from, disp_b_from, Hm, Hfield.
           destruct (d =? 0) eqn:E0; cbn [andb] in *; [rewrite E5; reflexivity|]. destruct (in_i8 d); reflexivity.
Qed.
End Fill.
