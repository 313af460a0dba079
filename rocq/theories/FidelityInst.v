(** Fidelity of every instruction of the macro language. *)
From Verif Require Import Base ModelMem ModelEnc ModelSyntax ModelMacro SpecX86 SpecAsm SpecTaken Trace Emit EncDec Fidelity.
Ltac Zify.zify_post_hook ::= Z.div_mod_to_equations.

(** ** Operands as written *)
Section Written.
Variable ev : list tok -> env -> Z.
Variable r0 : env.
Variable rel : string -> Z.
Notation val := (eval ev r0).
Notation tr := (taken_reg val).
Notation tm := (taken_rm val).
Notation tx := (taken_xmm val).
Notation txm := (taken_xm val).
Ltac dall := repeat match goal with
  | H : Forall _ (_ ++ _) |- _ => apply Forall_app in H; destruct H
  | H : Forall _ (_ :: _) |- _ => apply Forall_cons_iff in H; destruct H
  | H : Forall _ [] |- _ => clear H
  end.
(** Register and xmm numbers 0..15 and encodable memory operands are taken as they are. *)
Definition written_ok (i : inst) : Prop :=
  Forall (fun r => is_gpr (reg_no val r) = true) (regs_of i) /\
  Forall (fun e => is_gpr (val e) = true) (xmms_of i) /\
  Forall (fun a => d_mem val rel a <> None) (mems_of i).

Lemma reg_taken_id n : is_gpr n = true -> reg_taken n = n.
Proof. unfold is_gpr, reg_taken. intro. destruct (n mod 256 =? 16) eqn:E; lia. Qed.
Lemma plain_reg x : is_gpr (reg_no val x) = true -> Fidelity.reg_good ev r0 x /\ forall w, d_reg val w (tr x) = d_reg val w x.
Proof.
  intro H. unfold Fidelity.reg_good, d_reg, taken_reg. cbn [reg_no]. rewrite reg_taken_id by exact H. auto.
Qed.
Lemma plain_xmm e : is_gpr (val e) = true -> Fidelity.xmm_good ev r0 e /\ d_xmm val (tx e) = d_xmm val e.
Proof.
  intro H. unfold Fidelity.xmm_good, d_xmm, taken_xmm. cbn [eval]. rewrite reg_taken_id by exact H. auto.
Qed.
Lemma plain_mem a : d_mem val rel a <> None -> scale_ok a /\ d_mem val rel (taken_mem val a) = d_mem val rel a.
Proof.
  intro H.
  unfold d_mem in *.
  assert (Ed : d_disp val rel (taken_disp val (ia_disp a)) = d_disp val rel (ia_disp a)).
  { destruct (d_disp val rel (ia_disp a)) as [d|] eqn:Ed; [|cbn [obind] in H; congruence].
    destruct (ia_disp a) as [d'|neg e|l]; cbn [taken_disp d_disp] in *; rewrite ?wrap32_i32; [| |congruence];
      unfold guard in Ed; match type of Ed with context [if in_i32 ?x then _ else _] => destruct (in_i32 x) eqn:Ei end;
      try discriminate Ed; rewrite i32_id by exact Ei; rewrite Ei; exact Ed. }
  unfold taken_mem at 1. cbn [ia_disp]. rewrite Ed. destruct (d_disp val rel (ia_disp a)) as [d|]; [|cbn [obind] in H; congruence].
  cbn [obind] in *. unfold scale_ok, taken_mem. cbn [ia_base ia_scale reg_no].
  assert (E16 : forall n, n = 16 -> reg_taken n = 16) by (intros n ->; reflexivity).
  destruct (ia_scale a) as [|k x]; cbn [taken_scale] in *.
  - split; [exact I|]. destruct (reg_no val (ia_base a) =? 16) eqn:E; [rewrite E16 by lia; reflexivity|].
    destruct (is_gpr (reg_no val (ia_base a))) eqn:G; [|cbn [guard obind] in H; congruence].
    rewrite reg_taken_id by exact G. rewrite E, G. reflexivity.
  - destruct (is_gpr (reg_no val (ia_base a))) eqn:G; [|cbn [andb guard obind] in H; congruence].
    rewrite reg_taken_id by exact G. cbn [andb] in *.
    destruct (is_gpr (reg_no val x)) eqn:Gx; [|cbn [andb guard obind] in H; congruence]. cbn [andb] in *.
    assert (Ex : reg_no val x mod 256 = reg_no val x) by (unfold is_gpr in Gx; lia). rewrite Ex.
    destruct (reg_no val x =? 4) eqn:E4; [cbn [negb andb guard obind] in H; congruence|]. cbn [negb andb] in *.
    unfold taken_index. cbn [reg_no]. rewrite Ex, G, Gx, E4. cbn [negb andb].
    destruct ((0 <=? k) && (k <=? 3)) eqn:Ek; [|cbn [guard obind] in H; congruence]. split; [lia|reflexivity].
Qed.
Lemma plain_rm o : Forall (fun r => is_gpr (reg_no val r) = true) (rm_regs o) -> Forall (fun a => d_mem val rel a <> None) (rm_mems o) ->
  forall w, d_rm val rel w (tm o) = d_rm val rel w o.
Proof. destruct o; cbn [rm_regs rm_mems]; intros; dall; cbn [taken_rm d_rm]; [apply plain_reg|apply plain_mem]; assumption. Qed.
Lemma plain_rmi o : Forall (fun r => is_gpr (reg_no val r) = true) (rmi_regs o) -> Forall (fun a => d_mem val rel a <> None) (rmi_mems o) ->
  forall w, d_rmi val rel w (taken_rmi val o) = d_rmi val rel w o.
Proof. destruct o; cbn [rmi_regs rmi_mems]; intros; dall; cbn [taken_rmi d_rmi]; [reflexivity|apply plain_reg|apply plain_mem]; assumption. Qed.
Lemma plain_ri o : Forall (fun r => is_gpr (reg_no val r) = true) (ri_regs o) ->
  forall w, d_ri val w (taken_ri val o) = d_ri val w o.
Proof. destruct o; cbn [ri_regs]; intros; dall; cbn [taken_ri d_ri]; [reflexivity|apply plain_reg]; assumption. Qed.
Lemma plain_xm o : Forall (fun e => is_gpr (val e) = true) (xm_xmms o) -> Forall (fun a => d_mem val rel a <> None) (xm_mems o) ->
  d_xm val rel (txm o) = d_xm val rel o.
Proof. destruct o; cbn [xm_xmms xm_mems]; intros; dall; cbn [taken_xm d_xm]; [apply plain_xmm|apply plain_mem]; assumption. Qed.
Lemma plain_is_mem_rm o : is_mem_rm (tm o) = is_mem_rm o. Proof. destruct o; reflexivity. Qed.
Lemma plain_is_mem_rmi o : is_mem_rmi (taken_rmi val o) = is_mem_rmi o. Proof. destruct o; reflexivity. Qed.
Lemma plain_is_mem_xm o : is_mem_xm (txm o) = is_mem_xm o. Proof. destruct o; reflexivity. Qed.
Lemma plain_shift o w a b : Forall (fun r => is_gpr (reg_no val r) = true) (rm_regs a) -> Forall (fun r => is_gpr (reg_no val r) = true) (ri_regs b) ->
  Forall (fun a => d_mem val rel a <> None) (rm_mems a) ->
  d_shift val rel o w (tm a) (taken_count val b) = d_shift val rel o w a b.
Proof.
  intros. destruct b as [e|x]; cbn [taken_count d_shift ri_regs] in *; dall; rewrite plain_rm by assumption; [reflexivity|].
  unfold taken_index. cbn [reg_no]. replace (reg_no val x mod 256) with (reg_no val x); [reflexivity|].
  unfold is_gpr in *. lia.
Qed.

Lemma plain_reg_eq x w : is_gpr (reg_no val x) = true -> d_reg val w (tr x) = d_reg val w x.
Proof. intro. apply plain_reg. assumption. Qed.
Lemma plain_xmm_eq e : is_gpr (val e) = true -> d_xmm val (tx e) = d_xmm val e.
Proof. intro. apply plain_xmm. assumption. Qed.
Lemma plain_mem_eq a : d_mem val rel a <> None -> d_mem val rel (taken_mem val a) = d_mem val rel a.
Proof. intro. apply plain_mem. assumption. Qed.
Lemma denote_taken i : written_ok i -> denote val rel (taken val i) = denote val rel i.
Proof.
  intros (O1 & O2 & O3). unfold regs_of, xmms_of, mems_of in O1, O2, O3.
  destruct i; cbn [operands fst snd] in O1, O2, O3; dall; cbn [taken denote]; try reflexivity;
  try (apply plain_shift; assumption);
  try (unfold d_alu, d_fp; rewrite ?plain_is_mem_rm, ?plain_is_mem_rmi, ?plain_is_mem_xm;
       rewrite ?plain_reg_eq, ?plain_xmm_eq, ?plain_rm, ?plain_rmi, ?plain_ri, ?plain_xm by assumption; reflexivity);
  repeat match goal with x : mov_operand |- _ => destruct x | x : rmi_operand |- _ => destruct x | x : rm_operand |- _ => destruct x
    | x : dest |- _ => destruct x end;
  cbn [mov_regs mov_xmms mov_mems taken_mov d_movq rmi_regs rmi_mems taken_rmi rm_regs rm_mems taken_rm fst snd taken_dest] in *; dall;
  try reflexivity; rewrite ?plain_reg_eq, ?plain_xmm_eq, ?plain_mem_eq by assumption; try reflexivity;
  cbn [d_dest]; rewrite ?plain_mem_eq by assumption; try reflexivity.
  all: change (RReg (reg_taken n)) with (tr (RReg n)); rewrite plain_reg_eq by assumption; reflexivity.
Qed.
End Written.

Section Inst.
Variable ev : list tok -> env -> Z.
Variable lenv : string -> label.
Variable f : label -> Z.
Variable r0 : env.
Notation val := (eval ev r0).
Notation rel := (fun x => i32 (f (lenv x))).
Notation agree := (agree ev r0).
Notation rm_good := (rm_good ev lenv f r0).
Notation xm_good := (xm_good ev lenv f r0).
Notation reg_good := (reg_good ev r0).
Notation xmm_good := (xmm_good ev r0).
Notation mem_good := (mem_good ev lenv f r0).
Notation tr := (taken_reg val).
Notation tm := (taken_rm val).
Notation tx := (taken_xmm val).
Notation txm := (taken_xm val).
Notation done := (done f).
Notation outcome := (outcome f).

Definition is_w (rk : rexkind) : bool := match rk with REXW => true | _ => false end.

(** ** Instruction classes *)
Section Classes.
Variables (pf : list Z) (p : pfx) (o : Z) (ops : list Z) (rk : rexkind) (r : env).
Hypothesis Hpf : pfx_rel pf p.
Hypothesis Hop : plain_op (u8 o).
Notation opbytes t := (u8 o :: map u8 ops ++ t).
Notation enc mm x i := (tseq (tbytes pf) (t_encode (o :: ops) rk mm x i)).

Ltac bridges :=
  repeat match goal with
  | Ha : agree ?r (reg_exprs ?a), Ga : reg_good ?a |- _ =>
      let E := fresh "E" in let R := fresh "R" in
      destruct (reg_bridge ev r0 r a Ha Ga) as [E R]; unfold Fidelity.reg_good in Ga; unfold d_reg; rewrite ?Ga, <- ?E; clear Ha
  | Hb : agree ?r (rm_exprs ?b), Gb : rm_good ?b |- _ =>
      let K := fresh "K" in let E := fresh "E" in
      destruct (rm_bridge ev lenv f r0 r b Hb Gb) as [K E]; rewrite ?E; clear Hb
  | Hb : agree ?r (xm_exprs ?b), Gb : xm_good ?b |- _ =>
      let K := fresh "K" in let E := fresh "E" in
      destruct (xm_bridge ev lenv f r0 r b Hb Gb) as [K E]; rewrite ?E; clear Hb
  | Ha : agree ?r [?e], Ga : xmm_good ?e |- _ =>
      let E := fresh "E" in let R := fresh "R" in
      destruct (xmm_bridge ev r0 r e Ha Ga) as [E R]; unfold Fidelity.xmm_good in Ga; unfold d_xmm; rewrite ?Ga, <- ?E; clear Ha
  end; cbn [guard obind d_two d_one].
Ltac enter :=
  eapply go_enc; [eassumption|eassumption|cbn [mm_ok]; try assumption; try lia|assumption|];
  let ri := fresh "ri" in let tail := fresh "tail" in let D := fresh "D" in
  intros ri tail D; eexists _, _; split; [reflexivity|]; split; [apply same_refl|];
  let rest := fresh "rest" in intro rest;
  match goal with Hd : forall ri t, rw ri = is_w _ -> _ |- _ => rewrite Hd by apply (dh_w _ _ _ _ _ _ D) end;
  try change (flat f (imm_items ImmNone)) with (@nil Z); cbn [app].

(** reg, rm *)
Lemma cls_rm m w ws a b :
  agree r (reg_exprs a) -> reg_good a -> agree r (rm_exprs b) -> rm_good b ->
  (w = W8 -> rk <> RexNone) -> (ws = W8 -> rk <> RexNone) ->
  (forall ri t, rw ri = is_w rk -> decode_op p ri (opbytes t) = form_rm m w ws ri t) ->
  done (enc (ModReg (run_reg ev r (greg_of a))) (run_rm ev lenv r (grm_of_rm b)) ImmNone)
    (d_two m w (d_reg val w (tr a)) (d_rm val rel ws (tm b))).
Proof. intros. bridges. enter. eapply f_rm; eauto. Qed.
(** rm, reg *)
Lemma cls_mr m w a b :
  agree r (reg_exprs a) -> reg_good a -> agree r (rm_exprs b) -> rm_good b ->
  (w = W8 -> rk <> RexNone) ->
  (forall ri t, rw ri = is_w rk -> decode_op p ri (opbytes t) = form_mr m w ri t) ->
  done (enc (ModReg (run_reg ev r (greg_of a))) (run_rm ev lenv r (grm_of_rm b)) ImmNone)
    (d_two m w (d_rm val rel w (tm b)) (d_reg val w (tr a))).
Proof. intros. bridges. enter. eapply f_mr; eauto. Qed.
(** rm *)
Lemma cls_m mm mf m w b :
  agree r (rm_exprs b) -> rm_good b -> mm_ok mm -> mf (mm_reg mm mod 8) = Some m -> (w = W8 -> rk <> RexNone) ->
  (forall ri t, rw ri = is_w rk -> digit_of ri t = mm_reg mm mod 8 -> decode_op p ri (opbytes t) = form_m mf w ri t) ->
  done (enc mm (run_rm ev lenv r (grm_of_rm b)) ImmNone) (d_one m w (d_rm val rel w (tm b))).
Proof.
  intros Hb Gb Hm Hmf Hw Hd. bridges.
  eapply go_enc; try eassumption. intros ri tail D. eexists _, _. split; [reflexivity|]. split; [apply same_refl|].
  intro rest. change (flat f (imm_items ImmNone)) with (@nil Z). cbn [app].
  rewrite Hd; [|apply (dh_w _ _ _ _ _ _ D)|eapply f_digit; eassumption].
  eapply f_m; eauto.
Qed.
(** rm, imm *)
Lemma cls_mi mm mf m w b i v ti :
  agree r (rm_exprs b) -> rm_good b -> mm_ok mm -> mf (mm_reg mm mod 8) = Some m ->
  (w = W8 -> rk <> RexNone \/ rm_mode (run_rm ev lenv r (grm_of_rm b)) <> MReg) ->
  (forall rest, ti (flat f (imm_items i) ++ rest) = Some (v, rest)) ->
  (forall ri t, rw ri = is_w rk -> digit_of ri t = mm_reg mm mod 8 -> decode_op p ri (opbytes t) = form_mi mf w ri ti t) ->
  done (enc mm (run_rm ev lenv r (grm_of_rm b)) i)
    (d_two m w (d_rm val rel w (tm b)) (Some (OImm v))).
Proof.
  intros Hb Gb Hm Hmf Hw Ht Hd. bridges.
  eapply go_enc; try eassumption. intros ri tail D. eexists _, _. split; [reflexivity|]. split; [apply same_refl|].
  intro rest.
  rewrite Hd; [|apply (dh_w _ _ _ _ _ _ D)|eapply f_digit; eassumption].
  eapply f_mi; eauto.
Qed.
(** shifts *)
Lemma cls_shift mm m w b i c cnt :
  agree r (rm_exprs b) -> rm_good b -> mm_ok mm -> shf_of (mm_reg mm mod 8) = Some m -> w <> W8 ->
  (forall rest, cnt (flat f (imm_items i) ++ rest) = Some (c, rest)) ->
  (forall ri t, rw ri = is_w rk -> decode_op p ri (opbytes t) = form_shift w ri cnt t) ->
  done (enc mm (run_rm ev lenv r (grm_of_rm b)) i)
    (d_two (Shift m) w (d_rm val rel w (tm b)) (Some c)).
Proof. intros. bridges. enter. eapply f_shift; eauto. Qed.
(** xmm, xmm/m *)
Lemma cls_xx m a b :
  agree r [a] -> xmm_good a -> agree r (xm_exprs b) -> xm_good b ->
  (forall ri t, rw ri = is_w rk -> decode_op p ri (opbytes t) = form_xx m ri t) ->
  done (enc (ModReg (run_reg ev r a)) (run_rm ev lenv r (grm_of_xm b)) ImmNone)
    (d_two m W64 (d_xmm val (tx a)) (d_xm val rel (txm b))).
Proof. intros. bridges. enter. eapply f_xx; eauto. Qed.
Lemma cls_xx_rev m a b :
  agree r [a] -> xmm_good a -> agree r (xm_exprs b) -> xm_good b ->
  (forall ri t, rw ri = is_w rk -> decode_op p ri (opbytes t) = form_xx_rev m ri t) ->
  done (enc (ModReg (run_reg ev r a)) (run_rm ev lenv r (grm_of_xm b)) ImmNone)
    (d_two m W64 (d_xm val rel (txm b)) (d_xmm val (tx a))).
Proof. intros. bridges. enter. eapply f_xx_rev; eauto. Qed.
(** xmm, r64/m64 *)
Lemma cls_xr m a b :
  agree r [a] -> xmm_good a -> agree r (rm_exprs b) -> rm_good b ->
  (forall ri t, rw ri = is_w rk -> decode_op p ri (opbytes t) = obind (parse_modrm ri t) (fun x =>
     Some (mkIns m W64 [OXmm (mr_reg (fst x)); rmo W64 ri (mr_rm (fst x))], snd x))) ->
  done (enc (ModReg (run_reg ev r a)) (run_rm ev lenv r (grm_of_rm b)) ImmNone)
    (d_two m W64 (d_xmm val (tx a)) (d_rm val rel W64 (tm b))).
Proof.
  intros. bridges. enter. rewrite (dh_parse _ _ _ _ _ _ D). cbn [obind fst snd mr_reg mr_rm mm_reg].
  rewrite rmo_plain by discriminate. reflexivity.
Qed.
Lemma cls_xr_rev m a b :
  agree r [a] -> xmm_good a -> agree r (rm_exprs b) -> rm_good b ->
  (forall ri t, rw ri = is_w rk -> decode_op p ri (opbytes t) = obind (parse_modrm ri t) (fun x =>
     Some (mkIns m W64 [rmo W64 ri (mr_rm (fst x)); OXmm (mr_reg (fst x))], snd x))) ->
  done (enc (ModReg (run_reg ev r a)) (run_rm ev lenv r (grm_of_rm b)) ImmNone)
    (d_two m W64 (d_rm val rel W64 (tm b)) (d_xmm val (tx a))).
Proof.
  intros. bridges. enter. rewrite (dh_parse _ _ _ _ _ _ D). cbn [obind fst snd mr_reg mr_rm mm_reg].
  rewrite rmo_plain by discriminate. reflexivity.
Qed.
(** r32/r64, xmm/m64 *)
Lemma cls_rx m w a b :
  agree r (reg_exprs a) -> reg_good a -> agree r (xm_exprs b) -> xm_good b ->
  (forall ri t, rw ri = is_w rk -> decode_op p ri (opbytes t) = obind (parse_modrm ri t) (fun x =>
     Some (mkIns m w [OReg w (mr_reg (fst x)); xmo (mr_rm (fst x))], snd x))) ->
  done (enc (ModReg (run_reg ev r (greg_of a))) (run_rm ev lenv r (grm_of_xm b)) ImmNone)
    (d_two m w (d_reg val w (tr a)) (d_xm val rel (txm b))).
Proof.
  intros. bridges. enter. rewrite (dh_parse _ _ _ _ _ _ D). cbn [obind fst snd mr_reg mr_rm mm_reg]. reflexivity.
Qed.
End Classes.

(** ** Opcodes carrying a register (push, pop, mov r/imm, xchg rax) *)
Lemma o_bits op n : Z.land op 7 = 0 -> op = 0x50 \/ op = 0x58 \/ op = 0x90 \/ op = 0xb0 \/ op = 0xb8 ->
  0 <= n <= 255 -> Z.lor op (Z.land n 7) = op + n mod 8.
Proof.
  intros _ Hop Hn. rewrite land7. assert (H : 0 <= n mod 8 <= 7) by lia. revert H. generalize (n mod 8). intros k Hk.
  assert (k = 0 \/ k = 1 \/ k = 2 \/ k = 3 \/ k = 4 \/ k = 5 \/ k = 6 \/ k = 7) as K by lia.
  destruct Hop as [->|[->|[->|[->| ->]]]]; destruct K as [->|[->|[->|[->|[->|[->|[->| ->]]]]]]]; reflexivity.
Qed.
Definition t_o (rk : rexkind) (op : Z) (n : reg) : trace :=
  tseq (tassert (negb (is_rip n))) (tseq (t_rex_fn rk 0 n 0 MReg) (t_op_with_rd op n)).
Lemma go_o pf p op rk n more d :
  pfx_rel pf p -> op = 0x50 \/ op = 0x58 \/ op = 0x90 \/ op = 0xb0 \/ op = 0xb8 -> reg_ok n -> rel_ok more ->
  (forall ri, rw ri = is_w rk -> rb ri = (n / 8) mod 2 -> (rk = RexByte -> byte_ok ri (n mod 16)) -> exists x y, d = Some x /\ same_ins x y /\ forall rest,
     decode_op p ri ((op + n mod 8) :: flat f more ++ rest) = Some (y, rest)) ->
  done (tseq (tbytes pf) (tseq (t_o rk op n) (more, None))) d.
Proof.
  intros Hp Ho [Hn Hn16] Hr H. unfold t_o. destruct (rex_sem rk 0 n 0 MReg) as (rexb & ri & T & Fb & [R1 R2 R3 R4 R5 R6]); try lia.
  assert (Er : is_rip n = false) by (unfold is_rip, rip; lia). rewrite Er, T. unfold t_op_with_rd. rewrite o_bits; try assumption;
    [|destruct Ho as [->|[->|[->|[->| ->]]]]; reflexivity].
  cbn [negb tassert tret]. unfold tret. cbn [tseq fst snd tbytes titem app].
  destruct (H ri) as (x & y & E & S & Dx); auto.
  { intro. apply R6; auto. }
  assert (Hb : Forall is_byte pf).
  { destruct Hp as [[-> _]|[[-> _]|[[-> _]|[-> _]]]]; repeat constructor; unfold is_byte; lia. }
  assert (Hi : u8 (op + n mod 8) = op + n mod 8) by (apply u8_id; unfold is_byte; lia).
  assert (Hpl : plain_op (op + n mod 8)) by (unfold plain_op; repeat split; lia).
  eexists. split; [reflexivity|]. split.
  2:{ apply rel_ok_bytes. rewrite <- app_assoc. apply rel_ok_bytes. cbn [app rel_ok]. auto. }
  exists x, y. split; [exact E|]. split; [exact S|]. intro rest.
  rewrite !flat_app, !flat_bytes, !map_u8_id by assumption. unfold flat at 1. cbn [flat_map item_bytes app].
  rewrite Hi. rewrite <- !app_assoc. cbn [app].
  destruct Hp as [[-> ->]|[[-> ->]|[[-> ->]|[-> ->]]]]; cbn [app].
  - rewrite (decode_plain rexb ri) by assumption. apply Dx.
  - rewrite (decode_66 rexb ri) by assumption. apply Dx.
  - rewrite (decode_f2 rexb ri) by assumption. apply Dx.
  - rewrite (decode_f3 rexb ri) by assumption. apply Dx.
Qed.

(** Fixed byte sequences *)
Lemma go_bytes bs more x d : Forall is_byte bs -> rel_ok more -> d = Some x ->
  (forall rest, decode (bs ++ flat f more ++ rest) = Some (x, rest)) -> done (tseq (tbytes bs) (more, None)) d.
Proof.
  intros Hb Hr Hd H. cbn [tseq tbytes fst snd]. eexists. split; [reflexivity|].
  split; [|apply rel_ok_bytes; exact Hr]. eapply faithful_intro; [exact Hd|].
  intro rest. rewrite flat_app, flat_bytes, map_u8_id by assumption. rewrite <- app_assoc. apply H.
Qed.

(** ** The instructions *)
Definition rmi_good (b : rmi_operand) : Prop :=
  match b with RmiImm _ => True | RmiReg r => rm_good (RmReg r) | RmiInd a => rm_good (RmInd a) end.
Definition rmi_exprs (b : rmi_operand) : list expr :=
  match b with RmiImm _ => [] | RmiReg r => reg_exprs r | RmiInd a => mem_exprs a end.
Definition ri_good (b : ri_operand) : Prop :=
  match b with RiImm _ => True | RiReg r => rm_good (RmReg r) end.
Definition ri_exprs (b : ri_operand) : list expr :=
  match b with RiImm _ => [] | RiReg r => reg_exprs r end.
(** expressions evaluate as in the caller's scope, also after [let imm = ..] *)
Definition free (es : list expr) : Prop := forall v, agree (env_set "imm" v r0) es.

Lemma the_imm_set v : the_imm (env_set "imm" v r0) = v. Proof. reflexivity. Qed.
Lemma agree0 es : agree r0 es. Proof. apply agree_self. Qed.

Lemma k8 k : 0 <= k <= 7 -> k = 0 \/ k = 1 \/ k = 2 \/ k = 3 \/ k = 4 \/ k = 5 \/ k = 6 \/ k = 7.
Proof. lia. Qed.
Ltac cases8 k H := destruct (k8 k H) as [->|[->|[->|[->|[->|[->|[->| ->]]]]]]].

Lemma dec_alu_mr k p ri t : 0 <= k <= 7 -> no_rep p = true ->
  decode_op p ri (u8 (8 * k + 1) :: t) = form_mr (Alu (alu_of k)) (opw p ri) ri t.
Proof. intros H Hp. unfold decode_op, dec1. rewrite Hp. cases8 k H; reflexivity. Qed.
Lemma dec_alu_rm k p ri t : 0 <= k <= 7 -> no_rep p = true ->
  decode_op p ri (u8 (8 * k + 1 + 2) :: t) = form_rm (Alu (alu_of k)) (opw p ri) (opw p ri) ri t.
Proof. intros H Hp. unfold decode_op, dec1. rewrite Hp. cases8 k H; reflexivity. Qed.
Lemma dec_alu_mr8 k p ri t : 0 <= k <= 7 -> no_rep p = true ->
  decode_op p ri (u8 (8 * k + 1 - 1) :: t) = form_mr (Alu (alu_of k)) W8 ri t.
Proof. intros H Hp. unfold decode_op, dec1. rewrite Hp. cases8 k H; reflexivity. Qed.
Lemma dec_alu_rm8 k p ri t : 0 <= k <= 7 -> no_rep p = true ->
  decode_op p ri (u8 (8 * k + 1 - 1 + 2) :: t) = form_rm (Alu (alu_of k)) W8 W8 ri t.
Proof. intros H Hp. unfold decode_op, dec1. rewrite Hp. cases8 k H; reflexivity. Qed.
Lemma dec_alu_al k p ri t : 0 <= k <= 7 -> no_rep p = true ->
  decode_op p ri ((8 * k + 1 - 1 + 4) :: t) = form_ai (Alu (alu_of k)) W8 t.
Proof. intros H Hp. unfold decode_op, dec1. rewrite Hp. cases8 k H; reflexivity. Qed.

Lemma plain_alu k d : 0 <= k <= 7 -> d = 1 \/ d = 1 + 2 \/ d = 1 - 1 \/ d = 1 - 1 + 2 -> plain_op (u8 (8 * k + d)).
Proof. intros H Hd. cases8 k H; destruct Hd as [->|[->|[->| ->]]]; vm_compute; auto. Qed.
Lemma opw_w p ri : rw ri = true -> opw p ri = W64.
Proof. unfold opw. intros ->. reflexivity. Qed.
Lemma opw_66 ri : rw ri = false -> opw (mkPfx true RepNone) ri = W16.
Proof. unfold opw. intros ->. reflexivity. Qed.
Lemma opw_0 ri : rw ri = false -> opw pfx0 ri = W32.
Proof. unfold opw. intros ->. reflexivity. Qed.

Lemma pre0 t d : done (tseq (tbytes []) t) d -> done t d.
Proof. change (tbytes []) with tret. rewrite tseq_ret_l. auto. Qed.
Lemma pre1 b t d : done (tseq (tbytes [b]) t) d -> done (tseq (titem (IB b)) t) d.
Proof. auto. Qed.
Ltac pf := unfold pfx_rel; tauto.
Ltac pfree := try assumption; match goal with
  | |- agree r0 _ => apply agree0
  | H : free ?es |- agree (env_set "imm" _ r0) ?es => apply H
  | _ => idtac end.
Ltac texec H := cbn [t_exec t_call g1 g2 run_cond run_imm] in H; rewrite ?the_imm_set, ?tseq_ret_l, ?tseq_ret_r, ?tseq_assoc in H.

Ltac opc := let ri := fresh "ri" in let t := fresh "t" in let Hw := fresh "Hw" in
  intros ri t Hw; try intro; cbn [is_w] in Hw; cw; cbn [map app]; dec; unfold opw; rewrite ?Hw;
  repeat match goal with H : digit_of _ _ = _ |- _ => rewrite H; clear H end; reflexivity.
Lemma inl_done t d : done t d -> outcome t d. Proof. left; assumption. Qed.
Lemma mode_ind a r : rm_mode (run_rm ev lenv r (GRmInd a)) <> MReg. Proof. discriminate. Qed.

(** Splits a trace on the immediate checks it contains. *)
Ltac imm_cases Ht v :=
  repeat match type of Ht with
  | context [if in_i8 v then _ else _] => let E := fresh "E8" in destruct (in_i8 v) eqn:E
  | context [if in_i16 v then _ else _] => let E := fresh "E16" in destruct (in_i16 v) eqn:E
  | context [if in_i32 v then _ else _] => let E := fresh "E32" in destruct (in_i32 v) eqn:E
  end; injection Ht as <-; rewrite ?tseq_ret_l, ?tseq_ret_r, ?tseq_assoc.
Ltac rng := cbn [imm_ok]; unfold in_i8, in_i16, in_i32 in *; lia.
Ltac alu_mi kk mm_ ti_ := eapply cls_mi with (mm := mm_) (ti := ti_) (mf := fun d => Some (Alu (alu_of d)));
   [pf|vm_compute; auto|pfree|assumption|cbn [mm_ok]; lia|cbn [mm_reg]; rewrite kk; reflexivity| | |opc].

Lemma d_alu_imm m w a e : imm_ok w (i64 (val e)) = true ->
  d_alu val rel m w a (RmiImm e) = d_two m w (d_rm val rel w a) (Some (OImm (i64 (val e)))).
Proof. intros Hw. unfold d_alu, d_rmi, d_imm. rewrite Hw. cbn [is_mem_rmi]. rewrite andb_false_r. reflexivity. Qed.
Lemma d_alu_imm_bad m w a e : imm_ok w (i64 (val e)) = false -> d_alu val rel m w a (RmiImm e) = None.
Proof.
  intros Hw. unfold d_alu, d_rmi, d_imm. rewrite Hw. cbn [is_mem_rmi]. rewrite andb_false_r. cbn [negb guard obind].
  unfold d_two. destruct (d_rm val rel w a); reflexivity.
Qed.
Lemma d_alu_reg m w a r : d_alu val rel m w a (RmiReg r) = d_two m w (d_rm val rel w a) (d_reg val w r).
Proof. unfold d_alu. cbn [is_mem_rmi d_rmi]. rewrite andb_false_r. reflexivity. Qed.

Lemma alu_imm sz k a e g t : 0 <= k <= 7 -> rm_good a -> free (rm_exprs a) ->
  binary_op sz (8 * k + 1) k a (RmiImm e) = Some g -> t_exec ev lenv r0 g = Some t ->
  outcome t (d_alu val rel (Alu (alu_of k)) (width_of sz) (tm a) (taken_rmi val (RmiImm e))).
Proof.
  intros Hk Ga Fa Hc Ht. assert (Km : k mod 8 = k) by lia. cbn [taken_rmi].
  destruct sz; cbn [binary_op width_of] in *.
  - assert (Hg : g = GLetImm e
        (GIf CTry8 (g1 (GEncRexwDigit [0x83] (grm_of_rm a) k GImmB))
          (GIf CTry32 (g1 (GEncRexwDigit [0x81] (grm_of_rm a) k GImmL)) GPanic GNil) GNil))
      by (destruct a; injection Hc as <-; reflexivity).
    subst g. texec Ht. imm_cases Ht (i64 (val e)).
    + apply inl_done. rewrite d_alu_imm by rng. apply pre0.
      alu_mi Km (ModDigit k) (take_s 1); [discriminate|]. intro. apply ti_B. exact E8.
    + apply inl_done. rewrite d_alu_imm by rng. apply pre0.
      alu_mi Km (ModDigit k) (take_z W64); [discriminate|]. intro. apply ti_L. exact E32.
    + right. split; [apply d_alu_imm_bad; rng|reflexivity].
  - assert (Hg : g = GLetImm e
        (GIf CTry8 (g1 (GEncDigitImm [0x83] (grm_of_rm a) k GImmB))
          (GIf CTry32 (g1 (GEncDigitImm [0x81] (grm_of_rm a) k GImmL)) GPanic GNil) GNil))
      by (destruct a; injection Hc as <-; reflexivity).
    subst g. texec Ht. imm_cases Ht (i64 (val e)).
    + apply inl_done. rewrite d_alu_imm by rng. apply pre0.
      alu_mi Km (ModDigit k) (take_s 1); [discriminate|]. intro. apply ti_B. exact E8.
    + apply inl_done. rewrite d_alu_imm by rng. apply pre0.
      alu_mi Km (ModDigit k) (take_z W32); [discriminate|]. intro. apply ti_L. exact E32.
    + right. split; [apply d_alu_imm_bad; rng|reflexivity].
  - assert (Hg : g = GLetImm e (GDo (GEmitb 0x66)
        (GIf CTry8 (g1 (GEncDigitImm [0x83] (grm_of_rm a) k GImmB))
          (GIf CTry16 (g1 (GEncDigitImm [0x81] (grm_of_rm a) k GImmW)) GPanic GNil) GNil)))
      by (destruct a; injection Hc as <-; reflexivity).
    subst g. texec Ht. imm_cases Ht (i64 (val e)).
    + apply inl_done. rewrite d_alu_imm by rng. apply pre1.
      alu_mi Km (ModDigit k) (take_s 1); [discriminate|]. intro. apply ti_B. exact E8.
    + apply inl_done. rewrite d_alu_imm by rng. apply pre1.
      alu_mi Km (ModDigit k) (take_z W16); [discriminate|]. intro. apply ti_W. exact E16.
    + right. split; [apply d_alu_imm_bad; rng|reflexivity].
  - assert (Hg : g = GLetImm e
        (GIf CTry8 (g1 (GEncDigitImmByte [0x80] (8 * k + 1 - 1 + 4) (grm_of_rm a) k GImmB)) GPanic GNil))
      by (destruct a; injection Hc as <-; reflexivity).
    subst g. texec Ht. imm_cases Ht (i64 (val e)).
    + apply inl_done. rewrite d_alu_imm by rng. unfold t_enc_digit_imm_byte. set (r := env_set _ _ _).
      assert (Hr : agree r (rm_exprs a)) by apply Fa.
      unfold rm_is_rax, rm_is_reg. destruct (mode_is_reg (rm_mode (run_rm ev lenv r (grm_of_rm a)))) eqn:Em; cbn [andb].
      * destruct (reg_is_rax (rm_base (run_rm ev lenv r (grm_of_rm a)))) eqn:Er.
        -- destruct a as [ra|ma]; [|discriminate Em]. cbn [grm_of_rm run_rm rm_reg rm_base] in Er.
           cbn [rm_good Fidelity.rm_good] in Ga. cbn [rm_exprs] in Hr.
           destruct (reg_bridge ev r0 r ra Hr Ga) as [Ea Ra]. unfold reg_is_rax, rax in Er.
           cbn [taken_rm d_rm]. unfold d_reg. unfold Fidelity.reg_good in Ga. rewrite Ga. cbn [guard obind d_two].
           change (tseq (titem (IB (8 * k + 1 - 1 + 4))) (t_disp_imm DispNone (ImmB (i64 (val e)))))
             with (tseq (tbytes [8 * k + 1 - 1 + 4]) ([IB (u8 (i64 (val e)))], None)).
           eapply go_bytes; [repeat constructor; unfold is_byte; lia|cbn; auto|reflexivity|].
           intro rest. assert (E0 : reg_no val (tr ra) = 0) by lia. rewrite E0. cbn [app].
           etransitivity; [apply (decode_plain [] no_rex); [left; auto|unfold plain_op; repeat split; lia]|].
           rewrite dec_alu_al by (auto; lia). unfold form_ai, take_z.
           cbn [flat flat_map item_bytes app]. rewrite u8_u8, take_s_1 by exact E8. reflexivity.
        -- apply pre0. alu_mi Km (ModDigit k) (take_s 1); [intro; left; discriminate|]. intro. apply ti_B. exact E8.
      * apply pre0. alu_mi Km (ModDigit k) (take_s 1); [intro; right; intro Hm; rewrite Hm in Em; discriminate|]. intro. apply ti_B. exact E8.
    + right. split; [apply d_alu_imm_bad; rng|reflexivity].
Qed.

Lemma alu_out sz k a b g t : 0 <= k <= 7 -> rm_good a -> rmi_good b -> free (rm_exprs a) ->
  binary_op sz (8 * k + 1) k a b = Some g -> t_exec ev lenv r0 g = Some t ->
  outcome t (d_alu val rel (Alu (alu_of k)) (width_of sz) (tm a) (taken_rmi val b)).
Proof.
  intros Hk Ga Gb Fa Hc Ht. destruct b as [e|rb|mb].
  - eapply alu_imm; eassumption.
  - cbn [taken_rmi]. rewrite d_alu_reg. apply inl_done. cbn [rmi_good Fidelity.rm_good] in Gb.
    assert (Hg : binary_op sz (8 * k + 1) k a (RmiReg rb) = Some (match sz with
       | QWORD => g1 (GEncRexwMr [8 * k + 1] (greg_of rb) (grm_of_rm a))
       | DWORD => g1 (GEncMr [8 * k + 1] (greg_of rb) (grm_of_rm a))
       | WORD => g2 (GEmitb 0x66) (GEncMr [8 * k + 1] (greg_of rb) (grm_of_rm a))
       | BYTE => g1 (GEncMrByte [8 * k + 1 - 1] (greg_of rb) (grm_of_rm a)) end)) by (destruct sz, a; reflexivity).
    rewrite Hg in Hc. injection Hc as <-. destruct sz; texec Ht; injection Ht as <-; cbn [width_of]; rewrite ?tseq_ret_r.
    + apply pre0. eapply cls_mr; [pf|apply plain_alu; tauto|pfree|assumption|pfree|assumption|discriminate|].
      intros ri t Hw. cbn [map app]. rewrite dec_alu_mr by auto. rewrite opw_w by exact Hw. reflexivity.
    + apply pre0. eapply cls_mr; [pf|apply plain_alu; tauto|pfree|assumption|pfree|assumption|discriminate|].
      intros ri t Hw. cbn [map app]. rewrite dec_alu_mr by auto. rewrite opw_0 by exact Hw. reflexivity.
    + apply pre1. eapply cls_mr; [pf|apply plain_alu; tauto|pfree|assumption|pfree|assumption|discriminate|].
      intros ri t Hw. cbn [map app]. rewrite dec_alu_mr by auto. rewrite opw_66 by exact Hw. reflexivity.
    + apply pre0. eapply cls_mr; [pf| |pfree|assumption|pfree|assumption|discriminate|].
      { replace (8 * k + 1 - 1) with (8 * k + (1 - 1)) by lia. apply plain_alu; tauto. }
      intros ri t Hw. cbn [map app]. rewrite dec_alu_mr8 by auto. reflexivity.
  - destruct a as [ra|ma]; [|destruct sz; discriminate Hc]. apply inl_done. cbn [rmi_good] in Gb. cbn [Fidelity.rm_good] in Ga.
    change (d_alu val rel (Alu (alu_of k)) (width_of sz) (tm (RmReg ra)) (taken_rmi val (RmiInd mb)))
      with (d_two (Alu (alu_of k)) (width_of sz) (d_reg val (width_of sz) (tr ra)) (d_rm val rel (width_of sz) (tm (RmInd mb)))).
    assert (Hg : binary_op sz (8 * k + 1) k (RmReg ra) (RmiInd mb) = Some (match sz with
       | QWORD => g1 (GEncRexwMr [8 * k + 1 + 2] (greg_of ra) (GRmInd mb))
       | DWORD => g1 (GEncMr [8 * k + 1 + 2] (greg_of ra) (GRmInd mb))
       | WORD => g2 (GEmitb 0x66) (GEncMr [8 * k + 1 + 2] (greg_of ra) (GRmInd mb))
       | BYTE => g1 (GEncMrByte [8 * k + 1 - 1 + 2] (greg_of ra) (GRmInd mb)) end)) by (destruct sz; reflexivity).
    rewrite Hg in Hc. injection Hc as <-.
    destruct sz; texec Ht; injection Ht as <-; cbn [width_of]; rewrite ?tseq_ret_r.
    + apply pre0. eapply cls_rm with (a := ra) (b := RmInd mb); [pf| |pfree|assumption|pfree|assumption|discriminate|discriminate|].
      { rewrite <- Z.add_assoc. apply plain_alu; tauto. }
      intros ri t Hw. cbn [map app]. rewrite dec_alu_rm by auto. rewrite opw_w by exact Hw. reflexivity.
    + apply pre0. eapply cls_rm with (a := ra) (b := RmInd mb); [pf| |pfree|assumption|pfree|assumption|discriminate|discriminate|].
      { rewrite <- Z.add_assoc. apply plain_alu; tauto. }
      intros ri t Hw. cbn [map app]. rewrite dec_alu_rm by auto. rewrite opw_0 by exact Hw. reflexivity.
    + apply pre1. eapply cls_rm with (a := ra) (b := RmInd mb); [pf| |pfree|assumption|pfree|assumption|discriminate|discriminate|].
      { rewrite <- Z.add_assoc. apply plain_alu; tauto. }
      intros ri t Hw. cbn [map app]. rewrite dec_alu_rm by auto. rewrite opw_66 by exact Hw. reflexivity.
    + apply pre0. eapply cls_rm with (a := ra) (b := RmInd mb); [pf| |pfree|assumption|pfree|assumption|discriminate|discriminate|].
      { replace (8 * k + 1 - 1 + 2) with (8 * k + (1 - 1 + 2)) by lia. apply plain_alu; tauto. }
      intros ri t Hw. cbn [map app]. rewrite dec_alu_rm8 by auto. reflexivity.
Qed.

(** *** mov *)
Lemma dec_b8 p ri j t : 0 <= j <= 7 -> no_rep p = true -> decode_op p ri ((0xb8 + j) :: t) =
  obind (take_full (opw p ri) t) (fun i => Some (mkIns Mov (opw p ri) [OReg (opw p ri) (8 * rb ri + j); OImm (fst i)], snd i)).
Proof. intros H Hp. unfold decode_op, dec1. rewrite Hp. cases8 j H; reflexivity. Qed.
Lemma dec_b0 p ri j t : 0 <= j <= 7 -> no_rep p = true -> decode_op p ri ((0xb0 + j) :: t) =
  obind (take_full W8 t) (fun i => Some (mkIns Mov W8 [gpr W8 ri (8 * rb ri + j); OImm (fst i)], snd i)).
Proof. intros H Hp. unfold decode_op, dec1. rewrite Hp. cases8 j H; reflexivity. Qed.
Lemma div8 n : 8 * ((n / 8) mod 2) + n mod 8 = n mod 16. Proof. lia. Qed.

Ltac ind_mi a_ mm_ ti_ mf_ := eapply cls_mi with (b := RmInd a_) (mm := mm_) (ti := ti_) (mf := mf_);
   [pf|vm_compute; auto|pfree|assumption|cbn [mm_ok mm_reg]; unfold reg_ok; try lia|reflexivity| | |opc].
Ltac gpr_of Hr Gr n := let E := fresh "E" in let R := fresh "R" in
  destruct (reg_bridge ev r0 _ _ Hr Gr) as [E R]; rewrite ?E; clear E.

Lemma movl_out a b g t : rm_good a -> rmi_good b -> free (rm_exprs a) ->
  movl a b = Some g -> t_exec ev lenv r0 g = Some t -> outcome t (d_alu val rel Mov W32 (tm a) (taken_rmi val b)).
Proof.
  intros Ga Gb Fa Hc Ht. destruct b as [e|rb|mb].
  - destruct a as [ra|ma]; injection Hc as <-; texec Ht; imm_cases Ht (i64 (val e));
      try (right; split; [apply d_alu_imm_bad; rng|reflexivity]); apply inl_done; cbn [taken_rmi]; rewrite d_alu_imm by rng.
    + cbn [Fidelity.rm_good rm_exprs] in *. set (r := env_set _ _ _). assert (Hr : agree r (reg_exprs ra)) by apply Fa.
      destruct (reg_bridge ev r0 r ra Hr Ga) as [Ea Ra]. cbn [taken_rm d_rm]. unfold d_reg. unfold Fidelity.reg_good in Ga. rewrite Ga, <- Ea. cbn [guard obind d_two].
      apply pre0. apply (go_o [] pfx0 0xb8 RexNone _ [IL (u32 (i64 (val e)))]); [pf|tauto|exact Ra|cbn; auto|].
      intros ri Hw Hb _. eexists _, _. split; [reflexivity|]. split; [apply same_refl|]. intro rest.
      rewrite dec_b8 by (auto; lia). rewrite opw_0 by exact Hw. cbn [take_full].
      cbn [flat flat_map item_bytes]. rewrite app_nil_r, take_s_4 by assumption. cbn [obind fst snd]. rewrite Hb, div8. reflexivity.
    + apply pre0. ind_mi ma (ModReg 0) (take_z W32) (dig 0 Mov); [discriminate|]. intro. apply ti_L. assumption.
  - cbn [taken_rmi]. rewrite d_alu_reg. apply inl_done. cbn [rmi_good Fidelity.rm_good] in Gb.
    assert (Hg : movl a (RmiReg rb) = Some (g1 (GEncMr [0x89] (greg_of rb) (grm_of_rm a)))) by (destruct a; reflexivity).
    rewrite Hg in Hc. injection Hc as <-. texec Ht. injection Ht as <-. rewrite ?tseq_ret_r.
    apply pre0. eapply cls_mr; [pf|vm_compute; auto|pfree|assumption|pfree|assumption|discriminate|opc].
  - destruct a as [ra|ma]; [|discriminate Hc]. apply inl_done. cbn [rmi_good] in Gb. cbn [Fidelity.rm_good] in Ga.
    injection Hc as <-. texec Ht. injection Ht as <-. rewrite ?tseq_ret_r. apply pre0.
    eapply (cls_rm [] pfx0 _ _ _ r0) with (w := W32) (ws := W32) (a := ra) (b := RmInd mb); [pf|vm_compute; auto|pfree|assumption|pfree|assumption|discriminate|discriminate|opc].
Qed.
Lemma movw_out a b g t : rm_good a -> rmi_good b -> free (rm_exprs a) ->
  movw a b = Some g -> t_exec ev lenv r0 g = Some t -> outcome t (d_alu val rel Mov W16 (tm a) (taken_rmi val b)).
Proof.
  intros Ga Gb Fa Hc Ht. destruct b as [e|rb|mb].
  - destruct a as [ra|ma]; injection Hc as <-; texec Ht; imm_cases Ht (i64 (val e));
      try (right; split; [apply d_alu_imm_bad; rng|reflexivity]); apply inl_done; cbn [taken_rmi]; rewrite d_alu_imm by rng.
    + cbn [Fidelity.rm_good rm_exprs] in *. set (r := env_set _ _ _). assert (Hr : agree r (reg_exprs ra)) by apply Fa.
      destruct (reg_bridge ev r0 r ra Hr Ga) as [Ea Ra]. cbn [taken_rm d_rm]. unfold d_reg. unfold Fidelity.reg_good in Ga. rewrite Ga, <- Ea. cbn [guard obind d_two].
      apply pre1. apply (go_o [0x66] (mkPfx true RepNone) 0xb8 RexNone _ [IW (u16 (i64 (val e)))]); [pf|tauto|exact Ra|cbn; auto|].
      intros ri Hw Hb _. eexists _, _. split; [reflexivity|]. split; [apply same_refl|]. intro rest.
      rewrite dec_b8 by (auto; lia). rewrite opw_66 by exact Hw. cbn [take_full].
      cbn [flat flat_map item_bytes]. rewrite app_nil_r, take_s_2 by assumption. cbn [obind fst snd]. rewrite Hb, div8. reflexivity.
    + apply pre1. ind_mi ma (ModReg 0) (take_z W16) (dig 0 Mov); [discriminate|]. intro. apply ti_W. assumption.
  - cbn [taken_rmi]. rewrite d_alu_reg. apply inl_done. cbn [rmi_good Fidelity.rm_good] in Gb.
    assert (Hg : movw a (RmiReg rb) = Some (g2 (GEmitb 0x66) (GEncMr [0x89] (greg_of rb) (grm_of_rm a)))) by (destruct a; reflexivity).
    rewrite Hg in Hc. injection Hc as <-. texec Ht. injection Ht as <-. rewrite ?tseq_ret_r.
    apply pre1. eapply cls_mr; [pf|vm_compute; auto|pfree|assumption|pfree|assumption|discriminate|opc].
  - destruct a as [ra|ma]; [|discriminate Hc]. apply inl_done. cbn [rmi_good] in Gb. cbn [Fidelity.rm_good] in Ga.
    injection Hc as <-. texec Ht. injection Ht as <-. rewrite ?tseq_ret_r. apply pre1.
    eapply (cls_rm [0x66] (mkPfx true RepNone) _ _ _ r0) with (w := W16) (ws := W16) (a := ra) (b := RmInd mb); [pf|vm_compute; auto|pfree|assumption|pfree|assumption|discriminate|discriminate|opc].
Qed.
Lemma movb_out a b g t : rm_good a -> rmi_good b -> free (rm_exprs a) ->
  movb a b = Some g -> t_exec ev lenv r0 g = Some t -> outcome t (d_alu val rel Mov W8 (tm a) (taken_rmi val b)).
Proof.
  intros Ga Gb Fa Hc Ht. destruct b as [e|rb|mb].
  - destruct a as [ra|ma]; injection Hc as <-; texec Ht; imm_cases Ht (i64 (val e));
      try (right; split; [apply d_alu_imm_bad; rng|reflexivity]); apply inl_done; cbn [taken_rmi]; rewrite d_alu_imm by rng.
    + cbn [Fidelity.rm_good rm_exprs] in *. set (r := env_set _ _ _). assert (Hr : agree r (reg_exprs ra)) by apply Fa.
      destruct (reg_bridge ev r0 r ra Hr Ga) as [Ea Ra]. cbn [taken_rm d_rm]. unfold d_reg. unfold Fidelity.reg_good in Ga. rewrite Ga, <- Ea. cbn [guard obind d_two].
      apply pre0. apply (go_o [] pfx0 0xb0 RexByte _ [IB (u8 (i64 (val e)))]); [pf|tauto|exact Ra|cbn; auto|].
      intros ri Hw Hb Hby. eexists _, _. split; [reflexivity|]. split; [apply same_refl|]. intro rest.
      rewrite dec_b0 by (auto; lia). cbn [take_full].
      cbn [flat flat_map item_bytes app]. rewrite u8_u8, take_s_1 by assumption. cbn [obind fst snd]. rewrite Hb, div8.
      rewrite gpr_plain by (intro; auto). reflexivity.
    + apply pre0. ind_mi ma (ModReg 0) (take_z W8) (dig 0 Mov); [intro; left; discriminate|]. intro. apply ti_B. assumption.
  - cbn [taken_rmi]. rewrite d_alu_reg. apply inl_done. cbn [rmi_good Fidelity.rm_good] in Gb.
    assert (Hg : movb a (RmiReg rb) = Some (g1 (GEncMrByte [0x88] (greg_of rb) (grm_of_rm a)))) by (destruct a; reflexivity).
    rewrite Hg in Hc. injection Hc as <-. texec Ht. injection Ht as <-. rewrite ?tseq_ret_r.
    apply pre0. eapply cls_mr; [pf|vm_compute; auto|pfree|assumption|pfree|assumption|discriminate|opc].
  - destruct a as [ra|ma]; [|discriminate Hc]. apply inl_done. cbn [rmi_good] in Gb. cbn [Fidelity.rm_good] in Ga.
    injection Hc as <-. texec Ht. injection Ht as <-. rewrite ?tseq_ret_r. apply pre0.
    eapply (cls_rm [] pfx0 _ _ _ r0) with (w := W8) (ws := W8) (a := ra) (b := RmInd mb); [pf|vm_compute; auto|pfree|assumption|pfree|assumption|discriminate|discriminate|opc].
Qed.

Definition mov_good (o : mov_operand) : Prop :=
  match o with MovImm _ _ => True | MovReg r => rm_good (RmReg r) | MovXmm e => xmm_good e | MovInd a => rm_good (RmInd a) end.
Definition mov_exprs (o : mov_operand) : list expr :=
  match o with MovImm _ _ => [] | MovReg r => reg_exprs r | MovXmm e => [e] | MovInd a => mem_exprs a end.
Lemma movq_out a b g t : mov_good a -> mov_good b -> free (mov_exprs a) ->
  movq a b = Some g -> t_exec ev lenv r0 g = Some t -> outcome t (d_movq val rel (taken_mov val a) (taken_mov val b)).
Proof.
  intros Ga Gb Fa Hc Ht. destruct a as [e sz|ra|xa|ma].
  - discriminate Hc.
  - destruct b as [e sz|rb|xb|mb].
    + assert (Hg : g = GLetImm e (g2 (GEncRexwO 0xb8 (greg_of ra)) GEmitqImm) /\
         d_movq val rel (taken_mov val (MovReg ra)) (taken_mov val (MovImm e sz)) = d_two Mov W64 (d_reg val W64 (tr ra)) (Some (OImm (i64 (val e))))).
      { destruct sz as [[]|]; try discriminate Hc; injection Hc as <-; auto. }
      destruct Hg as [-> ->]. texec Ht. injection Ht as <-. apply inl_done.
      cbn [mov_good Fidelity.rm_good mov_exprs] in *. set (r := env_set _ _ _). assert (Hr : agree r (reg_exprs ra)) by apply Fa.
      destruct (reg_bridge ev r0 r ra Hr Ga) as [Ea Ra]. unfold d_reg. unfold Fidelity.reg_good in Ga. rewrite Ga, <- Ea. cbn [guard obind d_two].
      rewrite ?tseq_ret_r. apply pre0. apply (go_o [] pfx0 0xb8 REXW _ [IQ (u64 (i64 (val e)))]); [pf|tauto|exact Ra|cbn; auto|].
      intros ri Hw Hb _. eexists _, _. split; [reflexivity|]. split; [apply same_refl|]. intro rest.
      rewrite dec_b8 by (auto; lia). rewrite opw_w by exact Hw. cbn [take_full].
      cbn [flat flat_map item_bytes]. rewrite app_nil_r, take_s_8 by apply i64_in. cbn [obind fst snd]. rewrite Hb, div8. reflexivity.
    + injection Hc as <-. texec Ht. injection Ht as <-. rewrite ?tseq_ret_r. apply inl_done. cbn [mov_good Fidelity.rm_good] in *.
      apply pre0. eapply (cls_mr [] pfx0 _ _ _ r0) with (a := rb) (b := RmReg ra); [pf|vm_compute; auto|pfree|assumption|pfree|assumption|discriminate|opc].
    + injection Hc as <-. texec Ht. injection Ht as <-. rewrite ?tseq_ret_r. apply inl_done. cbn [mov_good] in *.
      apply pre1. eapply (cls_xr_rev [0x66] (mkPfx true RepNone) _ _ _ r0) with (a := xb) (b := RmReg ra); [pf|vm_compute; auto|pfree|assumption|pfree|assumption|opc].
    + injection Hc as <-. texec Ht. injection Ht as <-. rewrite ?tseq_ret_r. apply inl_done. cbn [mov_good] in *.
      apply pre0. eapply (cls_rm [] pfx0 _ _ _ r0) with (w := W64) (ws := W64) (a := ra) (b := RmInd mb); [pf|vm_compute; auto|pfree|assumption|pfree|assumption|discriminate|discriminate|opc].
  - destruct b as [e sz|rb|xb|mb]; try discriminate Hc;
      injection Hc as <-; texec Ht; injection Ht as <-; rewrite ?tseq_ret_r; apply inl_done; cbn [mov_good] in *; apply pre1.
    + eapply (cls_xr [0x66] (mkPfx true RepNone) _ _ _ r0) with (a := xa) (b := RmReg rb); [pf|vm_compute; auto|pfree|assumption|pfree|assumption|opc].
    + eapply (cls_xx [0xf3] (mkPfx false RepF3) _ _ _ r0) with (a := xa) (b := XmXmm xb); [pf|vm_compute; auto|pfree|assumption|pfree|assumption|opc].
    + eapply (cls_xx [0xf3] (mkPfx false RepF3) _ _ _ r0) with (a := xa) (b := XmInd mb); [pf|vm_compute; auto|pfree|assumption|pfree|assumption|opc].
  - destruct b as [e sz|rb|xb|mb]; try discriminate Hc.
    + destruct sz; [discriminate Hc|]. injection Hc as <-; texec Ht; imm_cases Ht (i64 (val e)).
      * apply inl_done. cbn [taken_mov d_movq mov_good] in *. unfold d_imm. cbn [imm_ok]. rewrite E32. cbn [guard obind].
        apply pre0. change (d_mem val rel (taken_mem val ma)) with (d_rm val rel W64 (tm (RmInd ma))).
        ind_mi ma (ModReg 0) (take_z W64) (dig 0 Mov); [discriminate|]. intro. apply ti_L. assumption.
      * right. split; [|reflexivity]. cbn [taken_mov d_movq]. unfold d_imm. cbn [imm_ok]. rewrite E32. unfold d_two. destruct (d_mem val rel (taken_mem val ma)); reflexivity.
    + injection Hc as <-. texec Ht. injection Ht as <-. rewrite ?tseq_ret_r. apply inl_done. cbn [mov_good] in *.
      apply pre0. eapply (cls_mr [] pfx0 _ _ _ r0) with (a := rb) (b := RmInd ma); [pf|vm_compute; auto|pfree|assumption|pfree|assumption|discriminate|opc].
    + injection Hc as <-. texec Ht. injection Ht as <-. rewrite ?tseq_ret_r. apply inl_done. cbn [mov_good] in *.
      apply pre1. eapply (cls_xx_rev [0x66] (mkPfx true RepNone) _ _ _ r0) with (a := xb) (b := XmInd ma); [pf|vm_compute; auto|pfree|assumption|pfree|assumption|opc].
Qed.

(** *** shifts and rotates *)
Lemma mask_u8 w v : mask w (u8 v) = v mod (match w with W64 => 64 | _ => 32 end).
Proof. unfold mask, u8. destruct w; lia. Qed.
Ltac sh c_ cnt_ dg := eapply cls_shift with (mm := ModDigit dg) (c := c_) (cnt := cnt_);
   [pf|vm_compute; auto|pfree|assumption|cbn [mm_ok]; lia|eassumption|discriminate| |opc].
Lemma shift_out sz dg m a b g t : 0 <= dg <= 7 -> shf_of (dg mod 8) = Some m ->
  rm_good a -> free (rm_exprs a) ->
  shift_op sz dg a b = Some g -> t_exec ev lenv r0 g = Some t ->
  outcome t (d_shift val rel m (width_of sz) (tm a) (taken_count val b)).
Proof.
  intros Hd Hm Ga Fa Hc Ht. destruct b as [e|rb].
  - destruct sz; try discriminate Hc; injection Hc as <-; texec Ht; cbn [taken_count d_shift width_of];
      change (eval ev r0 e) with (val e) in *; set (v := i64 (val e)) in *;
      (destruct (v =? 1) eqn:E1; [|destruct (in_i8 v) eqn:E8]); injection Ht as <-; rewrite ?tseq_ret_l, ?tseq_ret_r;
      try (right; split; [reflexivity|reflexivity]).
    + assert (Ev : v = 1) by lia. rewrite Ev. change (in_i8 1) with true. cbn [guard obind]. apply inl_done, pre0.
      sh (OImm 1) count_1 dg. reflexivity.
    + cbn [guard obind]. apply inl_done, pre0. sh (OImm (v mod 64)) (count_imm W64) dg.
      intro rest. unfold count_imm. cbn [imm_items t_imm fst titem flat flat_map item_bytes app].
      rewrite u8_u8, take_u_1. cbn [obind fst snd]. rewrite mask_u8. reflexivity.
    + assert (Ev : v = 1) by lia. rewrite Ev. change (in_i8 1) with true. cbn [guard obind]. apply inl_done, pre0.
      sh (OImm 1) count_1 dg. reflexivity.
    + cbn [guard obind]. apply inl_done, pre0. sh (OImm (v mod 32)) (count_imm W32) dg.
      intro rest. unfold count_imm. cbn [imm_items t_imm fst titem flat flat_map item_bytes app].
      rewrite u8_u8, take_u_1. cbn [obind fst snd]. rewrite mask_u8. reflexivity.
  - assert (Eb : run_reg ev r0 (greg_of rb) = reg_no val (taken_index val rb)) by (unfold run_reg; rewrite (reg_eval ev r0 r0 rb (agree0 _)); reflexivity).
    destruct sz; try discriminate Hc; injection Hc as <-; texec Ht; cbn [taken_count d_shift width_of];
      rewrite Eb in Ht; unfold is_cl, rcx in Ht; destruct (reg_no val (taken_index val rb) =? 1) eqn:E1; cbn [negb guard obind] in *;
      injection Ht as <-; rewrite ?tseq_ret_l, ?tseq_ret_r;
      try (right; split; [reflexivity|reflexivity]); apply inl_done, pre0; sh (OReg W8 1) count_cl dg; reflexivity.
Qed.

(** *** test *)
Lemma test_imm_d w a e : imm_ok w (i64 (val e)) = true ->
  d_two Test w (d_rm val rel w a) (d_ri val w (RiImm e)) = d_two Test w (d_rm val rel w a) (Some (OImm (i64 (val e)))).
Proof. intro H. cbn [d_ri]. unfold d_imm. rewrite H. reflexivity. Qed.
Lemma test_imm_bad w a e : imm_ok w (i64 (val e)) = false ->
  d_two Test w (d_rm val rel w a) (d_ri val w (RiImm e)) = None.
Proof. intro H. cbn [d_ri]. unfold d_imm. rewrite H. unfold d_two. destruct (d_rm val rel w a); reflexivity. Qed.
Ltac tst b_ ti_ := eapply cls_mi with (b := b_) (mm := ModReg 0) (ti := ti_) (mf := dig 0 Test);
   [pf|vm_compute; auto|pfree|assumption|cbn [mm_ok mm_reg]; unfold reg_ok; lia|reflexivity| | |opc].
Lemma testq_out a b g t : rm_good a -> ri_good b -> free (rm_exprs a) ->
  testq a b = Some g -> t_exec ev lenv r0 g = Some t ->
  outcome t (d_two Test W64 (d_rm val rel W64 (tm a)) (d_ri val W64 (taken_ri val b))).
Proof.
  intros Ga Gb Fa Hc Ht. destruct b as [e|rb].
  - destruct a as [ra|ma]; injection Hc as <-.
    + cbn [Fidelity.rm_good] in Ga. texec Ht. set (r := env_set _ _ _) in *.
      assert (Hr : agree r (reg_exprs ra)) by apply Fa.
      destruct (reg_bridge ev r0 r ra Hr Ga) as [Ea Ra]. cbn [grm_of_rm run_rm] in Ht. cbn [taken_ri].
      destruct (in_i32 (i64 (val e))) eqn:E32.
      * rewrite test_imm_d by rng. unfold reg_is_rax, rax in Ht. destruct (run_reg ev r (greg_of ra) =? 0) eqn:E0; injection Ht as <-;
          rewrite ?tseq_ret_l, ?tseq_ret_r; apply inl_done.
        -- cbn [taken_rm d_rm]. unfold d_reg. unfold Fidelity.reg_good in Ga. rewrite Ga. cbn [guard obind d_two]. assert (E : reg_no val (tr ra) = 0) by lia. rewrite E.
           apply (go_bytes [0x48; 0xa9] [IL (u32 (i64 (val e)))] (mkIns Test W64 [OReg W64 0; OImm (i64 (val e))]));
             [repeat constructor; unfold is_byte; lia|cbn; auto|reflexivity|].
           intro rest. cbn [flat flat_map item_bytes app]. rewrite app_nil_r. 
           change (decode (0x48 :: 0xa9 :: le 4 (u32 (i64 (val e))) ++ rest)) with (form_ai Test W64 (le 4 (u32 (i64 (val e))) ++ rest)).
           unfold form_ai, take_z. rewrite take_s_4 by exact E32. reflexivity.
        -- change (rm_reg (run_reg ev r (greg_of ra))) with (run_rm ev lenv r (grm_of_rm (RmReg ra))). apply pre0. tst (RmReg ra) (take_z W64); [discriminate|]. intro. apply ti_L. exact E32.
      * injection Ht as <-. right. split; [apply test_imm_bad; rng|reflexivity].
    + texec Ht. cbn [taken_ri]. imm_cases Ht (i64 (val e)).
      * rewrite test_imm_d by rng. apply inl_done, pre0. tst (RmInd ma) (take_z W64); [discriminate|]. intro. apply ti_L. assumption.
      * right. split; [apply test_imm_bad; rng|reflexivity].
  - injection Hc as <-. texec Ht. injection Ht as <-. rewrite ?tseq_ret_r. apply inl_done, pre0. cbn [taken_ri d_ri ri_good Fidelity.rm_good] in *.
    eapply cls_mr; [pf|vm_compute; auto|pfree|assumption|pfree|assumption|discriminate|opc].
Qed.
Lemma testb_out a b g t : rm_good a -> ri_good b -> free (rm_exprs a) ->
  testb a b = Some g -> t_exec ev lenv r0 g = Some t ->
  outcome t (d_two Test W8 (d_rm val rel W8 (tm a)) (d_ri val W8 (taken_ri val b))).
Proof.
  intros Ga Gb Fa Hc Ht. destruct b as [e|rb].
  - destruct a as [ra|ma]; injection Hc as <-.
    + cbn [Fidelity.rm_good] in Ga. texec Ht. set (r := env_set _ _ _) in *.
      assert (Hr : agree r (reg_exprs ra)) by apply Fa.
      destruct (reg_bridge ev r0 r ra Hr Ga) as [Ea Ra]. cbn [grm_of_rm run_rm] in Ht. cbn [taken_ri].
      destruct (in_i8 (i64 (val e))) eqn:E8.
      * rewrite test_imm_d by rng. unfold reg_is_rax, rax in Ht. destruct (run_reg ev r (greg_of ra) =? 0) eqn:E0; injection Ht as <-;
          rewrite ?tseq_ret_l, ?tseq_ret_r; apply inl_done.
        -- cbn [taken_rm d_rm]. unfold d_reg. unfold Fidelity.reg_good in Ga. rewrite Ga. cbn [guard obind d_two]. assert (E : reg_no val (tr ra) = 0) by lia. rewrite E.
           apply (go_bytes [0xa8] [IB (u8 (i64 (val e)))] (mkIns Test W8 [OReg W8 0; OImm (i64 (val e))]));
             [repeat constructor; unfold is_byte; lia|cbn; auto|reflexivity|].
           intro rest. cbn [flat flat_map item_bytes app].
           change (decode (0xa8 :: u8 (u8 (i64 (val e))) :: rest)) with (form_ai Test W8 (u8 (u8 (i64 (val e))) :: rest)).
           unfold form_ai, take_z. rewrite u8_u8, take_s_1 by exact E8. reflexivity.
        -- change (rm_reg (run_reg ev r (greg_of ra))) with (run_rm ev lenv r (grm_of_rm (RmReg ra))). apply pre0. tst (RmReg ra) (take_z W8); [intro; left; discriminate|]. intro. apply ti_B. exact E8.
      * injection Ht as <-. right. split; [apply test_imm_bad; rng|reflexivity].
    + texec Ht. cbn [taken_ri]. imm_cases Ht (i64 (val e)).
      * rewrite test_imm_d by rng. apply inl_done, pre0. tst (RmInd ma) (take_z W8); [intro; left; discriminate|]. intro. apply ti_B. assumption.
      * right. split; [apply test_imm_bad; rng|reflexivity].
  - injection Hc as <-. texec Ht. injection Ht as <-. rewrite ?tseq_ret_r. apply inl_done, pre0. cbn [taken_ri d_ri ri_good Fidelity.rm_good] in *.
    eapply cls_mr; [pf|vm_compute; auto|pfree|assumption|pfree|assumption|discriminate|opc].
Qed.

(** *** xchg *)
Lemma done_swap t w x y : done t (Some (mkIns Xchg w [x; y])) -> done t (Some (mkIns Xchg w [y; x])).
Proof.
  intros (its & E & (a & b & Ea & S & D) & R). exists its. split; [exact E|]. split; [|exact R].
  injection Ea as <-. inversion S; subst.
  - exists (mkIns Xchg w [y; x]), (mkIns Xchg w [x; y]). split; [reflexivity|]. split; [constructor|exact D].
  - exists (mkIns Xchg w [y; x]), (mkIns Xchg w [y; x]). split; [reflexivity|]. split; [constructor|exact D].
  - eexists _, _. split; [reflexivity|]. split; [apply same_nop|exact D].
Qed.
Lemma dec_90 p ri j t : 0 <= j <= 7 -> no_rep p = true -> decode_op p ri ((0x90 + j) :: t) =
  if 8 * rb ri + j =? 0 then Some (mkIns Nop (opw p ri) [], t)
  else Some (mkIns Xchg (opw p ri) [OReg (opw p ri) (8 * rb ri + j); OReg (opw p ri) 0], t).
Proof. intros H Hp. unfold decode_op, dec1. rewrite Hp. cases8 j H; reflexivity. Qed.
Lemma xchg_rax n : reg_ok n ->
  done (t_enc_rexw_o 0x90 n) (Some (mkIns Xchg W64 [OReg W64 (n mod 16); OReg W64 0])).
Proof.
  intros Hn. apply pre0. change (t_enc_rexw_o 0x90 n) with (t_o REXW 0x90 n).
  rewrite <- (tseq_ret_r (t_o REXW 144 n)). apply (go_o [] pfx0 0x90 REXW n []); [pf|tauto|exact Hn|exact I|].
  intros ri Hw Hb _. destruct (n mod 16 =? 0) eqn:E0.
  - replace (n mod 16) with 0 by lia. eexists _, _. split; [reflexivity|]. split; [apply (same_nop W64)|]. intro rest.
    rewrite dec_90 by (auto; lia). rewrite opw_w by exact Hw. rewrite Hb, div8, E0. reflexivity.
  - eexists _, _. split; [reflexivity|]. split; [apply same_refl|]. intro rest.
    rewrite dec_90 by (auto; lia). rewrite opw_w by exact Hw. rewrite Hb, div8, E0. reflexivity.
Qed.
Lemma xchg_out sz a b g t : rm_good a -> rm_good b ->
  xchg sz a b = Some g -> t_exec ev lenv r0 g = Some t ->
  outcome t (denote val rel (taken val (IXchg sz a b))).
Proof.
  intros Ga Gb Hc Ht. destruct sz; try discriminate Hc. cbn [taken denote width_of]. apply inl_done.
  destruct a as [ra|ma], b as [rb|mb]; try discriminate Hc; cbn [taken_rm is_mem_rm andb negb guard obind].
  - cbn [Fidelity.rm_good] in Ga, Gb. injection Hc as <-. texec Ht.
    destruct (reg_bridge ev r0 r0 ra (agree0 _) Ga) as [Ea Ra]. destruct (reg_bridge ev r0 r0 rb (agree0 _) Gb) as [Eb Rb].
    unfold reg_is_rax, rax in Ht. cbn [taken_rm d_rm].
    assert (Ed : forall r, reg_good r -> d_reg val W64 (tr r) = Some (OReg W64 (reg_no val (tr r))))
      by (intros r Hr; unfold d_reg, Fidelity.reg_good in *; rewrite Hr; reflexivity).
    destruct (run_reg ev r0 (greg_of ra) =? 0) eqn:E1, (run_reg ev r0 (greg_of rb) =? 0) eqn:E2; injection Ht as <-; rewrite ?tseq_ret_r.
    + rewrite !Ed by assumption. replace (reg_no val (tr ra)) with 0 by lia. replace (reg_no val (tr rb)) with 0 by lia.
      exists [IB 0x90]. split; [reflexivity|]. split; [|cbn; auto]. eexists _, _. split; [reflexivity|]. split; [apply (same_nop W32)|].
      intro rest. reflexivity.
    + rewrite !Ed by assumption. replace (reg_no val (tr ra)) with 0 by lia. rewrite <- Eb. cbn [d_two obind]. apply done_swap. apply xchg_rax; assumption.
    + rewrite !Ed by assumption. replace (reg_no val (tr rb)) with 0 by lia. rewrite <- Ea. apply xchg_rax; assumption.
    + apply pre0.
      eapply (cls_mr [] pfx0 _ _ _ r0) with (w := W64) (a := rb) (b := RmReg ra); [pf|vm_compute; auto|pfree|assumption|pfree|assumption|discriminate|opc].
  - injection Hc as <-. texec Ht. injection Ht as <-. rewrite ?tseq_ret_r. cbn [Fidelity.rm_good] in Ga.
    assert (K : done (t_encode [135] REXW (ModReg (run_reg ev r0 (greg_of ra))) (run_rm ev lenv r0 (GRmInd mb)) ImmNone)
       (d_two Xchg W64 (d_rm val rel W64 (tm (RmInd mb))) (d_reg val W64 (tr ra)))).
    { apply pre0. eapply (cls_mr [] pfx0 _ _ _ r0) with (w := W64) (a := ra) (b := RmInd mb);
        [pf|vm_compute; auto|pfree|assumption|pfree|assumption|discriminate|opc]. }
    unfold d_two in *. cbn [taken_rm d_rm] in *. unfold d_reg, Fidelity.reg_good in *. rewrite Ga in *. cbn [guard obind] in *.
    destruct (d_mem val rel (taken_mem val mb)); cbn [obind] in *; [|exact K]. apply done_swap. exact K.
  - injection Hc as <-. texec Ht. injection Ht as <-. rewrite ?tseq_ret_r. cbn [Fidelity.rm_good] in Gb. apply pre0.
    eapply (cls_mr [] pfx0 _ _ _ r0) with (w := W64) (a := rb) (b := RmInd ma);
        [pf|vm_compute; auto|pfree|assumption|pfree|assumption|discriminate|opc].
Qed.

(** *** push, pop *)
Lemma dec_50 ri j t : 0 <= j <= 7 -> decode_op pfx0 ri ((0x50 + j) :: t) = Some (mkIns Push W64 [OReg W64 (8 * rb ri + j)], t).
Proof. intros H. cases8 j H; reflexivity. Qed.
Lemma dec_58 ri j t : 0 <= j <= 7 -> decode_op pfx0 ri ((0x58 + j) :: t) = Some (mkIns Pop W64 [OReg W64 (8 * rb ri + j)], t).
Proof. intros H. cases8 j H; reflexivity. Qed.
Ltac md b_ dg mf_ := eapply (cls_m [] pfx0 _ _ _ r0) with (b := b_) (mm := dg) (mf := mf_);
   [pf|vm_compute; auto|pfree|assumption|cbn [mm_ok mm_reg]; unfold reg_ok; lia|reflexivity|discriminate|opc].
Lemma push_out a g t : rm_good a -> push_pop 0x50 (0xff, 6) a = Some g -> t_exec ev lenv r0 g = Some t ->
  outcome t (d_one Push W64 (d_rm val rel W64 (tm a))).
Proof.
  intros Ga Hc Ht. destruct a as [ra|ma]; injection Hc as <-; texec Ht; injection Ht as <-; rewrite ?tseq_ret_r; apply inl_done, pre0.
  - cbn [Fidelity.rm_good taken_rm d_rm] in *. destruct (reg_bridge ev r0 r0 ra (agree0 _) Ga) as [Ea Ra]. 
    unfold d_reg. unfold Fidelity.reg_good in Ga. rewrite Ga, <- Ea. cbn [guard obind d_one]. rewrite <- (tseq_ret_r (t_enc_o 80 _)).
    apply (go_o [] pfx0 0x50 RexNone _ []); [pf|tauto|exact Ra|exact I|].
    intros ri Hw Hb _. eexists _, _. split; [reflexivity|]. split; [apply same_refl|]. intro rest.
    rewrite dec_50 by lia. rewrite Hb, div8. reflexivity.
  - md (RmInd ma) (ModDigit 6) (dig 6 Push).
Qed.
Lemma pop_out a g t : rm_good a -> push_pop 0x58 (0x8f, 0) a = Some g -> t_exec ev lenv r0 g = Some t ->
  outcome t (d_one Pop W64 (d_rm val rel W64 (tm a))).
Proof.
  intros Ga Hc Ht. destruct a as [ra|ma]; injection Hc as <-; texec Ht; injection Ht as <-; rewrite ?tseq_ret_r; apply inl_done, pre0.
  - cbn [Fidelity.rm_good taken_rm d_rm] in *. destruct (reg_bridge ev r0 r0 ra (agree0 _) Ga) as [Ea Ra]. 
    unfold d_reg. unfold Fidelity.reg_good in Ga. rewrite Ga, <- Ea. cbn [guard obind d_one]. rewrite <- (tseq_ret_r (t_enc_o 88 _)).
    apply (go_o [] pfx0 0x58 RexNone _ []); [pf|tauto|exact Ra|exact I|].
    intros ri Hw Hb _. eexists _, _. split; [reflexivity|]. split; [apply same_refl|]. intro rest.
    rewrite dec_58 by lia. rewrite Hb, div8. reflexivity.
  - md (RmInd ma) (ModDigit 0) (dig 0 Pop).
Qed.

(** *** setcc, cmovcc, branches *)
Ltac g1out Ht := texec Ht; injection Ht as <-; rewrite ?tseq_ret_r; apply inl_done.
Lemma setcc_out c a t : rm_good a ->
  t_exec ev lenv r0 (g1 (GEncMByte [0x0f; 0x90 + cond_code c] (grm_of_rm a))) = Some t ->
  outcome t (d_one (Setcc (cc_of c)) W8 (d_rm val rel W8 (tm a))).
Proof.
  intros Ga Ht. g1out Ht. apply pre0.
  eapply (cls_m [] pfx0 _ _ _ r0) with (b := a) (mm := ModReg 0) (mf := fun _ => Some (Setcc (cc_of c)));
   [pf|vm_compute; auto|pfree|assumption|cbn [mm_ok mm_reg]; unfold reg_ok; lia|reflexivity|discriminate|].
  destruct c; opc.
Qed.
Lemma cmov_out sz c a b g t : reg_good a -> rm_good b ->
  compile (ICmovcc sz c a b) = Some g -> t_exec ev lenv r0 g = Some t ->
  outcome t (denote val rel (taken val (ICmovcc sz c a b))).
Proof.
  intros Ga Gb Hc Ht. cbn [taken denote]. destruct sz; try discriminate Hc; injection Hc as <-; g1out Ht; cbn [width_of].
  - apply pre0. eapply cls_rm; [pf|vm_compute; auto|pfree|assumption|pfree|assumption|discriminate|discriminate|destruct c; opc].
  - apply pre0. eapply cls_rm; [pf|vm_compute; auto|pfree|assumption|pfree|assumption|discriminate|discriminate|destruct c; opc].
  - apply pre1. eapply cls_rm; [pf|vm_compute; auto|pfree|assumption|pfree|assumption|discriminate|discriminate|destruct c; opc].
Qed.
Lemma count_out sz op m a b g t : reg_good a -> rm_good b ->
  (op, m) = (0xbc, Tzcnt) \/ (op, m) = (0xbd, Lzcnt) \/ (op, m) = (0xb8, Popcnt) ->
  count_op sz op a b = Some g -> t_exec ev lenv r0 g = Some t ->
  outcome t (d_two m (width_of sz) (d_reg val (width_of sz) (tr a)) (d_rm val rel (width_of sz) (tm b))).
Proof.
  intros Ga Gb Ho Hc Ht. destruct sz; try discriminate Hc; injection Hc as <-; g1out Ht; cbn [width_of]; apply pre1;
    destruct Ho as [E|[E|E]]; injection E as -> ->;
    (eapply cls_rm; [pf|vm_compute; auto|pfree|assumption|pfree|assumption|discriminate|discriminate|opc]).
Qed.
Lemma rel_bytes bs m l bw : Forall is_byte bs ->
  (forall rest, decode (bs ++ rest) = form_rel m 4 rest) ->
  done (tseq (tbytes bs) (titem (IRel bw l 4))) (Some (mkIns m W64 [ORel (i32 (f l))])).
Proof.
  intros Hb Hd. apply (go_bytes bs [IRel bw l 4] (mkIns m W64 [ORel (i32 (f l))])); [exact Hb|cbn; auto|reflexivity|].
  intro rest. rewrite Hd. unfold form_rel. cbn [flat flat_map item_bytes]. rewrite app_nil_r, take_s_4f. reflexivity.
Qed.
Lemma jcc_out c l t : t_exec ev lenv r0 (g1 (GEncD [0x0f; 0x80 + cond_code c] l)) = Some t ->
  outcome t (denote val rel (taken val (IJcc c l))).
Proof.
  intro Ht. g1out Ht. cbn [taken denote]. unfold t_enc_d. apply rel_bytes.
  - destruct c; repeat constructor; unfold is_byte, cond_code; lia.
  - destruct c; intro; reflexivity.
Qed.
Definition dest_good (d : dest) : Prop :=
  match d with DestReg n => reg_good (RReg n) | DestInd a => rm_good (RmInd a) | _ => True end.
Lemma jmp_out d g t : dest_good d -> compile (IJmp d) = Some g -> t_exec ev lenv r0 g = Some t ->
  outcome t (denote val rel (taken val (IJmp d))).
Proof.
  intros Gd Hc Ht. destruct d as [n|l|e|a]; try discriminate Hc; injection Hc as <-; cbn [taken taken_dest denote d_dest].
  - g1out Ht. apply pre0. md (RmReg (RReg n)) (ModDigit 4) (dig 4 Jmp).
  - g1out Ht. apply rel_bytes; [repeat constructor; unfold is_byte; lia|]. intro; reflexivity.
  - g1out Ht. apply pre0. md (RmInd a) (ModDigit 4) (dig 4 Jmp).
Qed.
Lemma call_out d g t : dest_good d -> compile (ICall d) = Some g -> t_exec ev lenv r0 g = Some t ->
  outcome t (denote val rel (taken val (ICall d))).
Proof.
  intros Gd Hc Ht. destruct d as [n|l|e|a]; injection Hc as <-; cbn [taken taken_dest denote d_dest].
  - g1out Ht. apply pre0. md (RmReg (RReg n)) (ModDigit 2) (dig 2 Call).
  - cbn [t_exec t_call g1 g2] in Ht. destruct (list_eq_dec Z.eq_dec [0;0;0;0] [0;0;0;0]) as [_|K]; [|congruence].
    injection Ht as <-. rewrite tseq_ret_r. apply inl_done. apply (rel_bytes [0xe8]); [repeat constructor; unfold is_byte; lia|]. intro; reflexivity.
  - texec Ht. change (the_imm (env_set "imm" (i64 (eval ev r0 e)) r0)) with (i64 (val e)) in Ht.
    destruct (in_i32 (i64 (eval ev r0 e))) eqn:E32; injection Ht as <-; rewrite ?tseq_ret_r.
    + apply inl_done. cbn [guard obind].
      apply (go_bytes [0xe8] [IL (u32 (i64 (val e)))] (mkIns Call W64 [ORel (i64 (val e))]));
        [repeat constructor; unfold is_byte; lia|cbn; auto|reflexivity|].
      intro rest. cbn [flat flat_map item_bytes app]. rewrite app_nil_r.
      change (decode (0xe8 :: le 4 (u32 (i64 (val e))) ++ rest)) with (form_rel Call 4 (le 4 (u32 (i64 (val e))) ++ rest)).
      unfold form_rel. rewrite take_s_4 by assumption. reflexivity.
    + right. split; reflexivity.
  - g1out Ht. apply pre0. md (RmInd a) (ModDigit 2) (dig 2 Call).
Qed.

(** *** roundpd *)
Definition no_rel (its : list item) : Prop := Forall (fun i => match i with IRel _ _ _ => False | _ => True end) its.
Lemma no_rel_ok its : no_rel its -> rel_ok its.
Proof. induction 1 as [|i l Hi _ IH]; cbn [rel_ok]; [exact I|]. split; [destruct i; tauto|exact IH]. Qed.
Lemma no_rel_tseq a b : no_rel (fst a) -> no_rel (fst b) -> no_rel (fst (tseq a b)).
Proof. intros. unfold tseq. destruct (snd a); cbn [fst]; [assumption|]. apply Forall_app; auto. Qed.
Definition disp_label (d : disp) : bool := match d with DLabel _ => true | _ => false end.
Lemma no_rel_bytes bs : no_rel (map IB bs). Proof. induction bs; constructor; [exact I|assumption]. Qed.
Lemma no_rel_rex rk a b c m : no_rel (fst (t_rex_fn rk a b c m)).
Proof.
  destruct rk; cbn [t_rex_fn]; unfold t_rexw, t_rex_none, t_rex_none_byte, t_rex;
    repeat match goal with |- context [if ?b then _ else _] => destruct b end; repeat constructor.
Qed.
Lemma no_rel_sib k a b : no_rel (fst (t_sib k a b)).
Proof. unfold t_sib, tassert. destruct (k <? 4), (a <? 16); repeat constructor. Qed.
Lemma no_rel_di d i : disp_label d = false -> no_rel (fst (t_disp_imm d i)).
Proof. intro H. unfold t_disp_imm. apply no_rel_tseq; [destruct d|destruct i]; try discriminate; repeat constructor. Qed.
Lemma no_rel_encode op rk mm r i : disp_label (mode_disp (rm_mode r)) = false -> no_rel (fst (t_encode op rk mm r i)).
Proof.
  intro H. unfold t_encode. apply no_rel_tseq; [unfold tassert; destruct (negb _); constructor|].
  destruct r as [b [|[|k x] [|d|d|l]]]; cbn [rm_base rm_mode mode_disp mode_scale scale_index disp_label rip_ind_from] in *; try discriminate;
  repeat match goal with |- context [if ?b then _ else _] => destruct b end;
  repeat first [apply no_rel_tseq | apply no_rel_rex | apply no_rel_sib | apply (no_rel_bytes op)
    | (unfold tassert; match goal with |- no_rel (fst (if ?c then _ else _)) => destruct c end; constructor) | (apply no_rel_di; reflexivity) | (destruct i; repeat constructor; fail) | (repeat constructor; fail)].
Qed.
Definition label_mem (a : ind_addr) : bool := match ia_disp a with PLabel _ => true | _ => false end.
Definition label_xm (b : xm_operand) : bool := match b with XmInd a => label_mem a | _ => false end.
Lemma run_rm_nolabel r b : label_xm b = false -> disp_label (mode_disp (rm_mode (run_rm ev lenv r (grm_of_xm b)))) = false.
Proof.
  destruct b as [e|a]; [reflexivity|]. cbn [label_xm grm_of_xm run_rm rm_ind rm_mode mode_disp]. unfold label_mem.
  destruct (ia_disp a); cbn [run_disp]; try discriminate; intros _; unfold from_disp;
    repeat match goal with |- context [if ?b then _ else _] => destruct b end; reflexivity.
Qed.
Lemma roundpd_t a b e t : xmm_good a -> xm_good b -> 0 <= val e <= 255 ->
  t_exec ev lenv r0 (GDo (GEmitb 0x66) (g2 (GEncMr [0x0f; 0x3a; 0x09] a (grm_of_xm b)) (GEmitbExpr e))) = Some t ->
  exists its, t = (its, None) /\ faithful f its (denote val rel (taken val (IRoundpd a b e))) /\
    (label_xm b = false -> rel_ok its) /\ rel_late its.
Proof.
  intros Ga Gb He Ht. texec Ht. injection Ht as <-. rewrite ?tseq_ret_r.
  destruct (xmm_bridge ev r0 r0 a (agree0 _) Ga) as [Ea Ra]. destruct (xm_bridge ev lenv f r0 r0 b (agree0 _) Gb) as [Kb Eb].
  destruct (decode_encode f [0x66] (mkPfx true RepNone) 0x0f [0x3a; 0x09] RexNone (ModReg (run_reg ev r0 a)) (run_rm ev lenv r0 (grm_of_xm b)) ImmNone) as (its & ri & tail & [T L D K]);
    [pf|vm_compute; auto|exact Ra|exact Kb|].
  rewrite T. exists ([IB 0x66] ++ its ++ [IB (val e)]). split; [reflexivity|]. split; [|split].
  - cbn [taken denote]. rewrite Eb. unfold d_xmm. unfold Fidelity.xmm_good in Ga. rewrite Ga, <- Ea. cbn [guard obind].
    assert (Er : (0 <=? val e) && (val e <=? 255) = true) by lia. rewrite Er. cbn [guard obind].
    eapply faithful_intro; [reflexivity|]. intro rest.
    rewrite !flat_app. rewrite <- !app_assoc. change (flat f [IB 0x66]) with [0x66]. rewrite D.
    change (flat f (imm_items ImmNone)) with (@nil Z). cbn [map app]. cw. change (u8 58) with 58. change (u8 9) with 9.
    change (decode_op (mkPfx true RepNone) ri (15 :: 58 :: 9 :: tail ++ flat f [IB (val e)] ++ rest)) with
      (obind (parse_modrm ri (tail ++ flat f [IB (val e)] ++ rest)) (fun x =>
          obind (take_u 1 (snd x)) (fun i =>
            Some (mkIns Roundpd W64 [OXmm (mr_reg (fst x)); xmo (mr_rm (fst x)); OImm (fst i)], snd i)))).
    rewrite (dh_parse _ _ _ _ _ _ K). cbn [obind fst snd mr_reg mr_rm mm_reg].
    cbn [flat flat_map item_bytes app]. rewrite take_u_1. cbn [obind fst snd]. rewrite u8_id by (unfold is_byte; lia). reflexivity.
  - intro Hl. apply no_rel_ok. constructor; [exact I|]. apply Forall_app. split; [|repeat constructor].
    pose proof (no_rel_encode [0x0f; 0x3a; 0x09] RexNone (ModReg (run_reg ev r0 a)) _ ImmNone (run_rm_nolabel r0 b Hl)) as H.
    rewrite T in H. exact H.
  - exists ([IB 0x66] ++ its), (val e). split; [apply app_assoc|]. cbn [app rel_ok]. auto.
Qed.

(** *** SSE *)
Ltac xx P := apply P; eapply cls_xx; [pf|vm_compute; auto|pfree|assumption|pfree|assumption|opc].
Lemma movsd_out a b g t : xm_good a -> xm_good b -> compile (IMovsd a b) = Some g -> t_exec ev lenv r0 g = Some t ->
  outcome t (denote val rel (taken val (IMovsd a b))).
Proof.
  intros Ga Gb Hc Ht. cbn [taken denote]. destruct a as [xa|ma].
  - injection Hc as <-. g1out Ht. cbn [taken_xm is_mem_xm andb negb guard obind]. apply pre1.
    eapply (cls_xx [0xf2] (mkPfx false RepF2) _ _ _ r0) with (a := xa) (b := b); [pf|vm_compute; auto|pfree|assumption|pfree|assumption|opc].
  - destruct b as [xb|mb]; [|discriminate Hc]. injection Hc as <-. g1out Ht. cbn [taken_xm is_mem_xm andb negb guard obind]. apply pre1.
    eapply (cls_xx_rev [0xf2] (mkPfx false RepF2) _ _ _ r0) with (a := xb) (b := XmInd ma); [pf|vm_compute; auto|pfree|assumption|pfree|assumption|opc].
Qed.

(** *** All instructions *)
(** the immediate of roundpd is a u8 (checked by the Rust compiler) *)
Definition typed (i : inst) : Prop := match i with IRoundpd _ _ e => 0 <= val e <= 255 | _ => True end.
Definition known_bad (i : inst) : bool :=
  match i with ICvttsd2siq _ _ => true | IRoundpd _ b _ => label_xm b | _ => false end.

Ltac dall := repeat match goal with
  | H : Forall _ (_ ++ _) |- _ => apply Forall_app in H; destruct H
  | H : Forall _ (_ :: _) |- _ => apply Forall_cons_iff in H; destruct H
  | H : Forall _ [] |- _ => clear H end.
Lemma rm_good_of a : Forall reg_good (rm_regs a) ->
  Forall mem_good (rm_mems a) -> rm_good a.
Proof. destruct a; cbn [rm_regs rm_mems Fidelity.rm_good]; intros; dall; assumption. Qed.
Lemma rmi_good_of a : Forall reg_good (rmi_regs a) ->
  Forall mem_good (rmi_mems a) -> rmi_good a.
Proof. destruct a; cbn [rmi_regs rmi_mems rmi_good Fidelity.rm_good]; intros; dall; auto. Qed.
Lemma ri_good_of a : Forall reg_good (ri_regs a) -> ri_good a.
Proof. destruct a; cbn [ri_regs ri_good Fidelity.rm_good]; intros; dall; auto. Qed.
Lemma xm_good_of a : Forall xmm_good (xm_xmms a) ->
  Forall mem_good (xm_mems a) -> xm_good a.
Proof. destruct a; cbn [xm_xmms xm_mems Fidelity.xm_good]; intros; dall; auto. Qed.
Lemma mov_good_of a : Forall reg_good (mov_regs a) -> Forall xmm_good (mov_xmms a) ->
  Forall mem_good (mov_mems a) -> mov_good a.
Proof. destruct a; cbn [mov_regs mov_xmms mov_mems mov_good Fidelity.rm_good]; intros; dall; auto. Qed.
Hint Resolve rm_good_of rmi_good_of ri_good_of xm_good_of mov_good_of : good.

Lemma free_of i es : imm_free ev r0 i -> (forall e, In e es -> In e (addr_exprs i)) -> free es.
Proof. intros H K v e He. apply H, K, He. Qed.
Ltac frees := eapply free_of; [eassumption|]; unfold addr_exprs, regs_of, xmms_of, mems_of; cbn [operands fst snd];
  rewrite ?flat_map_app;
  match goal with a : rm_operand |- context [rm_exprs ?a] => destruct a | a : mov_operand |- context [mov_exprs ?a] => destruct a end;
  cbn [rm_exprs mov_exprs rm_regs rm_mems mov_regs mov_xmms mov_mems flat_map app]; intros ? ?; rewrite ?app_nil_r, ?in_app_iff; 
  cbn [In] in *; rewrite ?in_app_iff; tauto.

(** [cvttsd2siq] is assembled as the 32-bit conversion. *)
Lemma cvttsd2siq_t a b g t : reg_good a -> xm_good b ->
  compile (ICvttsd2siq a b) = Some g -> t_exec ev lenv r0 g = Some t ->
  done t (d_two (Cvttf2si SD) W32 (d_reg val W32 (tr a)) (d_xm val rel (txm b))).
Proof.
  intros Ga Gb Hc Ht. injection Hc as <-. cbn [t_exec t_call g1 g2] in Ht. rewrite ?tseq_ret_r in Ht. injection Ht as <-.
  apply pre1. eapply cls_rx; [pf|vm_compute; auto|pfree|assumption|pfree|assumption|opc].
Qed.

Theorem inst_outcome_t i g t : is_instr i = true -> known_bad i = false -> typed i ->
  operands_taken ev lenv f r0 i -> imm_free ev r0 i -> compile i = Some g -> t_exec ev lenv r0 g = Some t ->
  outcome t (denote val rel (taken val i)).
Proof.
  intros Hi Hb Hty (O1 & O2 & O3) Hf Hc Ht. unfold xmms_of, mems_of in O2, O3.
  destruct i; try discriminate Hi; try discriminate Hb; cbn [checked_regs] in O1; unfold regs_of in O1; cbn [operands fst snd] in O1, O2, O3; dall.
  - eapply movq_out; eauto with good; frees.
  - eapply movl_out; eauto with good; frees.
  - eapply movw_out; eauto with good; frees.
  - eapply movb_out; eauto with good; frees.
  - injection Hc as <-; g1out Ht. apply pre0. eapply cls_rm; [pf|vm_compute; auto|pfree|assumption|pfree|auto with good|discriminate|discriminate|opc].
  - injection Hc as <-; g1out Ht. apply pre0. eapply cls_rm; [pf|vm_compute; auto|pfree|assumption|pfree|auto with good|discriminate|discriminate|opc].
  - injection Hc as <-; g1out Ht. apply pre0. eapply cls_rm; [pf|vm_compute; auto|pfree|assumption|pfree|auto with good|discriminate|discriminate|opc].
  - injection Hc as <-; g1out Ht. apply pre0. eapply cls_rm; [pf|vm_compute; auto|pfree|assumption|pfree|auto with good|discriminate|discriminate|opc].
  - injection Hc as <-; g1out Ht. apply pre0. eapply cls_rm; [pf|vm_compute; auto|pfree|assumption|pfree|auto with good|discriminate|discriminate|opc].
  - eapply (alu_out sz 0); eauto with good; [lia|frees].
  - eapply (alu_out sz 5); eauto with good; [lia|frees].
  - eapply (alu_out sz 2); eauto with good; [lia|frees].
  - eapply (alu_out sz 3); eauto with good; [lia|frees].
  - eapply (alu_out sz 4); eauto with good; [lia|frees].
  - eapply (alu_out sz 1); eauto with good; [lia|frees].
  - eapply (alu_out sz 6); eauto with good; [lia|frees].
  - eapply (alu_out sz 7); eauto with good; [lia|frees].
  - eapply xchg_out; eauto with good.
  - injection Hc as <-; g1out Ht. apply pre0. cbn [taken denote]. pose proof (rm_good_of a ltac:(assumption) ltac:(assumption)). md a (ModDigit 3) grp3.
  - eapply (shift_out sz 4); eauto with good; [lia|frees].
  - eapply (shift_out sz 5); eauto with good; [lia|frees].
  - eapply (shift_out sz 4); eauto with good; [lia|frees].
  - eapply (shift_out sz 7); eauto with good; [lia|frees].
  - eapply (shift_out sz 0); eauto with good; [lia|frees].
  - eapply (shift_out sz 1); eauto with good; [lia|frees].
  - (* imul *) destruct a as [e|ra|ma]; try discriminate Hc. cbn [rmi_regs rmi_mems] in *; dall.
    destruct b as [e|rb|mb]; try discriminate Hc; injection Hc as <-; g1out Ht; apply pre0; cbn [taken taken_rmi denote rmi_regs rmi_mems] in *; dall.
    + eapply (cls_rm [] pfx0 _ _ _ r0) with (w := W64) (ws := W64) (a := ra) (b := RmReg rb); [pf|vm_compute; auto|pfree|assumption|pfree|assumption|discriminate|discriminate|opc].
    + eapply (cls_rm [] pfx0 _ _ _ r0) with (w := W64) (ws := W64) (a := ra) (b := RmInd mb); [pf|vm_compute; auto|pfree|assumption|pfree|assumption|discriminate|discriminate|opc].
  - injection Hc as <-; g1out Ht. apply pre0. cbn [taken denote]. pose proof (rm_good_of a ltac:(assumption) ltac:(assumption)). md a (ModDigit 7) grp3.
  - injection Hc as <-; g1out Ht. apply pre0. cbn [taken denote]. pose proof (rm_good_of a ltac:(assumption) ltac:(assumption)). md a (ModDigit 7) grp3.
  - injection Hc as <-; g1out Ht. apply pre0. cbn [taken denote]. pose proof (rm_good_of a ltac:(assumption) ltac:(assumption)). md a (ModDigit 6) grp3.
  - injection Hc as <-; g1out Ht. apply pre0. cbn [taken denote]. pose proof (rm_good_of a ltac:(assumption) ltac:(assumption)). md a (ModDigit 6) grp3.
  - (* lea *) destruct a as [ra|ma]; [|discriminate Hc]. destruct b as [rb|mb]; [discriminate Hc|].
    injection Hc as <-; g1out Ht; apply pre0; cbn [taken taken_rm denote rm_regs rm_mems] in *; dall.
    match goal with Ga : reg_good ra, Gm : mem_good mb |- _ =>
      destruct (reg_bridge ev r0 r0 ra (agree0 _) Ga) as [Ea Ra]; destruct (mem_bridge ev lenv f r0 r0 mb (agree0 _) Gm) as [Kb (m & Em & Es)];
      rewrite Em; unfold d_reg; unfold Fidelity.reg_good in Ga; rewrite Ga, <- Ea; cbn [guard obind d_two] end.
    eapply go_enc; [pf|vm_compute; auto|exact Ra|exact Kb|]. intros ri tail D. eexists _, _. split; [reflexivity|]. split; [apply same_refl|].
    intro rest. change (flat f (imm_items ImmNone)) with (@nil Z). cw. cbn [map app].
    change (decode_op pfx0 ri (141 :: tail ++ rest)) with (if is_mem_modrm (tail ++ rest) then form_rm Lea (opw pfx0 ri) (opw pfx0 ri) ri (tail ++ rest) else None).
    cbn [grm_of_rm run_rm] in Es. rewrite (f_is_mem f _ _ ri tail _ rest D), Es. rewrite opw_w by apply (dh_w _ _ _ _ _ _ D).
    rewrite (f_rm f _ _ ri tail Lea W64 W64 _ rest D) by discriminate. rewrite Es. reflexivity.
  - eapply testq_out; eauto with good; frees.
  - eapply testb_out; eauto with good; frees.
  - injection Hc as <-. eapply setcc_out; eauto with good.
  - eapply cmov_out; eauto with good.
  - injection Hc as <-; g1out Ht. exists [IB 0x48; IB 0x99]. split; [reflexivity|]. split; [|cbn; auto]. eapply faithful_intro; reflexivity.
  - injection Hc as <-; g1out Ht. exists [IB 0x99]. split; [reflexivity|]. split; [|cbn; auto]. eapply faithful_intro; reflexivity.
  - eapply movsd_out; eauto with good.
  - injection Hc as <-; g1out Ht. pose proof (xm_good_of b ltac:(assumption) ltac:(assumption)). xx pre1.
  - injection Hc as <-; g1out Ht. pose proof (xm_good_of b ltac:(assumption) ltac:(assumption)). xx pre1.
  - injection Hc as <-; g1out Ht. pose proof (xm_good_of b ltac:(assumption) ltac:(assumption)). xx pre1.
  - injection Hc as <-; g1out Ht. pose proof (xm_good_of b ltac:(assumption) ltac:(assumption)). xx pre1.
  - injection Hc as <-; g1out Ht. pose proof (xm_good_of b ltac:(assumption) ltac:(assumption)). xx pre0.
  - injection Hc as <-; g1out Ht. pose proof (xm_good_of b ltac:(assumption) ltac:(assumption)). xx pre1.
  - injection Hc as <-; g1out Ht. pose proof (xm_good_of b ltac:(assumption) ltac:(assumption)). xx pre1.
  - injection Hc as <-; g1out Ht. pose proof (xm_good_of b ltac:(assumption) ltac:(assumption)). xx pre1.
  - injection Hc as <-; g1out Ht. pose proof (xm_good_of b ltac:(assumption) ltac:(assumption)). xx pre1.
  - injection Hc as <-; g1out Ht. pose proof (xm_good_of b ltac:(assumption) ltac:(assumption)). xx pre1.
  - (* roundpd *) injection Hc as <-. destruct (roundpd_t a b i t) as (its & E & F & R & _); eauto with good.
    left. exists its. auto.
  - injection Hc as <-; g1out Ht. apply pre1. eapply cls_xr; [pf|vm_compute; auto|pfree|assumption|pfree|auto with good|opc].
  - injection Hc as <-; g1out Ht. pose proof (xm_good_of b ltac:(assumption) ltac:(assumption)). xx pre1.
  - injection Hc as <-; g1out Ht. pose proof (xm_good_of b ltac:(assumption) ltac:(assumption)). xx pre1.
  - eapply push_out; eauto with good.
  - eapply pop_out; eauto with good.
  - eapply jmp_out; eauto. destruct d; cbn [dest_good fst snd Fidelity.rm_good] in *; dall; auto.
  - injection Hc as <-. eapply jcc_out; eauto.
  - eapply call_out; eauto. destruct d; cbn [dest_good fst snd Fidelity.rm_good] in *; dall; auto.
  - injection Hc as <-; g1out Ht. exists [IB 0xc9]. split; [reflexivity|]. split; [|cbn; auto]. eapply faithful_intro; reflexivity.
  - injection Hc as <-; g1out Ht. exists [IB 0xc3]. split; [reflexivity|]. split; [|cbn; auto]. eapply faithful_intro; reflexivity.
  - injection Hc as <-; g1out Ht. exists [IB 0x0f; IB 0x05]. split; [reflexivity|]. split; [|cbn; auto]. eapply faithful_intro; reflexivity.
  - eapply (count_out sz 0xbd Lzcnt); eauto with good.
  - eapply (count_out sz 0xbc Tzcnt); eauto with good.
  - eapply (count_out sz 0xb8 Popcnt); eauto with good.
  - injection Hc as <-; g1out Ht. exists [IB 0xcc]. split; [reflexivity|]. split; [|cbn; auto]. eapply faithful_intro; reflexivity.
Qed.

Definition operands_ok (i : inst) : Prop := written_ok ev r0 rel i.
Lemma ok_taken i : operands_ok i -> operands_taken ev lenv f r0 i.
Proof.
  intros (O1 & O2 & O3). split; [|split].
  - assert (H : Forall reg_good (regs_of i)) by (eapply Forall_impl; [|exact O1]; intros x Hx; exact (proj1 (plain_reg ev r0 rel x Hx))).
    unfold regs_of in H. destruct i; cbn [checked_regs]; unfold regs_of; try exact H; cbn [operands fst snd] in H; dall; assumption.
  - eapply Forall_impl; [|exact O2]. intros x Hx. exact (proj1 (plain_xmm ev r0 rel x Hx)).
  - eapply Forall_impl; [|exact O3]. intros x Hx. destruct (plain_mem ev r0 rel x Hx) as [A B]. split; [exact A|rewrite B; exact Hx].
Qed.

Theorem inst_outcome i g t : is_instr i = true -> known_bad i = false -> typed i ->
  operands_ok i -> imm_free ev r0 i -> compile i = Some g -> t_exec ev lenv r0 g = Some t ->
  outcome t (denote val rel i).
Proof. intros. rewrite <- denote_taken by assumption. eapply inst_outcome_t; eauto using ok_taken. Qed.
Lemma cvttsd2siq_out a b g t : operands_ok (ICvttsd2siq a b) ->
  compile (ICvttsd2siq a b) = Some g -> t_exec ev lenv r0 g = Some t ->
  done t (d_two (Cvttf2si SD) W32 (d_reg val W32 a) (d_xm val rel b)).
Proof.
  intros Ho Hc Ht. destruct (ok_taken _ Ho) as (G1 & G2 & G3). destruct Ho as (O1 & O2 & O3).
  unfold checked_regs, regs_of, xmms_of, mems_of in *. cbn [operands fst snd] in *. dall.
  rewrite <- (plain_reg_eq ev r0 rel), <- (plain_xm ev r0 rel) by assumption. eapply cvttsd2siq_t; eauto with good.
Qed.
End Inst.
