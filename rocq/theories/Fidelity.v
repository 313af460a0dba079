(** Instruction-level fidelity: the bytes generated for an instruction decode to
    the instruction it denotes. *)
From Verif Require Import Base ModelMem ModelEnc ModelSyntax ModelMacro SpecX86 SpecAsm SpecTaken Trace Emit EncDec.
Ltac Zify.zify_post_hook ::= Z.div_mod_to_equations.

Definition plain (w : width) (x : rmop) : operand := match x with RmR n => OReg w n | RmM a => OMem a end.

Section Fid.
Variable ev : list tok -> env -> Z.
Variable lenv : string -> label.
Variable f : label -> Z.          (* contents of the label fields *)
Variable r0 : env.                (* environment of the caller *)
Notation val := (eval ev r0).
Notation rel := (fun x => i32 (f (lenv x))).

(** As the assembler takes them, register and xmm numbers are 0..15 and memory
    operands are encodable. *)
Definition scale_ok (a : ind_addr) : Prop := match ia_scale a with PScaleNone => True | PS1 k _ => 0 <= k <= 3 end.
Definition reg_good (x : register) : Prop := is_gpr (reg_no val (taken_reg val x)) = true.
Definition xmm_good (e : expr) : Prop := is_gpr (val (taken_xmm val e)) = true.
Definition mem_good (a : ind_addr) : Prop := scale_ok a /\ d_mem val rel (taken_mem val a) <> None.
(** The register of a shift count is only compared with cl. *)
Definition checked_regs (i : inst) : list register :=
  match i with
  | IShl _ a _ | IShr _ a _ | ISal _ a _ | ISar _ a _ | IRol _ a _ | IRor _ a _ => rm_regs a
  | _ => regs_of i
  end.
Definition operands_taken (i : inst) : Prop :=
  Forall reg_good (checked_regs i) /\ Forall xmm_good (xmms_of i) /\ Forall mem_good (mems_of i).
(** Register numbers and displacements do not mention a variable called imm. *)
Definition imm_free (i : inst) : Prop :=
  forall v e, In e (addr_exprs i) -> eval ev (env_set "imm" v r0) e = val e.

(** [r] agrees with the caller's environment on [es]. *)
Definition agree (r : env) (es : list expr) : Prop := forall e, In e es -> eval ev r e = val e.

Lemma agree_self es : agree r0 es. Proof. intros e _; reflexivity. Qed.
Lemma agree_app r a b : agree r (a ++ b) <-> agree r a /\ agree r b.
Proof. unfold agree. split; [intro H; split; intros; apply H, in_or_app; auto|]. intros [H K] e He. apply in_app_or in He. destruct He; auto. Qed.

Lemma taken_u8 n : is_gpr (reg_taken n) = true -> reg_ok (reg_from n) /\ reg_from n mod 16 = reg_taken n.
Proof.
  unfold is_gpr, reg_taken, reg_from, u8, reg_ok. intro. destruct (n mod 256 =? 16) eqn:E; [discriminate|].
  split; [lia|]. lia.
Qed.
Lemma reg_eval r x : agree r (reg_exprs x) -> eval ev r (greg_of x) = reg_no val x.
Proof. intro Ha. destruct x; cbn [greg_of reg_no eval]; [reflexivity|]. apply Ha. cbn. auto. Qed.
Lemma reg_bridge r x : agree r (reg_exprs x) -> reg_good x ->
  run_reg ev r (greg_of x) mod 16 = reg_no val (taken_reg val x) /\ reg_ok (run_reg ev r (greg_of x)).
Proof.
  intros Ha Hg. unfold run_reg. rewrite reg_eval by exact Ha. destruct (taken_u8 _ Hg). auto.
Qed.
Lemma xmm_bridge r e : agree r [e] -> xmm_good e ->
  run_reg ev r e mod 16 = val (taken_xmm val e) /\ reg_ok (run_reg ev r e).
Proof. intros Ha Hg. unfold run_reg. rewrite (Ha e) by (cbn; auto). destruct (taken_u8 _ Hg). auto. Qed.

Lemma wrap32_i32 v : wrap32 v = i32 v. Proof. reflexivity. Qed.
Lemma from_disp_sem d : disp_ok (from_disp d) /\ disp_val f (from_disp d) = i32 d.
Proof.
  unfold from_disp. destruct (d =? 0) eqn:E; [cbn [disp_ok disp_val]; split; [exact I|]; assert (d = 0) by lia; subst; reflexivity|].
  destruct (in_i8 d) eqn:E8; cbn [disp_ok disp_val]; auto. split; [exact E8|]. rewrite i32_id; [reflexivity|].
  unfold in_i8, in_i32 in *. lia.
Qed.
Lemma i32_neg v : i32 (- i32 v) = i32 (- v).
Proof.
  unfold i32, signed. 
  assert (E : (- (if v mod 4294967296 <? 4294967296 / 2 then v mod 4294967296 else v mod 4294967296 - 4294967296)) mod 4294967296
    = (- v) mod 4294967296) by (destruct (_ <? _) eqn:E; lia).
  rewrite E. reflexivity.
Qed.
Lemma i32_i32 v : i32 (i32 v) = i32 v. Proof. apply i32_id, i32_in. Qed.
Lemma disp_bridge r d : agree r (disp_exprs d) ->
  disp_ok (run_disp ev lenv r d) /\ d_disp val rel (taken_disp val d) = Some (disp_val f (run_disp ev lenv r d)).
Proof.
  intros Ha. destruct d as [d|neg e|l]; cbn [d_disp run_disp taken_disp] in *; rewrite ?wrap32_i32, ?i32_in; cbn [guard obind].
  - destruct (from_disp_sem d) as [H ->]. auto.
  - assert (Ee : eval ev r e = val e) by (apply Ha; cbn; auto). rewrite Ee.
    match goal with |- context [from_disp ?x] => destruct (from_disp_sem x) as [H ->]; split; [exact H|] end.
    f_equal. destruct neg; [rewrite i32_neg|]; rewrite i32_i32; reflexivity.
  - split; [exact I|reflexivity].
Qed.

Lemma mem_bridge r a : agree r (mem_exprs a) -> mem_good a ->
  rm_ok (run_rm ev lenv r (GRmInd a)) /\
  exists m, d_mem val rel (taken_mem val a) = Some (OMem m) /\ rm_sem f (run_rm ev lenv r (GRmInd a)) = RmM m.
Proof.
  intros Ha [Hs Hn]. unfold mem_exprs in Ha. apply agree_app in Ha. destruct Ha as [Ha1 Ha].
  apply agree_app in Ha. destruct Ha as [Ha2 Ha3].
  unfold d_mem, taken_mem in *. cbn [ia_disp ia_base ia_scale reg_no] in *.
  destruct (disp_bridge r _ Ha3) as [Hdo Hdv]. rewrite Hdv in *. cbn [obind] in *.
  cbn [run_rm]. unfold rm_ind, rm_ok, rm_sem. cbn [rm_base rm_mode].
  assert (Eb : run_reg ev r (greg_of (ia_base a)) = u8 (reg_no val (ia_base a))) by (unfold run_reg; rewrite reg_eval by exact Ha1; reflexivity).
  rewrite Eb. set (b := reg_no val (ia_base a)) in *. clearbody b.
  set (d := disp_val f (run_disp ev lenv r (ia_disp a))) in *.
  assert (Hb : reg_taken b = 16 /\ u8 b = 16 \/ is_gpr (reg_taken b) = true /\ u8 b mod 16 = reg_taken b /\ reg_ok (u8 b) /\ reg_taken b <> 16).
  { unfold reg_taken, u8, is_gpr, reg_ok. destruct (b mod 256 =? 16) eqn:E; [left; lia|right]. repeat split; lia. }
  unfold scale_ok in Hs. destruct (ia_scale a) as [|k x]; cbn [run_scale taken_scale] in *.
  - destruct Hb as [[-> ->]|(G & E & K & N)].
    + change (16 =? 16) with true. cbv iota. split; [split; [lia|exact Hdo]|]. eauto.
    + replace (reg_taken b =? 16) with false by lia. rewrite G. cbn [guard obind]. 
      replace (u8 b =? 16) with false by (destruct K; lia). rewrite E.
      split; [split; [apply K|exact Hdo]|]. eauto.
  - assert (Ex : run_reg ev r (greg_of x) = u8 (reg_no val x)) by (unfold run_reg; rewrite reg_eval by exact Ha2; reflexivity).
    rewrite Ex. destruct Hb as [[Hb1 Hb2]|(G & E & K & N)].
    { exfalso. apply Hn. rewrite Hb1. change (16 =? 16) with true. rewrite andb_false_r. reflexivity. }
    replace (reg_taken b =? 16) with false in * by lia. cbn [negb] in *. rewrite andb_true_r in *.
    rewrite E. fold (u8 (reg_no val x)) in *. unfold taken_index in *. fold (u8 (reg_no val x)) in *.
    set (i := u8 (reg_no val x)) in *. clearbody i.
    destruct (i =? 4) eqn:E4.
    + rewrite G. cbn [guard obind]. split; [repeat split; try apply K; try lia; exact Hdo|]. eauto.
    + cbn [reg_no] in *. rewrite G in *. destruct (is_gpr i) eqn:Ei; [|cbn [andb guard obind] in Hn; congruence].
      rewrite E4. replace ((0 <=? k) && (k <=? 3)) with true in * by lia. cbn [andb negb] in *.
      destruct (0 <=? k) eqn:Ek; [|lia]. destruct (k <=? 3) eqn:Ek2; [|lia]. cbn [andb guard obind].
      unfold is_gpr in Ei. split; [repeat split; try apply K; try lia; exact Hdo|]. eauto.
Qed.

(** rm operands *)
Definition rm_good (o : rm_operand) : Prop := match o with RmReg r => reg_good r | RmInd a => mem_good a end.
Definition rm_exprs (o : rm_operand) : list expr :=
  match o with RmReg r => reg_exprs r | RmInd a => mem_exprs a end.
Lemma rm_bridge r o : agree r (rm_exprs o) -> rm_good o ->
  rm_ok (run_rm ev lenv r (grm_of_rm o)) /\
  forall w, d_rm val rel w (taken_rm val o) = Some (plain w (rm_sem f (run_rm ev lenv r (grm_of_rm o)))).
Proof.
  destruct o as [x|a]; cbn [rm_exprs rm_good grm_of_rm taken_rm d_rm]; intros Ha Hg.
  - destruct (reg_bridge r x Ha Hg) as [E R]. cbn [run_rm]. split; [exact R|].
    intro w. unfold d_reg. rewrite Hg. unfold rm_sem, rm_reg. cbn [rm_mode rm_base]. rewrite E. reflexivity.
  - destruct (mem_bridge r a Ha Hg) as [H (m & E1 & E2)]. split; [exact H|].
    intro w. rewrite E1, E2. reflexivity.
Qed.
Definition xm_good (o : xm_operand) : Prop := match o with XmXmm e => xmm_good e | XmInd a => mem_good a end.
Definition xm_exprs (o : xm_operand) : list expr :=
  match o with XmXmm e => [e] | XmInd a => mem_exprs a end.
Lemma xm_bridge r o : agree r (xm_exprs o) -> xm_good o ->
  rm_ok (run_rm ev lenv r (grm_of_xm o)) /\
  d_xm val rel (taken_xm val o) = Some (xmo (rm_sem f (run_rm ev lenv r (grm_of_xm o)))).
Proof.
  destruct o as [x|a]; cbn [xm_exprs xm_good grm_of_xm taken_xm d_xm]; intros Ha Hg.
  - destruct (xmm_bridge r x Ha Hg) as [E R]. cbn [run_rm]. split; [exact R|].
    unfold d_xmm. rewrite Hg. unfold rm_sem, rm_reg. cbn [rm_mode rm_base]. rewrite E. reflexivity.
  - destruct (mem_bridge r a Ha Hg) as [H (m & E1 & E2)]. split; [exact H|]. rewrite E1, E2. reflexivity.
Qed.

End Fid.

Section Dec.
Variable f : label -> Z.

(** ** Decoding the generated bytes *)
Definition pfx_rel (pf : list Z) (p : pfx) : Prop :=
  pf = [] /\ p = pfx0 \/ pf = [0x66] /\ p = mkPfx true RepNone \/
  pf = [0xf2] /\ p = mkPfx false RepF2 \/ pf = [0xf3] /\ p = mkPfx false RepF3.

(** Facts about the decoder state after opcode and prefixes of an encoded instruction. *)
Record dhyp (rk : rexkind) (mm : modrm_mode) (r : rm) (ri : rexinfo) (tail : list Z) : Prop := {
  dh_w : rw ri = match rk with REXW => true | _ => false end;
  dh_parse : forall rest, parse_modrm ri (tail ++ rest) =
     Some (mkModRM (mm_reg mm) (mm_reg mm mod 8) (rm_sem f r), rest);
  dh_byte_r : rk <> RexNone -> forall n, mm = ModReg n -> byte_ok ri (n mod 16);
  dh_byte_b : rk <> RexNone -> rm_mode r = MReg -> byte_ok ri (rm_base r mod 16)
}.
Record dec_sem (pf : list Z) (p : pfx) (o : Z) (ops : list Z) (rk : rexkind) (mm : modrm_mode) (r : rm) (i : imm)
    (its : list item) (ri : rexinfo) (tail : list Z) : Prop := {
  ds_trace : t_encode (o :: ops) rk mm r i = (its, None);
  ds_rel : rel_ok its;
  ds_decode : forall more rest, decode (pf ++ flat f its ++ more ++ rest) =
     decode_op p ri (u8 o :: map u8 ops ++ tail ++ flat f (imm_items i) ++ more ++ rest);
  ds_hyp : dhyp rk mm r ri tail
}.
Lemma decode_encode pf p o ops rk mm r i : pfx_rel pf p -> plain_op (u8 o) -> mm_ok mm -> rm_ok r ->
  exists its ri tail, dec_sem pf p o ops rk mm r i its ri tail.
Proof.
  intros Hp Ho Hm Hr. destruct (encode_sem (o :: ops) rk mm r i f Hm Hr) as (its & rexb & ri & tail & [T F R W P B1 B2 L]).
  exists its, ri, tail.
  assert (Hpres : rw ri = true -> rpresent ri = true).
  { destruct R as [[_ ->]|(b & _ & _ & ->)]; cbn; congruence. }
  constructor; auto.
  - intros more rest. rewrite F. cbn [map]. rewrite <- !app_assoc. cbn [app].
    destruct Hp as [[-> ->]|[[-> ->]|[[-> ->]|[-> ->]]]]; cbn [app].
    + rewrite decode_plain with (ri := ri) by assumption. rewrite <- ?app_assoc. reflexivity.
    + rewrite decode_66 with (ri := ri) by assumption. rewrite <- ?app_assoc. reflexivity.
    + rewrite decode_f2 with (ri := ri) by assumption. rewrite <- ?app_assoc. reflexivity.
    + rewrite decode_f3 with (ri := ri) by assumption. rewrite <- ?app_assoc. reflexivity.
  - constructor; auto.
    + intros Hk n Hn. destruct rk; try congruence; [left; apply Hpres; exact W|]. apply B1; auto.
    + intros Hk Hn. destruct rk; try congruence; [left; apply Hpres; exact W|]. apply B2; auto.
Qed.

Lemma rmo_plain w ri x : (w = W8 -> forall n, x = RmR n -> byte_ok ri n) -> rmo w ri x = plain w x.
Proof.
  intro H. destruct x; [|reflexivity]. cbn [rmo plain]. destruct w; try reflexivity.
  unfold gpr. destruct (negb (rpresent ri) && (4 <=? n) && (n <=? 7)) eqn:E; [|reflexivity].
  destruct (H eq_refl n eq_refl) as [K|[K|K]]; [rewrite K in E; discriminate|lia|lia].
Qed.
Lemma gpr_plain w ri n : (w = W8 -> byte_ok ri n) -> gpr w ri n = OReg w n.
Proof. intro H. apply (rmo_plain w ri (RmR n)). intros Hw m Hm. inversion Hm; subst; auto. Qed.

(** immediates *)
Lemma ti_B v rest : in_i8 v = true -> take_s 1 (flat f (imm_items (ImmB v)) ++ rest) = Some (v, rest).
Proof. intro. cbn [imm_items t_imm fst titem flat flat_map item_bytes app]. rewrite u8_u8. apply take_s_1. assumption. Qed.
Lemma ti_W v rest : in_i16 v = true -> take_s 2 (flat f (imm_items (ImmW v)) ++ rest) = Some (v, rest).
Proof. intro. cbn [imm_items t_imm fst titem flat flat_map item_bytes app]. rewrite app_nil_r. apply take_s_2. assumption. Qed.
Lemma ti_L v rest : in_i32 v = true -> take_s 4 (flat f (imm_items (ImmL v)) ++ rest) = Some (v, rest).
Proof. intro. cbn [imm_items t_imm fst titem flat flat_map item_bytes app]. rewrite app_nil_r. apply take_s_4. assumption. Qed.
Lemma tu_B v rest : take_u 1 (flat f (imm_items (ImmB v)) ++ rest) = Some (u8 v, rest).
Proof. cbn [imm_items t_imm fst titem flat flat_map item_bytes app]. rewrite u8_u8. apply take_u_1. Qed.

(** What is to be shown of the items generated for an instruction meaning [d]. *)
Definition faithful (its : list item) (d : option ins) : Prop :=
  exists x y, d = Some x /\ same_ins x y /\ forall rest, decode (flat f its ++ rest) = Some (y, rest).

Lemma faithful_intro its d x : d = Some x -> (forall rest, decode (flat f its ++ rest) = Some (x, rest)) -> faithful its d.
Proof. intros. exists x, x. repeat split; auto using same_refl. Qed.

(** The outcome of running the code of an instruction meaning [d]: its bytes
    decode to [d] and label fields count from the end of the instruction; or [d]
    is no instruction and the immediate is rejected. *)
Definition done (t : trace) (d : option ins) : Prop :=
  exists its, t = (its, None) /\ faithful its d /\ rel_ok its.
Definition outcome (t : trace) (d : option ins) : Prop :=
  done t d \/ (d = None /\ snd t = Some ImmRange).

Lemma go_enc pf p o ops rk mm r i d :
  pfx_rel pf p -> plain_op (u8 o) -> mm_ok mm -> rm_ok r ->
  (forall ri tail, dhyp rk mm r ri tail -> exists x y, d = Some x /\ same_ins x y /\ forall rest,
     decode_op p ri (u8 o :: map u8 ops ++ tail ++ flat f (imm_items i) ++ rest) = Some (y, rest)) ->
  done (tseq (tbytes pf) (t_encode (o :: ops) rk mm r i)) d.
Proof.
  intros Hp Ho Hm Hr H.
  destruct (decode_encode pf p o ops rk mm r i Hp Ho Hm Hr) as (its0 & ri & tail & [T L D K]).
  assert (Hb : Forall is_byte pf).
  { destruct Hp as [[-> _]|[[-> _]|[[-> _]|[-> _]]]]; repeat constructor; unfold is_byte; lia. }
  destruct (H ri tail K) as (x & y & E & S & Dx). rewrite T. cbn [tseq fst snd tbytes].
  eexists. split; [reflexivity|]. split; [|apply rel_ok_bytes; exact L].
  exists x, y. split; [exact E|]. split; [exact S|].
  intro rest. rewrite !flat_app, flat_bytes, map_u8_id by assumption. rewrite <- !app_assoc.
  specialize (D [] rest). cbn [app] in D. rewrite D. apply Dx.
Qed.

(** ** Operand forms of the decoder *)
Lemma rm_sem_reg r n : rm_sem f r = RmR n -> rm_mode r = MReg /\ n = rm_base r mod 16.
Proof. unfold rm_sem. destruct (rm_mode r) as [|[] ?]; intro H; inversion H; auto. Qed.

Section Forms.
Variables (rk : rexkind) (r : rm) (ri : rexinfo) (tail : list Z).

Lemma rmo_dhyp w mm : dhyp rk mm r ri tail -> (w = W8 -> rk <> RexNone \/ rm_mode r <> MReg) ->
  rmo w ri (rm_sem f r) = plain w (rm_sem f r).
Proof.
  intros D Hw. apply rmo_plain. intros E n Hn. apply rm_sem_reg in Hn. destruct Hn as [Hn ->].
  destruct (Hw E) as [K|K]; [|congruence]. apply (dh_byte_b _ _ _ _ _ D K Hn).
Qed.
Lemma f_mr m w g rest : dhyp rk (ModReg g) r ri tail -> (w = W8 -> rk <> RexNone) ->
  form_mr m w ri (tail ++ rest) = Some (mkIns m w [plain w (rm_sem f r); OReg w (g mod 16)], rest).
Proof.
  intros D Hw. unfold form_mr. rewrite (dh_parse _ _ _ _ _ D). cbn [obind fst snd mr_rm mr_reg mm_reg].
  rewrite (rmo_dhyp w _ D) by auto. rewrite gpr_plain; [reflexivity|]. intro E. apply (dh_byte_r _ _ _ _ _ D); auto.
Qed.
Lemma f_rm m w ws g rest : dhyp rk (ModReg g) r ri tail -> (w = W8 -> rk <> RexNone) -> (ws = W8 -> rk <> RexNone) ->
  form_rm m w ws ri (tail ++ rest) = Some (mkIns m w [OReg w (g mod 16); plain ws (rm_sem f r)], rest).
Proof.
  intros D Hw Hw2. unfold form_rm. rewrite (dh_parse _ _ _ _ _ D). cbn [obind fst snd mr_rm mr_reg mm_reg].
  rewrite (rmo_dhyp ws _ D) by auto. rewrite gpr_plain; [reflexivity|]. intro E. apply (dh_byte_r _ _ _ _ _ D); auto.
Qed.
Lemma f_m mf m w mm rest : dhyp rk mm r ri tail -> mf (mm_reg mm mod 8) = Some m ->
  (w = W8 -> rk <> RexNone \/ rm_mode r <> MReg) ->
  form_m mf w ri (tail ++ rest) = Some (mkIns m w [plain w (rm_sem f r)], rest).
Proof.
  intros D Hm Hw. unfold form_m. rewrite (dh_parse _ _ _ _ _ D). cbn [obind fst snd mr_rm mr_digit].
  rewrite Hm. cbn [obind]. rewrite (rmo_dhyp w _ D) by auto. reflexivity.
Qed.
Lemma f_mi mf m w mm ti rest rest2 v : dhyp rk mm r ri tail -> mf (mm_reg mm mod 8) = Some m ->
  (w = W8 -> rk <> RexNone \/ rm_mode r <> MReg) -> ti rest = Some (v, rest2) ->
  form_mi mf w ri ti (tail ++ rest) = Some (mkIns m w [plain w (rm_sem f r); OImm v], rest2).
Proof.
  intros D Hm Hw Ht. unfold form_mi. rewrite (dh_parse _ _ _ _ _ D). cbn [obind fst snd mr_rm mr_digit].
  rewrite Hm. cbn [obind]. rewrite Ht. cbn [obind fst snd]. rewrite (rmo_dhyp w _ D) by auto. reflexivity.
Qed.
Lemma f_shift o w mm cnt rest rest2 c : dhyp rk mm r ri tail -> shf_of (mm_reg mm mod 8) = Some o ->
  w <> W8 -> cnt rest = Some (c, rest2) ->
  form_shift w ri cnt (tail ++ rest) = Some (mkIns (Shift o) w [plain w (rm_sem f r); c], rest2).
Proof.
  intros D Hm Hw Ht. unfold form_shift. rewrite (dh_parse _ _ _ _ _ D). cbn [obind fst snd mr_rm mr_digit].
  rewrite Hm. cbn [obind]. rewrite Ht. cbn [obind fst snd]. rewrite (rmo_dhyp w _ D) by congruence. reflexivity.
Qed.
Lemma f_xx m g rest : dhyp rk (ModReg g) r ri tail ->
  form_xx m ri (tail ++ rest) = Some (mkIns m W64 [OXmm (g mod 16); xmo (rm_sem f r)], rest).
Proof. intro D. unfold form_xx. rewrite (dh_parse _ _ _ _ _ D). reflexivity. Qed.
Lemma f_xx_rev m g rest : dhyp rk (ModReg g) r ri tail ->
  form_xx_rev m ri (tail ++ rest) = Some (mkIns m W64 [xmo (rm_sem f r); OXmm (g mod 16)], rest).
Proof. intro D. unfold form_xx_rev. rewrite (dh_parse _ _ _ _ _ D). reflexivity. Qed.
Lemma f_digit mm rest : dhyp rk mm r ri tail -> digit_of ri (tail ++ rest) = mm_reg mm mod 8.
Proof. intro D. rewrite (parse_digit _ _ _ (dh_parse _ _ _ _ _ D rest)). reflexivity. Qed.
Lemma f_is_mem mm rest : dhyp rk mm r ri tail ->
  is_mem_modrm (tail ++ rest) = match rm_sem f r with RmM _ => true | _ => false end.
Proof. intro D. rewrite (parse_is_mem _ _ _ (dh_parse _ _ _ _ _ D rest)). reflexivity. Qed.
Lemma f_opw p mm : dhyp rk mm r ri tail ->
  opw p ri = match rk with REXW => W64 | _ => if p66 p then W16 else W32 end.
Proof. intro D. unfold opw. rewrite (dh_w _ _ _ _ _ D). destruct rk; reflexivity. Qed.
End Forms.
End Dec.

Lemma tseq_item_l i its : tseq (titem i) (its, None) = (i :: its, None). Proof. reflexivity. Qed.
Lemma tseq_ret_r t : tseq t tret = t.
Proof. destruct t as [its [e|]]; unfold tseq, tret; cbn [fst snd]; [|rewrite app_nil_r]; reflexivity. Qed.
Lemma tseq_assoc a b c : tseq (tseq a b) c = tseq a (tseq b c).
Proof.
  destruct a as [la [e|]], b as [lb [e2|]], c as [lc [e3|]]; unfold tseq; cbn [fst snd];
    rewrite ?app_assoc; reflexivity.
Qed.

(** Evaluates the decoder on a concrete opcode. *)
Ltac cw := (* compute closed u8 *)
  repeat match goal with |- context [u8 ?c] =>
    let v := eval vm_compute in (u8 c) in
    match v with Z0 => idtac | Zpos _ => idtac end; change (u8 c) with v end.
Ltac dec :=
  cw; cbn [map];
  lazy -[form_mr form_rm form_m form_mi form_ai form_shift form_rel form_xx form_xx_rev parse_modrm
         app flat imm_items gpr rmo xmo take_s take_u take_z take_full digit_of is_mem_modrm
         Z.add Z.sub Z.mul mask rw rpresent mr_reg mr_rm mr_digit fst snd opw pfx0 dig grp3 count_imm count_1 count_cl
         rm_sem mm_reg i64 i32 alu_of].
