(** C67, part 2: every instruction. *)
From Verif Require Import Base ModelMem ModelEnc ModelSyntax ModelMacro SpecX86 SpecAsm SpecTaken SpecGas SpecState Trace Emit EncDec
  Fidelity FidelityInst StateFid EncFacts GasEnc.
Ltac Zify.zify_post_hook ::= Z.div_mod_to_equations.
Local Open Scope list_scope. Local Open Scope Z_scope.

Section Gas.
Variables (ev : list tok -> env -> Z) (lenv : string -> label) (r0 : env) (fil : label -> Z).
Notation val := (eval ev r0).
Notation rel := (fun x : string => fil (lenv x)).
Notation rm_is := (GasEnc.rm_is fil).
Notation agree := (Fidelity.agree ev r0).

Notation lab_ok := (rip_label val).

(** ** Operands *)
Lemma reg_is r x n w : agree r (reg_exprs x) -> d_reg val w x = Some n -> exists k, n = OReg w k /\ 0 <= k <= 15 /\ run_reg ev r (greg_of x) = k.
Proof.
  intros Ha Hd. unfold d_reg, guard in Hd. destruct (is_gpr (reg_no val x)) eqn:E; [|discriminate]. cbn [obind] in Hd. injection Hd as <-.
  unfold is_gpr in E. exists (reg_no val x). split; [reflexivity|]. split; [lia|].
  unfold run_reg. rewrite (reg_eval ev r0 r x Ha). unfold reg_from, u8. lia.
Qed.
Lemma xmm_is r x n : agree r [x] -> d_xmm val x = Some n -> exists k, n = OXmm k /\ 0 <= k <= 15 /\ run_reg ev r x = k.
Proof.
  intros Ha Hd. unfold d_xmm, guard in Hd. destruct (is_gpr (val x)) eqn:E; [|discriminate]. cbn [obind] in Hd. injection Hd as <-.
  unfold is_gpr in E. exists (val x). split; [reflexivity|]. split; [lia|].
  unfold run_reg. rewrite (Ha x) by (cbn; auto). unfold reg_from, u8. lia.
Qed.
Lemma disp_is r d v : agree r (disp_exprs d) -> d_disp val rel d = Some v ->
  (run_disp ev lenv r d = from_disp v /\ in_i32 v = true) \/ (exists x, d = PLabel x /\ run_disp ev lenv r d = DLabel (lenv x) /\ v = fil (lenv x)).
Proof.
  intros Ha Hd. destruct d as [d|neg e|x]; cbn [d_disp run_disp] in *.
  - unfold guard in Hd. destruct (in_i32 d) eqn:E; [|discriminate]. injection Hd as <-. left. auto.
  - assert (Ee : eval ev r e = val e) by (apply Ha; cbn; auto). rewrite Ee. unfold guard in Hd.
    left. destruct neg.
    + destruct (in_i32 (- val e)) eqn:E; [|discriminate]. injection Hd as <-. split; [|exact E].
      rewrite (i32_neg ev r0), EncDec.i32_id by exact E. reflexivity.
    + destruct (in_i32 (val e)) eqn:E; [|discriminate]. injection Hd as <-. split; [|exact E].
      rewrite EncDec.i32_id by exact E. reflexivity.
  - right. injection Hd as <-. eauto.
Qed.
Lemma mem_is r a n : agree r (mem_exprs a) -> lab_ok a -> d_mem val rel a = Some n ->
  (exists m, n = OMem m) /\ rm_is (run_rm ev lenv r (GRmInd a)) n.
Proof.
  intros Ha Hl Hd. unfold mem_exprs in Ha. apply agree_app in Ha. destruct Ha as [Ha1 Ha].
  apply agree_app in Ha. destruct Ha as [Ha2 Ha3]. unfold d_mem in Hd.
  destruct (d_disp val rel (ia_disp a)) as [d|] eqn:Ed; [|discriminate]. cbn [obind] in Hd.
  assert (Eb : run_reg ev r (greg_of (ia_base a)) = u8 (reg_no val (ia_base a))) by (unfold run_reg; rewrite (reg_eval ev r0) by exact Ha1; reflexivity).
  cbn [run_rm]. unfold rm_ind. rewrite Eb. unfold rip_label in Hl.
  destruct (disp_is r _ _ Ha3 Ed) as [[E I]|(x & E & F & ->)].
  - rewrite E. clear Hl E Ed. set (b := reg_no val (ia_base a)) in *. clearbody b.
    destruct (ia_scale a) as [|k x]; cbn [run_scale].
    + destruct (b =? 16) eqn:E16.
      * injection Hd as <-. assert (b = 16) by lia. subst b. split; [eauto|]. change (u8 16) with 16. apply ris_rip. exact I.
      * unfold guard, is_gpr in Hd. destruct ((0 <=? b) && (b <=? 15)) eqn:Eg; [|discriminate]. injection Hd as <-.
        split; [eauto|]. rewrite u8_id by (unfold is_byte; lia). apply ris_ind; [lia|exact I].
    + assert (Ex : run_reg ev r (greg_of x) = u8 (reg_no val x)) by (unfold run_reg; rewrite (reg_eval ev r0) by exact Ha2; reflexivity).
      rewrite Ex. set (i := reg_no val x) in *. clearbody i. unfold guard, is_gpr in Hd.
      destruct (_ && (k <=? 3)) eqn:Eg; [|discriminate]. injection Hd as <-. split; [eauto|].
      rewrite !u8_id by (unfold is_byte; lia). apply ris_idx; try lia. exact I.
  - rewrite E in *. rewrite F, Hl in *. destruct (ia_scale a) as [|k x']; cbn [run_scale].
    + injection Hd as <-. split; [eauto|]. change (u8 16) with 16. apply ris_lab.
    + unfold is_gpr in Hd. change ((0 <=? 16) && (16 <=? 15)) with false in Hd. discriminate Hd.
Qed.
Definition rm_lab (o : rm_operand) : Prop := match o with RmInd a => lab_ok a | _ => True end.
Definition xm_lab (o : xm_operand) : Prop := match o with XmInd a => lab_ok a | _ => True end.
Lemma rm_op r o w n : agree r (rm_exprs o) -> rm_lab o -> d_rm val rel w o = Some n ->
  ((exists k, n = OReg w k) \/ exists m, n = OMem m) /\ rm_is (run_rm ev lenv r (grm_of_rm o)) n.
Proof.
  destruct o as [x|a]; cbn [rm_exprs rm_lab d_rm grm_of_rm]; intros Ha Hl Hd.
  - destruct (reg_is r x n w Ha Hd) as (k & -> & Hk & E). split; [eauto|]. cbn [run_rm]. rewrite E. apply ris_reg. exact Hk.
  - destruct (mem_is r a n Ha Hl Hd). auto.
Qed.
Lemma xm_op r o n : agree r (xm_exprs o) -> xm_lab o -> d_xm val rel o = Some n ->
  ((exists k, n = OXmm k) \/ exists m, n = OMem m) /\ rm_is (run_rm ev lenv r (grm_of_xm o)) n.
Proof.
  destruct o as [x|a]; cbn [xm_exprs xm_lab d_xm grm_of_xm]; intros Ha Hl Hd.
  - destruct (xmm_is r x n Ha Hd) as (k & -> & Hk & E). split; [eauto|]. cbn [run_rm]. rewrite E. apply ris_xmm. exact Hk.
  - destruct (mem_is r a n Ha Hl Hd). auto.
Qed.

(** ** Forms *)
Definition canon (t : trace) (x : ins) : Prop := snd t = None -> as_gas x (flat fil (fst t)).
Definition goes (t : trace) (bs : list Z) : Prop := snd t = None /\ flat fil (fst t) = bs.
Lemma canon_goes t x bs : goes t bs -> as_gas x bs -> canon t x.
Proof. intros [_ <-] H _. exact H. Qed.
Lemma go_form pre op rk mm r m i : Forall is_byte pre -> Forall is_byte op -> mm_good mm -> rm_is r m ->
  goes (tseq (tbytes pre) (t_encode op rk mm r i)) (form pre (is_w rk) (force rk mm r) op (mm_no mm) m (flat fil (imm_items i))).
Proof.
  intros Hp Ho Hm Hr. destruct (enc_flat fil op rk mm r m i Ho Hm Hr) as (its & E & F). rewrite E.
  split; [reflexivity|]. unfold tseq, tbytes. cbn [fst snd]. rewrite flat_app, flat_bytes, map_u8_id by exact Hp. rewrite F. reflexivity.
Qed.
Lemma rex_w b c reg ix ba : 0 <= reg -> 0 <= ix -> 0 <= ba -> rex_of true b reg ix ba = rex_of true c reg ix ba.
Proof. intros. unfold rex_of. cbn [Z.b2z]. replace (0 <? _) with true by lia. reflexivity. Qed.
Lemma rm_is_nums r m : rm_is r m -> 0 <= index_of m /\ 0 <= base_of m.
Proof. intros []; cbn [index_of base_of]; lia. Qed.
(** with REX.W, [force] does not matter *)
Lemma go_w pre op mm r m i c : Forall is_byte pre -> Forall is_byte op -> mm_good mm -> rm_is r m ->
  goes (tseq (tbytes pre) (t_encode op REXW mm r i)) (form pre true c op (mm_no mm) m (flat fil (imm_items i))).
Proof.
  intros Hp Ho Hm Hr. pose proof (go_form pre op REXW mm r m i Hp Ho Hm Hr) as H. unfold form in *. cbn [is_w] in H.
  destruct (rm_is_nums _ _ Hr). rewrite (rex_w _ c) in H by (try assumption; destruct mm; cbn in *; lia). exact H.
Qed.
Lemma go_n pre op mm r m i : Forall is_byte pre -> Forall is_byte op -> mm_good mm -> rm_is r m ->
  goes (tseq (tbytes pre) (t_encode op RexNone mm r i)) (form pre false false op (mm_no mm) m (flat fil (imm_items i))).
Proof. exact (go_form pre op RexNone mm r m i). Qed.
Lemma go_b pre op mm r m i : Forall is_byte pre -> Forall is_byte op -> mm_good mm -> rm_is r m ->
  goes (tseq (tbytes pre) (t_encode op RexByte mm r i)) (form pre false (low_mm mm || low_rm r) op (mm_no mm) m (flat fil (imm_items i))).
Proof. exact (go_form pre op RexByte mm r m i). Qed.
Lemma go_op pre rk op n more imm : Forall is_byte pre -> op = 0x50 \/ op = 0x58 \/ op = 0x90 \/ op = 0xb0 \/ op = 0xb8 -> 0 <= n <= 15 ->
  flat fil more = imm ->
  goes (tseq (tbytes pre) (tseq (t_o rk op n) (more, None))) (oform pre (is_w rk) (match rk with RexByte => low4 n | _ => false end) op n imm).
Proof.
  intros Hp Ho Hn Hi. unfold t_o. rewrite rex_flat by lia. assert (E : is_rip n = false) by (unfold is_rip, rip; lia). rewrite E.
  unfold t_op_with_rd. rewrite o_bits; try assumption; [|destruct Ho as [->|[->|[->|[->| ->]]]]; reflexivity|lia].
  cbn [negb tassert]. unfold tret, titem, tbytes. unfold tseq. cbn [fst snd app]. split; [reflexivity|]. cbn [fst].
  rewrite <- !app_assoc. rewrite !flat_app, !flat_bytes, (map_u8_id pre) by exact Hp. unfold oform. f_equal.
  rewrite map_u8_id.
  - f_equal. change (flat fil [IB (op + n mod 8)]) with [u8 (op + n mod 8)]. rewrite u8_id by (unfold is_byte; lia). rewrite Hi. reflexivity.
  - unfold rex_of. match goal with |- Forall _ (if ?c then _ else _) => destruct c end; repeat constructor; unfold is_byte; destruct (is_w rk); cbn [Z.b2z]; lia.
Qed.
Lemma goes_ret t bs : goes t bs -> goes (tseq t tret) bs. Proof. rewrite tseq_ret_r. auto. Qed.
Lemma goes_pre0 t bs : goes (tseq (tbytes []) t) bs -> goes t bs.
Proof. change (tbytes []) with tret. rewrite tseq_ret_l. auto. Qed.
Lemma goes_pre1 b t bs : goes (tseq (tbytes [b]) t) bs -> goes (tseq (titem (IB b)) t) bs. Proof. auto. Qed.

Lemma fl_B v : flat fil (imm_items (ImmB v)) = le 1 v.
Proof. unfold imm_items. cbn [t_imm titem fst flat flat_map item_bytes app]. apply le1_u8. Qed.
Lemma fl_W v : flat fil (imm_items (ImmW v)) = le 2 v.
Proof. unfold imm_items. cbn [t_imm titem fst flat flat_map item_bytes app]. rewrite app_nil_r. rewrite ?le2_u16. reflexivity. Qed.
Lemma fl_L v : flat fil (imm_items (ImmL v)) = le 4 v.
Proof. unfold imm_items. cbn [t_imm titem fst flat flat_map item_bytes app]. rewrite app_nil_r. rewrite ?le4_u32. reflexivity. Qed.
Lemma fl_N : flat fil (imm_items ImmNone) = []. Proof. reflexivity. Qed.

Definition low_op (o : operand) : bool := match o with OReg _ n | OXmm n => low4 n | _ => false end.
Definition ff (rk : rexkind) (mm : modrm_mode) (o : operand) : bool :=
  match rk with RexByte => low_mm mm || low_op o | _ => false end.
Lemma low_is r o : rm_is r o -> low_rm r = low_op o. Proof. intros []; reflexivity. Qed.
Definition nums (o : operand) : Prop := 0 <= index_of o /\ 0 <= base_of o.
Lemma go_ff pre op rk mm r m i : Forall is_byte pre -> Forall is_byte op -> mm_good mm -> rm_is r m ->
  goes (tseq (tbytes pre) (t_encode op rk mm r i)) (form pre (is_w rk) (ff rk mm m) op (mm_no mm) m (flat fil (imm_items i))).
Proof. intros Hp Ho Hm Hr. unfold ff. rewrite <- (low_is _ _ Hr). apply go_form; assumption. Qed.
Lemma form_w c c' pre op n o imm : 0 <= n -> nums o -> form pre true c op n o imm = form pre true c' op n o imm.
Proof. intros Hn [H1 H2]. unfold form. rewrite (rex_w c c') by assumption. reflexivity. Qed.

(** the environments operands are evaluated in *)
Definition scope (r : env) : Prop := r = r0 \/ exists v, r = env_set "imm" v r0.
Definition always (es : list expr) : Prop := forall r, scope r -> agree r es.
Lemma sc0 : scope r0. Proof. left; reflexivity. Qed.
Lemma sc1 v : scope (env_set "imm" v r0). Proof. right; eauto. Qed.
Definition is_rm (w : width) (o : operand) : Prop := (exists k, o = OReg w k) \/ exists m, o = OMem m.
Definition is_xm (o : operand) : Prop := (exists k, o = OXmm k) \/ exists m, o = OMem m.

Section Classes.
Variables (pre op : list Z) (rk : rexkind) (r : env).
Hypothesis Hpre : Forall is_byte pre.
Hypothesis Hop : Forall is_byte op.
Hypothesis Hr : scope r.
Notation enc mm x i := (tseq (tbytes pre) (t_encode op rk mm x i)).
Ltac two H := let a := fresh "oa" in let b := fresh "ob" in
  match type of H with d_two _ _ ?p ?q = _ => destruct p as [a|] eqn:?Ha; [|discriminate H]; destruct q as [b|] eqn:?Hb; [|discriminate H];
    cbn [d_two obind] in H; injection H as <- end.
Ltac mid := match goal with H : rm_is _ ?o |- _ => pose proof (rm_is_nums _ _ H) end.

(** rm, reg *)
Lemma g_mr_of m w a b x : always (rm_exprs a) -> rm_lab a -> always (reg_exprs b) ->
  d_two m w (d_rm val rel w a) (d_reg val w b) = Some x ->
  (forall o n, d_rm val rel w a = Some o -> is_rm w o -> nums o -> 0 <= n <= 15 -> as_gas (mkIns m w [o; OReg w n]) (form pre (is_w rk) (ff rk (ModReg n) o) op n o [])) ->
  canon (enc (ModReg (run_reg ev r (greg_of b))) (run_rm ev lenv r (grm_of_rm a)) ImmNone) x.
Proof.
  intros Fa La Fb Hd Hg. two Hd. pose proof Ha as Ha'. destruct (rm_op r a w oa (Fa r Hr) La Ha) as [Ka Ia]. destruct (reg_is r b ob w (Fb r Hr) Hb) as (n & -> & Hn & ->).
  mid. eapply canon_goes; [apply (go_ff pre op rk (ModReg n) _ _ ImmNone Hpre Hop Hn Ia)|]. apply Hg; solve [assumption | reflexivity].
Qed.
Lemma g_mr m w a b x : always (rm_exprs a) -> rm_lab a -> always (reg_exprs b) ->
  d_two m w (d_rm val rel w a) (d_reg val w b) = Some x ->
  (forall o n, is_rm w o -> nums o -> 0 <= n <= 15 -> as_gas (mkIns m w [o; OReg w n]) (form pre (is_w rk) (ff rk (ModReg n) o) op n o [])) ->
  canon (enc (ModReg (run_reg ev r (greg_of b))) (run_rm ev lenv r (grm_of_rm a)) ImmNone) x.
Proof. intros Fa La Fb Hd Hg. eapply g_mr_of; try eassumption. intros o n _. apply Hg. Qed.
(** reg, rm *)
Lemma g_rm m w ws a b x : always (reg_exprs a) -> always (rm_exprs b) -> rm_lab b ->
  d_two m w (d_reg val w a) (d_rm val rel ws b) = Some x ->
  (forall o n, is_rm ws o -> nums o -> 0 <= n <= 15 -> as_gas (mkIns m w [OReg w n; o]) (form pre (is_w rk) (ff rk (ModReg n) o) op n o [])) ->
  canon (enc (ModReg (run_reg ev r (greg_of a))) (run_rm ev lenv r (grm_of_rm b)) ImmNone) x.
Proof.
  intros Fa Fb Lb Hd Hg. two Hd. destruct (rm_op r b ws ob (Fb r Hr) Lb Hb) as [Kb Ib]. destruct (reg_is r a oa w (Fa r Hr) Ha) as (n & -> & Hn & ->).
  mid. eapply canon_goes; [apply (go_ff pre op rk (ModReg n) _ _ ImmNone Hpre Hop Hn Ib)|]. apply Hg; assumption.
Qed.
(** reg, mem *)
Lemma g_rmem m w a b x : always (reg_exprs a) -> always (mem_exprs b) -> lab_ok b ->
  d_two m w (d_reg val w a) (d_mem val rel b) = Some x ->
  (forall o n, (exists m, o = OMem m) -> nums o -> 0 <= n <= 15 -> as_gas (mkIns m w [OReg w n; o]) (form pre (is_w rk) (ff rk (ModReg n) o) op n o [])) ->
  canon (enc (ModReg (run_reg ev r (greg_of a))) (run_rm ev lenv r (GRmInd b)) ImmNone) x.
Proof.
  intros Fa Fb Lb Hd Hg. two Hd. destruct (mem_is r b ob (Fb r Hr) Lb Hb) as [Kb Ib]. destruct (reg_is r a oa w (Fa r Hr) Ha) as (n & -> & Hn & ->).
  mid. eapply canon_goes; [apply (go_ff pre op rk (ModReg n) _ _ ImmNone Hpre Hop Hn Ib)|]. apply Hg; assumption.
Qed.
(** rm *)
Lemma g_m mm m w b x : mm_good mm -> always (rm_exprs b) -> rm_lab b -> d_one m w (d_rm val rel w b) = Some x ->
  (forall o, is_rm w o -> nums o -> as_gas (mkIns m w [o]) (form pre (is_w rk) (ff rk mm o) op (mm_no mm) o [])) ->
  canon (enc mm (run_rm ev lenv r (grm_of_rm b)) ImmNone) x.
Proof.
  intros Hm Fb Lb Hd Hg. unfold d_one in Hd. destruct (d_rm val rel w b) as [ob|] eqn:Hb; [|discriminate]. injection Hd as <-.
  destruct (rm_op r b w ob (Fb r Hr) Lb Hb) as [Kb Ib].
  mid. eapply canon_goes; [apply (go_ff pre op rk mm _ _ ImmNone Hpre Hop Hm Ib)|]. apply Hg; assumption.
Qed.
(** rm, something in the immediate *)
Lemma g_mi mm m w b c i x : mm_good mm -> always (rm_exprs b) -> rm_lab b -> d_two m w (d_rm val rel w b) (Some c) = Some x ->
  (forall o, is_rm w o -> nums o -> rm_is (run_rm ev lenv r (grm_of_rm b)) o -> as_gas (mkIns m w [o; c]) (form pre (is_w rk) (ff rk mm o) op (mm_no mm) o (flat fil (imm_items i)))) ->
  canon (enc mm (run_rm ev lenv r (grm_of_rm b)) i) x.
Proof.
  intros Hm Fb Lb Hd Hg. two Hd. injection Hb as <-. destruct (rm_op r b w oa (Fb r Hr) Lb Ha) as [Kb Ib].
  mid. eapply canon_goes; [apply (go_ff pre op rk mm _ _ i Hpre Hop Hm Ib)|]. apply Hg; assumption.
Qed.
(** xmm, xmm/m *)
Lemma g_xx m a b x : always [a] -> always (xm_exprs b) -> xm_lab b ->
  d_two m W64 (d_xmm val a) (d_xm val rel b) = Some x ->
  (forall o n, is_xm o -> nums o -> 0 <= n <= 15 -> as_gas (mkIns m W64 [OXmm n; o]) (form pre (is_w rk) (ff rk (ModReg n) o) op n o [])) ->
  canon (enc (ModReg (run_reg ev r a)) (run_rm ev lenv r (grm_of_xm b)) ImmNone) x.
Proof.
  intros Fa Fb Lb Hd Hg. two Hd. destruct (xm_op r b ob (Fb r Hr) Lb Hb) as [Kb Ib]. destruct (xmm_is r a oa (Fa r Hr) Ha) as (n & -> & Hn & ->).
  mid. eapply canon_goes; [apply (go_ff pre op rk (ModReg n) _ _ ImmNone Hpre Hop Hn Ib)|]. apply Hg; assumption.
Qed.
(** mem, xmm *)
Lemma g_mx m a b x : always [a] -> always (mem_exprs b) -> lab_ok b ->
  d_two m W64 (d_mem val rel b) (d_xmm val a) = Some x ->
  (forall o n, (exists m, o = OMem m) -> nums o -> 0 <= n <= 15 -> as_gas (mkIns m W64 [o; OXmm n]) (form pre (is_w rk) (ff rk (ModReg n) o) op n o [])) ->
  canon (enc (ModReg (run_reg ev r a)) (run_rm ev lenv r (GRmInd b)) ImmNone) x.
Proof.
  intros Fa Fb Lb Hd Hg. two Hd. destruct (mem_is r b oa (Fb r Hr) Lb Ha) as [Kb Ib]. destruct (xmm_is r a ob (Fa r Hr) Hb) as (n & -> & Hn & ->).
  mid. eapply canon_goes; [apply (go_ff pre op rk (ModReg n) _ _ ImmNone Hpre Hop Hn Ib)|]. apply Hg; assumption.
Qed.
(** xmm, r/m *)
Lemma g_xr m a b x : always [a] -> always (rm_exprs b) -> rm_lab b ->
  d_two m W64 (d_xmm val a) (d_rm val rel W64 b) = Some x ->
  (forall o n, is_rm W64 o -> nums o -> 0 <= n <= 15 -> rm_is (run_rm ev lenv r (grm_of_rm b)) o -> as_gas (mkIns m W64 [OXmm n; o]) (form pre (is_w rk) (ff rk (ModReg n) o) op n o [])) ->
  canon (enc (ModReg (run_reg ev r a)) (run_rm ev lenv r (grm_of_rm b)) ImmNone) x.
Proof.
  intros Fa Fb Lb Hd Hg. two Hd. destruct (rm_op r b W64 ob (Fb r Hr) Lb Hb) as [Kb Ib]. destruct (xmm_is r a oa (Fa r Hr) Ha) as (n & -> & Hn & ->).
  mid. eapply canon_goes; [apply (go_ff pre op rk (ModReg n) _ _ ImmNone Hpre Hop Hn Ib)|]. apply Hg; assumption.
Qed.
(** r, xmm *)
Lemma g_rx m a b x : always [a] -> always (reg_exprs b) ->
  d_two m W64 (d_reg val W64 b) (d_xmm val a) = Some x ->
  (forall o n, (exists k, o = OReg W64 k) -> nums o -> 0 <= n <= 15 -> as_gas (mkIns m W64 [o; OXmm n]) (form pre (is_w rk) (ff rk (ModReg n) o) op n o [])) ->
  canon (enc (ModReg (run_reg ev r a)) (run_rm ev lenv r (GRmReg (greg_of b))) ImmNone) x.
Proof.
  intros Fa Fb Hd Hg. two Hd. destruct (rm_op r (RmReg b) W64 oa (Fb r Hr) I Ha) as [Kb Ib]. destruct (xmm_is r a ob (Fa r Hr) Hb) as (n & -> & Hn & ->).
  cbn [grm_of_rm] in Ib.
  mid. eapply canon_goes; [apply (go_ff pre op rk (ModReg n) _ _ ImmNone Hpre Hop Hn Ib)|]. apply Hg; try assumption.
  unfold d_rm, d_reg in Ha. destruct (guard _); [|discriminate Ha]. injection Ha as <-. eauto.
Qed.
End Classes.

Lemma as_gas_intro x bs : long_form x = None -> gas x = Some bs -> as_gas x bs.
Proof. unfold as_gas. intros ->. auto. Qed.
Lemma long_noimm m w o o2 : (forall v, o2 <> OImm v) -> long_form (mkIns m w [o; o2]) = None.
Proof.
  intro H. unfold long_form. cbn [i_mnem i_ops i_width]. destruct m; try reflexivity; destruct o; try reflexivity;
    try (destruct n; try reflexivity); destruct o2; try reflexivity; elim (H _ eq_refl).
Qed.
Lemma alu_no_of k : 0 <= k <= 7 -> alu_no (alu_of k) = k.
Proof. intro H. assert (K : k = 0 \/ k = 1 \/ k = 2 \/ k = 3 \/ k = 4 \/ k = 5 \/ k = 6 \/ k = 7) by lia; destruct K as [->|[->|[->|[->|[->|[->|[->| ->]]]]]]]; reflexivity. Qed.

Ltac texec H := cbn [t_exec t_call g1 g2 run_cond run_imm] in H; rewrite ?the_imm_set, ?tseq_ret_l, ?tseq_ret_r, ?tseq_assoc in H.
Ltac imm_cases Ht v :=
  repeat match type of Ht with
  | context [if in_i8 v then _ else _] => let E := fresh "E8" in destruct (in_i8 v) eqn:E
  | context [if in_i16 v then _ else _] => let E := fresh "E16" in destruct (in_i16 v) eqn:E
  | context [if in_i32 v then _ else _] => let E := fresh "E32" in destruct (in_i32 v) eqn:E
  end; injection Ht as <-; rewrite ?tseq_ret_l, ?tseq_ret_r, ?tseq_assoc.
Ltac shape := repeat match goal with H : is_rm _ _ |- _ => destruct H as [[? ->]|[? ->]] | H : is_xm _ |- _ => destruct H as [[? ->]|[? ->]]
   | H : exists m, _ = OMem m |- _ => destruct H as [? ->] | H : exists k, _ = OReg _ k |- _ => destruct H as [? ->] end.
Ltac byt := repeat constructor; unfold is_byte; lia.
Ltac sc := first [apply sc0 | apply sc1].
Lemma pre0 t x : canon (tseq (tbytes []) t) x -> canon t x.
Proof. change (tbytes []) with tret. rewrite tseq_ret_l. auto. Qed.
Lemma pre1 b t x : canon (tseq (tbytes [b]) t) x -> canon (tseq (titem (IB b)) t) x. Proof. auto. Qed.
(** the last step: gas on an instruction with operands of known shape *)
Ltac fin := intros; shape; (apply as_gas_intro; [apply long_noimm; discriminate|]);
  unfold gas; cbn [i_mnem i_ops i_width gas_mov gas_test gas_xchg gas_shift is64 size66 opw_of needs_rex ff low_mm low_op is_w mm_no app orb fl_pre fp_pre fp_no];
  unfold low4; rewrite ?orb_false_r; try reflexivity.

(** *** add .. cmp *)
Lemma alu_reg sz k a b g t x : 0 <= k <= 7 -> always (rm_exprs a) -> rm_lab a -> always (reg_exprs b) ->
  binary_op sz (8 * k + 1) k a (RmiReg b) = Some g -> t_exec ev lenv r0 g = Some t ->
  d_two (Alu (alu_of k)) (width_of sz) (d_rm val rel (width_of sz) a) (d_reg val (width_of sz) b) = Some x -> canon t x.
Proof.
  intros Hk Fa La Fb Hc Ht Hd.
  assert (Hg : binary_op sz (8 * k + 1) k a (RmiReg b) = Some (match sz with
     | QWORD => g1 (GEncRexwMr [8 * k + 1] (greg_of b) (grm_of_rm a))
     | DWORD => g1 (GEncMr [8 * k + 1] (greg_of b) (grm_of_rm a))
     | WORD => g2 (GEmitb 0x66) (GEncMr [8 * k + 1] (greg_of b) (grm_of_rm a))
     | BYTE => g1 (GEncMrByte [8 * k + 1 - 1] (greg_of b) (grm_of_rm a)) end)) by (destruct sz, a; reflexivity).
  rewrite Hg in Hc. injection Hc as <-. pose proof (alu_no_of k Hk) as Ek.
  destruct sz; texec Ht; injection Ht as <-; rewrite ?tseq_ret_r; cbn [width_of] in Hd; [apply pre0|apply pre0|apply pre1|apply pre0];
  (eapply g_mr; [byt|byt|sc|exact Fa|exact La|exact Fb|exact Hd|]);
  (intros; shape; (apply as_gas_intro; [apply long_noimm; discriminate|]); unfold gas, gas_alu; cbn [i_mnem i_ops i_width]; rewrite Ek;
   cbn [is64 size66 opw_of needs_rex ff low_mm low_op is_w mm_no app orb]; rewrite ?orb_false_r, ?Z.add_simpl_r; try reflexivity).
  rewrite orb_comm. reflexivity.
Qed.
Lemma alu_mem sz k a b g t x : 0 <= k <= 7 -> always (reg_exprs a) -> always (mem_exprs b) -> lab_ok b ->
  binary_op sz (8 * k + 1) k (RmReg a) (RmiInd b) = Some g -> t_exec ev lenv r0 g = Some t ->
  d_two (Alu (alu_of k)) (width_of sz) (d_reg val (width_of sz) a) (d_mem val rel b) = Some x -> canon t x.
Proof.
  intros Hk Fa Fb Lb Hc Ht Hd.
  assert (Hg : binary_op sz (8 * k + 1) k (RmReg a) (RmiInd b) = Some (match sz with
       | QWORD => g1 (GEncRexwMr [8 * k + 1 + 2] (greg_of a) (GRmInd b))
       | DWORD => g1 (GEncMr [8 * k + 1 + 2] (greg_of a) (GRmInd b))
       | WORD => g2 (GEmitb 0x66) (GEncMr [8 * k + 1 + 2] (greg_of a) (GRmInd b))
       | BYTE => g1 (GEncMrByte [8 * k + 1 - 1 + 2] (greg_of a) (GRmInd b)) end)) by (destruct sz; reflexivity).
  rewrite Hg in Hc. injection Hc as <-. pose proof (alu_no_of k Hk) as Ek.
  destruct sz; texec Ht; injection Ht as <-; rewrite ?tseq_ret_r; cbn [width_of] in Hd; [apply pre0|apply pre0|apply pre1|apply pre0];
  (eapply g_rmem; [byt|byt|sc|exact Fa|exact Fb|exact Lb|exact Hd|]);
  (intros; shape; (apply as_gas_intro; [apply long_noimm; discriminate|]); unfold gas, gas_alu; cbn [i_mnem i_ops i_width]; rewrite Ek;
   cbn [is64 size66 opw_of needs_rex ff low_mm low_op is_w mm_no app orb]; rewrite ?orb_false_r, ?Z.add_simpl_r; try reflexivity);
  replace (8 * k + 1 + 2) with (8 * k + 2 + 1) by lia; reflexivity.
Qed.
(** immediates *)
Lemma as_gas_alu k w o v bs : 0 <= k <= 7 -> nums o -> is_rm w o ->
  (w <> W8 -> in_i8 v = true -> bs = form (size66 w) (is64 w) false [0x83] k o (le 1 v)) ->
  (w <> W8 -> in_i8 v = false -> bs = form (size66 w) (is64 w) false [0x81] k o (imm_z w v)) ->
  (w = W8 -> bs = if match o with OReg _ 0 => true | _ => false end then (8 * k + 4) :: le 1 v else form [] false (needs_rex o) [0x80] k o (le 1 v)) ->
  as_gas (mkIns (Alu (alu_of k)) w [o; OImm v]) bs.
Proof.
  intros Hk [_ Hn] Ho H8 H3 Hb. pose proof (alu_no_of k Hk) as Ek. unfold as_gas, long_form, gas, gas_alu. cbn [i_mnem i_ops i_width]. rewrite Ek.
  destruct Ho as [[n ->]|[m ->]].
  - cbn [base_of] in Hn. destruct n as [|p|p]; [| |lia].
    + destruct w; cbn [is64 size66 needs_rex orb] in *;
        try (destruct (in_i8 v) eqn:E; [rewrite H8 by (discriminate || reflexivity); reflexivity|rewrite H3 by (discriminate || reflexivity); reflexivity]).
      rewrite Hb by reflexivity. reflexivity.
    + destruct w; cbn [is64 size66 needs_rex orb] in *;
        try (destruct (in_i8 v) eqn:E; [rewrite H8 by (discriminate || reflexivity); reflexivity|rewrite H3 by (discriminate || reflexivity); reflexivity]).
      rewrite Hb by reflexivity. rewrite orb_false_r. reflexivity.
  - destruct w; cbn [is64 size66 needs_rex orb] in *;
      try (destruct (in_i8 v) eqn:E; [rewrite H8 by (discriminate || reflexivity); reflexivity|rewrite H3 by (discriminate || reflexivity); reflexivity]).
    rewrite Hb by reflexivity. reflexivity.
Qed.
Lemma canon_fail t x e : snd t = Some e -> canon t x. Proof. intros H K. congruence. Qed.
Lemma alu_imm sz k a e g t x : 0 <= k <= 7 -> always (rm_exprs a) -> rm_lab a ->
  binary_op sz (8 * k + 1) k a (RmiImm e) = Some g -> t_exec ev lenv r0 g = Some t ->
  d_two (Alu (alu_of k)) (width_of sz) (d_rm val rel (width_of sz) a) (Some (OImm (i64 (val e)))) = Some x -> canon t x.
Proof.
  intros Hk Fa La Hc Ht Hd.
  destruct sz; cbn [binary_op width_of] in *.
  - assert (Hg : g = GLetImm e
        (GIf CTry8 (g1 (GEncRexwDigit [0x83] (grm_of_rm a) k GImmB))
          (GIf CTry32 (g1 (GEncRexwDigit [0x81] (grm_of_rm a) k GImmL)) GPanic GNil) GNil))
      by (destruct a; injection Hc as <-; reflexivity).
    subst g. texec Ht. imm_cases Ht (i64 (val e)); [| |eapply canon_fail; reflexivity]; apply pre0;
    (eapply g_mi; [byt|byt|sc|exact Hk|exact Fa|exact La|exact Hd|]); intros; apply as_gas_alu; auto; try congruence; intros; rewrite ?fl_B, ?fl_L; reflexivity.
  - assert (Hg : g = GLetImm e
        (GIf CTry8 (g1 (GEncDigitImm [0x83] (grm_of_rm a) k GImmB))
          (GIf CTry32 (g1 (GEncDigitImm [0x81] (grm_of_rm a) k GImmL)) GPanic GNil) GNil))
      by (destruct a; injection Hc as <-; reflexivity).
    subst g. texec Ht. imm_cases Ht (i64 (val e)); [| |eapply canon_fail; reflexivity]; apply pre0;
    (eapply g_mi; [byt|byt|sc|exact Hk|exact Fa|exact La|exact Hd|]); intros; apply as_gas_alu; auto; try congruence; intros; rewrite ?fl_B, ?fl_L; reflexivity.
  - assert (Hg : g = GLetImm e (GDo (GEmitb 0x66)
        (GIf CTry8 (g1 (GEncDigitImm [0x83] (grm_of_rm a) k GImmB))
          (GIf CTry16 (g1 (GEncDigitImm [0x81] (grm_of_rm a) k GImmW)) GPanic GNil) GNil)))
      by (destruct a; injection Hc as <-; reflexivity).
    subst g. texec Ht. imm_cases Ht (i64 (val e)); [| |eapply canon_fail; reflexivity]; apply pre1;
    (eapply g_mi; [byt|byt|sc|exact Hk|exact Fa|exact La|exact Hd|]); intros; apply as_gas_alu; auto; try congruence; intros; rewrite ?fl_B, ?fl_W; reflexivity.
  - assert (Hg : g = GLetImm e
        (GIf CTry8 (g1 (GEncDigitImmByte [0x80] (8 * k + 1 - 1 + 4) (grm_of_rm a) k GImmB)) GPanic GNil))
      by (destruct a; injection Hc as <-; reflexivity).
    subst g. texec Ht. imm_cases Ht (i64 (val e)); [|eapply canon_fail; reflexivity].
    unfold t_enc_digit_imm_byte, rm_is_rax, rm_is_reg. set (r := env_set "imm" (i64 (val e)) r0).
    destruct (d_rm val rel W8 a) as [oa|] eqn:Ea; [|discriminate Hd]. 
    destruct (rm_op r a W8 oa (Fa r (sc1 _)) La Ea) as [Ka Ia]. pose proof (rm_is_nums _ _ Ia) as Na.
    destruct (mode_is_reg (rm_mode (run_rm ev lenv r (grm_of_rm a)))) eqn:Em; cbn [andb].
    + destruct (reg_is_rax (rm_base (run_rm ev lenv r (grm_of_rm a)))) eqn:Er.
      * cbn [d_two obind] in Hd. injection Hd as <-.
        apply canon_goes with (bs := (8 * k + 4) :: le 1 (i64 (val e))).
        { split; [reflexivity|]. cbn [tseq titem t_disp_imm t_disp t_imm tret fst snd app flat flat_map item_bytes].
          replace (8 * k + 1 - 1 + 4) with (8 * k + 4) by lia. rewrite (u8_id (8 * k + 4)) by (unfold is_byte; lia). rewrite u8_u8. reflexivity. }
        apply as_gas_alu; auto; try congruence. intros _. unfold reg_is_rax, rax in Er.
        inversion Ia as [n w0 Hn E1 E2|n Hn E1 E2|d Hd E1 E2|l E1 E2|b d Hb Hd E1 E2|b kk i d Hb Hkk Hi Hd E1 E2]; subst oa; rewrite <- E1 in *; cbn [rm_mode rm_base mode_is_reg] in *; try discriminate.
        -- assert (n = 0) by lia. subst n. reflexivity.
        -- destruct Ka as [[? Ka]|[? Ka]]; discriminate Ka.
      * apply pre0. eapply g_mi; [byt|byt|sc|exact Hk|exact Fa|exact La|rewrite Ea; exact Hd|].
        intros o Ho No Io. apply as_gas_alu; auto; try congruence. intros _. rewrite fl_B. cbn [is_w ff low_mm orb mm_no].
        fold r in Io. destruct Ho as [[n ->]|[m ->]].
        -- inversion Io as [n0 w0 Hn E1 E2| | | | |]; subst. rewrite <- E1 in Er. cbn [rm_base] in Er. unfold reg_is_rax, rax in Er.
           destruct n as [|p|p]; [discriminate Er| |lia]. reflexivity.
        -- inversion Io; subst; match goal with E : _ = run_rm _ _ _ _ |- _ => rewrite <- E in Em; discriminate Em end.
    + apply pre0. eapply g_mi; [byt|byt|sc|exact Hk|exact Fa|exact La|rewrite Ea; exact Hd|].
      intros o Ho No Io. apply as_gas_alu; auto; try congruence. intros _. rewrite fl_B. cbn [is_w ff low_mm orb mm_no].
      fold r in Io. destruct Ho as [[n ->]|[m ->]]; [|reflexivity].
      inversion Io as [n0 w0 Hn E1 E2| | | | |]; subst. rewrite <- E1 in Em. discriminate Em.
Qed.
Definition rmi_lab (b : rmi_operand) : Prop := match b with RmiInd m => lab_ok m | _ => True end.
Lemma alu_gas sz k a b g t x : 0 <= k <= 7 -> always (rm_exprs a) -> rm_lab a -> always (rmi_exprs b) -> rmi_lab b ->
  binary_op sz (8 * k + 1) k a b = Some g -> t_exec ev lenv r0 g = Some t ->
  d_alu val rel (Alu (alu_of k)) (width_of sz) a b = Some x -> canon t x.
Proof.
  intros Hk Fa La Fb Lb Hc Ht Hd. unfold d_alu in Hd. destruct b as [e|rb|mb]; cbn [rmi_exprs rmi_lab is_mem_rmi d_rmi] in *; rewrite ?andb_false_r, ?andb_true_r in Hd.
  - cbn [negb guard obind] in Hd. unfold d_imm in Hd. unfold guard in Hd. destruct (imm_ok _ _); [|destruct (d_rm val rel (width_of sz) a); discriminate Hd].
    cbn [obind] in Hd. eapply alu_imm; eassumption.
  - cbn [negb guard obind] in Hd. eapply alu_reg; eassumption.
  - destruct a as [ra|ma]; [|discriminate Hd]. cbn [is_mem_rm negb guard obind d_rm] in Hd. eapply alu_mem; eassumption.
Qed.

(** *** mov *)
Definition mov_exprs (o : mov_operand) : list expr :=
  match o with MovImm _ _ => [] | MovReg r => reg_exprs r | MovXmm e => [e] | MovInd a => mem_exprs a end.
Definition mov_lab (o : mov_operand) : Prop := match o with MovInd m => lab_ok m | _ => True end.
Ltac alu_shape Hd b := unfold d_alu in Hd; destruct b; cbn [rmi_exprs rmi_lab is_mem_rmi is_mem_rm d_rmi] in *; rewrite ?andb_false_r, ?andb_true_r in Hd.
Ltac the_imm_ok Hd := cbn [negb guard obind] in Hd; unfold d_imm, guard in Hd;
  match type of Hd with context [if ?c then _ else _] => let E := fresh "Ei" in destruct c eqn:E; [|first [discriminate Hd | match type of Hd with context [d_rm ?a ?b ?c ?d] => destruct (d_rm a b c d); discriminate Hd end
      | match type of Hd with context [d_mem ?a ?b ?c] => destruct (d_mem a b c); discriminate Hd end]] end;
  cbn [obind] in Hd.
(** opcode with a register and an immediate *)
Lemma g_oi pre rk op r a w v more imm x : Forall is_byte pre -> op = 0x50 \/ op = 0x58 \/ op = 0x90 \/ op = 0xb0 \/ op = 0xb8 -> scope r ->
  always (reg_exprs a) -> flat fil more = imm ->
  d_two Mov w (d_reg val w a) (Some (OImm v)) = Some x ->
  (forall n, 0 <= n <= 15 -> as_gas (mkIns Mov w [OReg w n; OImm v]) (oform pre (is_w rk) (match rk with RexByte => low4 n | _ => false end) op n imm)) ->
  canon (tseq (tbytes pre) (tseq (t_o rk op (run_reg ev r (greg_of a))) (more, None))) x.
Proof.
  intros Hp Ho Hr Fa Hi Hd Hg. destruct (d_reg val w a) as [oa|] eqn:Ha; [|discriminate Hd]. cbn [d_two obind] in Hd. injection Hd as <-.
  destruct (reg_is r a oa w (Fa r Hr) Ha) as (n & -> & Hn & ->).
  eapply canon_goes; [apply (go_op pre rk op n more imm Hp Ho Hn Hi)|]. apply Hg. exact Hn.
Qed.
Lemma flat_L v : flat fil [IL (u32 v)] = le 4 v. Proof. exact (fl_L v). Qed.
Lemma flat_W v : flat fil [IW (u16 v)] = le 2 v. Proof. exact (fl_W v). Qed.
Lemma flat_B v : flat fil [IB (u8 v)] = le 1 v. Proof. exact (fl_B v). Qed.
Lemma flat_Q v : flat fil [IQ (u64 v)] = le 8 v.
Proof. cbn [flat flat_map item_bytes app]. rewrite app_nil_r. rewrite ?le8_u64. reflexivity. Qed.
Lemma flat_b v : 0 <= v <= 255 -> flat fil [IB v] = le 1 v. Proof. reflexivity. Qed.

Lemma movl_gas a b g t x : always (rm_exprs a) -> rm_lab a -> always (rmi_exprs b) -> rmi_lab b ->
  movl a b = Some g -> t_exec ev lenv r0 g = Some t -> d_alu val rel Mov W32 a b = Some x -> canon t x.
Proof.
  intros Fa La Fb Lb Hc Ht Hd. alu_shape Hd b.
  - the_imm_ok Hd. destruct a as [ra|ma]; injection Hc as <-; texec Ht; imm_cases Ht (i64 (val e)); try (eapply canon_fail; reflexivity); apply pre0.
    + eapply (g_oi [] RexNone 0xb8 _ _ W32 (i64 (val e)) [IL (u32 (i64 (val e)))]); [byt|tauto|sc|exact Fa|apply flat_L|exact Hd|].
      intros n Hn. apply as_gas_intro; reflexivity.
    + eapply (g_mi _ _ _ _) with (b := RmInd ma) (mm := ModReg 0); [byt|byt|sc|cbn; lia|exact Fa|exact La|exact Hd|]. cbn [d_rm] in Hd.
      intros o Ho No Io. inversion Io; subst; (apply as_gas_intro; [reflexivity|rewrite fl_L; reflexivity]).
  - cbn [negb guard obind] in Hd. assert (Hg : g = g1 (GEncMr [0x89] (greg_of r) (grm_of_rm a))) by (destruct a; injection Hc as <-; reflexivity).
    subst g. texec Ht. injection Ht as <-. rewrite ?tseq_ret_r. apply pre0.
    eapply g_mr; [byt|byt|sc|exact Fa|exact La|exact Fb|exact Hd|]. fin.
  - destruct a as [ra|ma]; [|discriminate Hd]. cbn [is_mem_rm negb guard obind d_rm] in Hd. injection Hc as <-. texec Ht. injection Ht as <-. rewrite ?tseq_ret_r. apply pre0.
    eapply g_rmem; [byt|byt|sc|exact Fa|exact Fb|exact Lb|exact Hd|]. fin.
Qed.
Lemma movw_gas a b g t x : always (rm_exprs a) -> rm_lab a -> always (rmi_exprs b) -> rmi_lab b ->
  movw a b = Some g -> t_exec ev lenv r0 g = Some t -> d_alu val rel Mov W16 a b = Some x -> canon t x.
Proof.
  intros Fa La Fb Lb Hc Ht Hd. alu_shape Hd b.
  - the_imm_ok Hd. destruct a as [ra|ma]; injection Hc as <-; texec Ht; imm_cases Ht (i64 (val e)); try (eapply canon_fail; reflexivity); apply pre1.
    + eapply (g_oi [0x66] RexNone 0xb8 _ _ W16 (i64 (val e)) [IW (u16 (i64 (val e)))]); [byt|tauto|sc|exact Fa|apply flat_W|exact Hd|].
      intros n Hn. apply as_gas_intro; reflexivity.
    + eapply (g_mi _ _ _ _) with (b := RmInd ma) (mm := ModReg 0); [byt|byt|sc|cbn; lia|exact Fa|exact La|exact Hd|]. cbn [d_rm] in Hd.
      intros o Ho No Io. inversion Io; subst; (apply as_gas_intro; [reflexivity|rewrite fl_W; reflexivity]).
  - cbn [negb guard obind] in Hd. assert (Hg : g = g2 (GEmitb 0x66) (GEncMr [0x89] (greg_of r) (grm_of_rm a))) by (destruct a; injection Hc as <-; reflexivity).
    subst g. texec Ht. injection Ht as <-. rewrite ?tseq_ret_r. apply pre1.
    eapply g_mr; [byt|byt|sc|exact Fa|exact La|exact Fb|exact Hd|]. fin.
  - destruct a as [ra|ma]; [|discriminate Hd]. cbn [is_mem_rm negb guard obind d_rm] in Hd. injection Hc as <-. texec Ht. injection Ht as <-. rewrite ?tseq_ret_r. apply pre1.
    eapply g_rmem; [byt|byt|sc|exact Fa|exact Fb|exact Lb|exact Hd|]. fin.
Qed.
Lemma movb_gas a b g t x : always (rm_exprs a) -> rm_lab a -> always (rmi_exprs b) -> rmi_lab b ->
  movb a b = Some g -> t_exec ev lenv r0 g = Some t -> d_alu val rel Mov W8 a b = Some x -> canon t x.
Proof.
  intros Fa La Fb Lb Hc Ht Hd. alu_shape Hd b.
  - the_imm_ok Hd. destruct a as [ra|ma]; injection Hc as <-; texec Ht; imm_cases Ht (i64 (val e)); try (eapply canon_fail; reflexivity); apply pre0.
    + eapply (g_oi [] RexByte 0xb0 _ _ W8 (i64 (val e)) [IB (u8 (i64 (val e)))]); [byt|tauto|sc|exact Fa|apply flat_B|exact Hd|].
      intros n Hn. apply as_gas_intro; reflexivity.
    + eapply (g_mi _ _ _ _) with (b := RmInd ma) (mm := ModReg 0); [byt|byt|sc|cbn; lia|exact Fa|exact La|exact Hd|]. cbn [d_rm] in Hd.
      intros o Ho No Io. inversion Io; subst; (apply as_gas_intro; [reflexivity|rewrite fl_B; reflexivity]).
  - cbn [negb guard obind] in Hd. assert (Hg : g = g1 (GEncMrByte [0x88] (greg_of r) (grm_of_rm a))) by (destruct a; injection Hc as <-; reflexivity).
    subst g. texec Ht. injection Ht as <-. rewrite ?tseq_ret_r. apply pre0.
    eapply g_mr; [byt|byt|sc|exact Fa|exact La|exact Fb|exact Hd|]. fin. rewrite orb_comm. reflexivity.
  - destruct a as [ra|ma]; [|discriminate Hd]. cbn [is_mem_rm negb guard obind d_rm] in Hd. injection Hc as <-. texec Ht. injection Ht as <-. rewrite ?tseq_ret_r. apply pre0.
    eapply g_rmem; [byt|byt|sc|exact Fa|exact Fb|exact Lb|exact Hd|]. fin.
Qed.
Lemma movq_gas a b g t x : always (mov_exprs a) -> mov_lab a -> always (mov_exprs b) -> mov_lab b ->
  movq a b = Some g -> t_exec ev lenv r0 g = Some t -> d_movq val rel a b = Some x -> canon t x.
Proof.
  intros Fa La Fb Lb Hc Ht Hd. destruct a as [e sz|ra|xa|ma]; [discriminate Hc| | |]; destruct b as [e2 sz2|rb|xb|mb]; cbn [mov_exprs mov_lab] in *;
    try discriminate Hc; try discriminate Hd; cbn [movq d_movq] in *.
  - assert (Hg : g = GLetImm e2 (g2 (GEncRexwO 0xb8 (greg_of ra)) GEmitqImm) /\ d_two Mov W64 (d_reg val W64 ra) (Some (OImm (i64 (val e2)))) = Some x)
      by (destruct sz2 as [[]|]; try discriminate; injection Hc as <-; auto).
    clear Hc. destruct Hg as [-> Hd']. texec Ht. injection Ht as <-. rewrite ?tseq_ret_r. apply pre0.
    eapply (g_oi [] REXW 0xb8 _ _ W64 (i64 (val e2)) [IQ (u64 (i64 (val e2)))]); [byt|tauto|sc|exact Fa|apply flat_Q|exact Hd'|].
    intros n Hn. unfold as_gas, long_form, gas, gas_mov. cbn [i_mnem i_ops i_width is64 andb]. destruct (in_i32 (i64 (val e2))); reflexivity.
  - injection Hc as <-. texec Ht. injection Ht as <-. rewrite ?tseq_ret_r. apply pre0.
    eapply (g_mr [] [0x89] REXW r0) with (a := RmReg ra); [byt|byt|sc|exact Fa|exact I|exact Fb|exact Hd|]. fin.
  - injection Hc as <-. texec Ht. injection Ht as <-. rewrite ?tseq_ret_r. apply pre1.
    eapply g_rx; [byt|byt|sc|exact Fb|exact Fa|exact Hd|]. fin.
  - injection Hc as <-. texec Ht. injection Ht as <-. rewrite ?tseq_ret_r. apply pre0.
    eapply g_rmem; [byt|byt|sc|exact Fa|exact Fb|exact Lb|exact Hd|]. fin.
  - injection Hc as <-. texec Ht. injection Ht as <-. rewrite ?tseq_ret_r. apply pre1.
    eapply (g_xr [0x66] [0x0f; 0x6e] REXW r0) with (b := RmReg rb); [byt|byt|sc|exact Fa|exact Fb|exact I|exact Hd|].
    intros o n Ho No Hn Io. cbn [grm_of_rm run_rm] in Io. inversion Io; subst; [apply as_gas_intro; reflexivity|].
    destruct Ho as [[? Ho]|[? Ho]]; discriminate Ho.
  - injection Hc as <-. texec Ht. injection Ht as <-. rewrite ?tseq_ret_r. apply pre1.
    eapply (g_xx [0xf3] [0x0f; 0x7e] RexNone r0) with (b := XmXmm xb); [byt|byt|sc|exact Fa|exact Fb|exact I|exact Hd|]. fin.
  - injection Hc as <-. texec Ht. injection Ht as <-. rewrite ?tseq_ret_r. apply pre1.
    eapply (g_xx [0xf3] [0x0f; 0x7e] RexNone r0) with (b := XmInd mb); [byt|byt|sc|exact Fa|exact Fb|exact Lb|exact Hd|]. fin.
  - assert (Hg : g = GLetImm e2 (GIf CTry32 (g1 (GEncRexwMi 0xc7 (GRmInd ma) GImmL)) GPanic GNil)) by (destruct sz2; [discriminate|]; injection Hc as <-; auto).
    subst g. clear Hc. the_imm_ok Hd. texec Ht. imm_cases Ht (i64 (val e2)); try (eapply canon_fail; reflexivity); apply pre0.
    eapply (g_mi [] [0xc7] REXW _) with (b := RmInd ma) (mm := ModReg 0); [byt|byt|sc|cbn; lia|exact Fa|exact La|exact Hd|].
    intros o Ho No Io. inversion Io; subst; (apply as_gas_intro; [reflexivity|rewrite fl_L; reflexivity]).
  - injection Hc as <-. texec Ht. injection Ht as <-. rewrite ?tseq_ret_r. apply pre0.
    eapply (g_mr [] [0x89] REXW r0) with (a := RmInd ma); [byt|byt|sc|exact Fa|exact La|exact Fb|exact Hd|]. fin.
  - injection Hc as <-. texec Ht. injection Ht as <-. rewrite ?tseq_ret_r. apply pre1.
    eapply g_mx; [byt|byt|sc|exact Fb|exact Fa|exact La|exact Hd|]. fin.
Qed.

(** *** test, xchg, shifts *)
Lemma test_imm w d v : d <> OReg w 0 -> nums d -> is_rm w d ->
  gas_test w d (OImm v) = Some (form (size66 w) (is64 w) (needs_rex d || false) (opw_of w 0xf6) 0 d (imm_z w v)).
Proof.
  intros H [_ Hn] [[n ->]|[m ->]]; unfold gas_test; [|reflexivity]. cbn [base_of] in Hn. destruct n; [elim H; reflexivity|reflexivity|lia].
Qed.
Lemma flag2 (c d : bool) pre rk op n o imm : c = d -> form pre rk c op n o imm = form pre rk d op n o imm. Proof. intros ->. reflexivity. Qed.
Lemma testq_gas a b g t x : always (rm_exprs a) -> rm_lab a -> always (ri_exprs b) ->
  testq a b = Some g -> t_exec ev lenv r0 g = Some t -> d_two Test W64 (d_rm val rel W64 a) (d_ri val W64 b) = Some x -> canon t x.
Proof.
  intros Fa La Fb Hc Ht Hd. destruct b as [e|rb]; cbn [d_ri ri_exprs] in *.
  - the_imm_ok Hd. cbn [imm_ok] in Ei. destruct a as [ra|ma]; injection Hc as <-; texec Ht.
    + rewrite Ei in Ht. set (r := env_set "imm" (i64 (val e)) r0) in *.
      cbn [d_rm] in Hd. destruct (d_reg val W64 ra) as [oa|] eqn:Ea; [|discriminate Hd]. pose proof Hd as Hd'. cbn [d_two obind] in Hd. injection Hd as <-.
      destruct (reg_is r ra oa W64 (Fa r (sc1 _)) Ea) as (n & -> & Hn & En). rewrite En in Ht.
      destruct (reg_is_rax n) eqn:Er; unfold reg_is_rax, rax in Er; injection Ht as <-; rewrite ?tseq_ret_r.
      * assert (N0 : n = 0) by lia. rewrite N0.
        eapply canon_goes; [split; [reflexivity|]|apply as_gas_intro; [reflexivity|unfold gas, gas_test; cbn [i_mnem i_ops i_width is64 size66 opw_of imm_z]; reflexivity]].
        cbn [tseq titem tbytes tret fst snd map app]. unfold r. cbn [app].
        change ([IB 72; IB 169; IL (u32 (i64 (val e)))]) with ([IB 72; IB 169] ++ [IL (u32 (i64 (val e)))]). rewrite flat_app. exact (f_equal (app [72; 169]) (fl_L _)).
      * apply pre0. cbn [imm_ok] in *. rewrite <- Ea in Hd'.
        eapply (g_mi [] [0xf7] REXW r) with (b := RmReg ra) (mm := ModReg 0); [byt|byt|sc|cbn; lia|exact Fa|exact La|exact Hd'|].
        intros o Ho No Io. apply as_gas_intro.
        -- destruct Ho as [[n1 ->]|[m1 ->]]; [destruct n1|]; reflexivity.
        -- unfold gas. cbn [i_mnem i_ops i_width]. rewrite test_imm; [|intros ->; cbn [grm_of_rm run_rm] in Io; rewrite En in Io; inversion Io; subst; lia|exact No|exact Ho].
           rewrite fl_L. destruct Ho as [[n1 ->]|[m1 ->]]; reflexivity.
    + imm_cases Ht (i64 (val e)); try discriminate; apply pre0.
      eapply (g_mi [] [0xf7] REXW _) with (b := RmInd ma) (mm := ModReg 0); [byt|byt|sc|cbn; lia|exact Fa|exact La|exact Hd|].
      intros o Ho No Io. inversion Io; subst; (apply as_gas_intro; [reflexivity|rewrite fl_L; reflexivity]).
  - injection Hc as <-. texec Ht. injection Ht as <-. rewrite ?tseq_ret_r. apply pre0.
    eapply g_mr; [byt|byt|sc|exact Fa|exact La|exact Fb|exact Hd|]. fin.
Qed.
Lemma testb_gas a b g t x : always (rm_exprs a) -> rm_lab a -> always (ri_exprs b) ->
  testb a b = Some g -> t_exec ev lenv r0 g = Some t -> d_two Test W8 (d_rm val rel W8 a) (d_ri val W8 b) = Some x -> canon t x.
Proof.
  intros Fa La Fb Hc Ht Hd. destruct b as [e|rb]; cbn [d_ri ri_exprs] in *.
  - the_imm_ok Hd. cbn [imm_ok] in Ei. destruct a as [ra|ma]; injection Hc as <-; texec Ht.
    + rewrite Ei in Ht. set (r := env_set "imm" (i64 (val e)) r0) in *.
      cbn [d_rm] in Hd. destruct (d_reg val W8 ra) as [oa|] eqn:Ea; [|discriminate Hd]. pose proof Hd as Hd'. cbn [d_two obind] in Hd. injection Hd as <-.
      destruct (reg_is r ra oa W8 (Fa r (sc1 _)) Ea) as (n & -> & Hn & En). rewrite En in Ht.
      destruct (reg_is_rax n) eqn:Er; unfold reg_is_rax, rax in Er; injection Ht as <-; rewrite ?tseq_ret_r.
      * assert (N0 : n = 0) by lia. rewrite N0.
        eapply canon_goes; [split; [reflexivity|]|apply as_gas_intro; [reflexivity|unfold gas, gas_test; cbn [i_mnem i_ops i_width is64 size66 opw_of imm_z]; reflexivity]].
        cbn [tseq titem tbytes tret fst snd map app]. unfold r. cbn [app].
        change ([IB 168; IB (u8 (i64 (val e)))]) with ([IB 168] ++ [IB (u8 (i64 (val e)))]). rewrite flat_app. exact (f_equal (app [168]) (fl_B _)).
      * apply pre0. rewrite <- Ea in Hd'.
        eapply (g_mi [] [0xf6] RexByte r) with (b := RmReg ra) (mm := ModReg 0); [byt|byt|sc|cbn; lia|exact Fa|exact La|exact Hd'|].
        intros o Ho No Io. apply as_gas_intro.
        -- destruct Ho as [[n1 ->]|[m1 ->]]; [destruct n1|]; reflexivity.
        -- unfold gas. cbn [i_mnem i_ops i_width]. rewrite test_imm; [|intros ->; cbn [grm_of_rm run_rm] in Io; rewrite En in Io; inversion Io; subst; lia|exact No|exact Ho].
           rewrite fl_B, orb_false_r. destruct Ho as [[n1 ->]|[m1 ->]]; reflexivity.
    + imm_cases Ht (i64 (val e)); try discriminate; apply pre0.
      eapply (g_mi [] [0xf6] RexByte _) with (b := RmInd ma) (mm := ModReg 0); [byt|byt|sc|cbn; lia|exact Fa|exact La|exact Hd|].
      intros o Ho No Io. inversion Io; subst; (apply as_gas_intro; [reflexivity|rewrite fl_B; reflexivity]).
  - injection Hc as <-. texec Ht. injection Ht as <-. rewrite ?tseq_ret_r. apply pre0.
    eapply g_mr; [byt|byt|sc|exact Fa|exact La|exact Fb|exact Hd|]. fin. rewrite orb_comm. reflexivity.
Qed.
Lemma xchg_gas sz a b g t x : always (rm_exprs a) -> rm_lab a -> always (rm_exprs b) -> rm_lab b ->
  xchg sz a b = Some g -> t_exec ev lenv r0 g = Some t ->
  d_two Xchg (width_of sz) (d_rm val rel (width_of sz) a) (d_rm val rel (width_of sz) b) = Some x -> canon t x.
Proof.
  intros Fa La Fb Lb Hc Ht Hd. destruct sz; try discriminate Hc. cbn [width_of xchg] in *.
  destruct a as [ra|ma], b as [rb|mb]; try discriminate Hc; injection Hc as <-; texec Ht.
  - cbn [d_rm] in Hd. pose proof Hd as Hd'. destruct (d_reg val W64 ra) as [oa|] eqn:Ea; [|discriminate Hd]. destruct (d_reg val W64 rb) as [ob|] eqn:Eb; [|discriminate Hd].
    cbn [d_two obind] in Hd. injection Hd as <-.
    destruct (reg_is r0 ra oa W64 (Fa r0 sc0) Ea) as (n & -> & Hn & En). destruct (reg_is r0 rb ob W64 (Fb r0 sc0) Eb) as (k & -> & Hk & Ek).
    rewrite En, Ek in Ht.
    assert (G : forall v, 0 <= v <= 15 -> goes (t_o REXW 0x90 v) (oform [] true false 0x90 v [])).
    { intros v Hv. pose proof (go_op [] REXW 0x90 v [] [] ltac:(byt) ltac:(tauto) Hv eq_refl) as H. change (@nil item, @None panic) with tret in H.
      rewrite tseq_ret_r in H. apply goes_pre0 in H. exact H. }
    destruct (reg_is_rax n) eqn:E1; destruct (reg_is_rax k) eqn:E2; unfold reg_is_rax, rax in E1, E2; injection Ht as <-; rewrite ?tseq_ret_r.
    + eapply canon_goes; [split; [reflexivity|]|apply as_gas_intro; [apply long_noimm; discriminate|unfold gas, gas_xchg; cbn [i_mnem i_ops i_width is64]]].
      2:{ rewrite E1, E2. reflexivity. } reflexivity.
    + eapply canon_goes; [apply (G k Hk)|]. apply as_gas_intro; [apply long_noimm; discriminate|unfold gas, gas_xchg; cbn [i_mnem i_ops i_width is64]].
      rewrite E1, E2. reflexivity.
    + eapply canon_goes; [apply (G n Hn)|]. apply as_gas_intro; [apply long_noimm; discriminate|unfold gas, gas_xchg; cbn [i_mnem i_ops i_width is64]].
      rewrite E1, E2. reflexivity.
    + apply pre0. pose proof (ris_reg fil n W64 Hn) as Ir. eapply canon_goes; [apply (go_ff [] [0x87] REXW (ModReg k) _ (OReg W64 n) ImmNone ltac:(byt) ltac:(byt) Hk)|].
      { cbn [run_rm]. rewrite En. exact Ir. }
      apply as_gas_intro; [apply long_noimm; discriminate|unfold gas, gas_xchg; cbn [i_mnem i_ops i_width is64]]. rewrite E1, E2. reflexivity.
  - injection Ht as <-. rewrite ?tseq_ret_r. apply pre0. eapply (g_rmem [] [0x87] REXW r0); [byt|byt|sc|exact Fa|exact Fb|exact Lb|exact Hd|]. fin.
  - injection Ht as <-. rewrite ?tseq_ret_r. apply pre0. eapply (g_mr_of [] [0x87] REXW r0) with (a := RmInd ma); [byt|byt|sc|exact Fa|exact La|exact Fb|exact Hd|].
    intros o k Eo Ho No Hk. destruct Ho as [[n ->]|[m ->]]; [|apply as_gas_intro; reflexivity].
    cbn [d_rm] in Eo. unfold d_mem, guard, obind in Eo. repeat match type of Eo with context [match ?z with _ => _ end] => destruct z; try discriminate Eo end.
Qed.
Lemma shift_gas sz k m a b g t x : 0 <= k <= 7 -> shf_no m = k -> always (rm_exprs a) -> rm_lab a ->
  shift_op sz k a b = Some g -> t_exec ev lenv r0 g = Some t -> d_shift val rel m (width_of sz) a b = Some x -> canon t (match b with RiImm e => with_count (i64 (val e)) x | _ => x end).
Proof.
  intros Hk Hm Fa La Hc Ht Hd. destruct b as [e|c]; cbn [d_shift] in Hd.
  - unfold guard in Hd. destruct (in_i8 (i64 (val e))) eqn:E8; [|discriminate Hd]. cbn [obind] in Hd.
    assert (Hd' : d_two (Shift m) (width_of sz) (d_rm val rel (width_of sz) a) (Some (OImm (i64 (val e)))) = Some (with_count (i64 (val e)) x)).
    { destruct (d_rm val rel (width_of sz) a); [|discriminate Hd]. cbn [d_two obind] in *. injection Hd as <-. reflexivity. }
    clear Hd. rename Hd' into Hd. generalize dependent (with_count (i64 (val e)) x). clear x. intros x Hd.
    destruct sz; try discriminate Hc; cbn [width_of shift_op] in *; injection Hc as <-; texec Ht; rewrite E8 in Ht;
    destruct (i64 (val e) =? 1) eqn:E1; injection Ht as <-; rewrite ?tseq_ret_r; apply pre0;
    (eapply g_mi; [byt|byt|sc|exact Hk|exact Fa|exact La|exact Hd|]); intros o Ho No Io; (apply as_gas_intro; [destruct Ho as [[[] ->]|[? ->]]; reflexivity|]);
    unfold gas, gas_shift; cbn [i_mnem i_ops i_width]; rewrite Hm.
    1,3: (replace (i64 (val e)) with 1 by lia; destruct Ho as [[? ->]|[? ->]]; reflexivity).
    all: rewrite fl_B; destruct (i64 (val e)) as [|[]|] eqn:Ev; try discriminate E1; destruct Ho as [[? ->]|[? ->]]; reflexivity.
  - unfold guard in Hd. destruct (reg_no val c =? 1) eqn:Ec; [|discriminate Hd]. cbn [obind] in Hd.
    destruct sz; try discriminate Hc; cbn [width_of shift_op] in *; injection Hc as <-; texec Ht.
    all: destruct (negb _); injection Ht as <-; rewrite ?tseq_ret_r; [apply canon_fail with (e := ImmRange); reflexivity|]; rewrite ?tseq_ret_l; apply pre0;
    (eapply g_mi; [byt|byt|sc|exact Hk|exact Fa|exact La|exact Hd|]); intros o Ho No Io; (apply as_gas_intro; [apply long_noimm; discriminate|]);
    unfold gas, gas_shift; cbn [i_mnem i_ops i_width]; rewrite Hm; destruct Ho as [[? ->]|[? ->]]; reflexivity.
Qed.

(** *** the rest *)
Lemma fp_gas pre op rk m a b t x : Forall is_byte pre -> 0 <= op <= 255 -> always [a] -> always (xm_exprs b) -> xm_lab b -> is_w rk = false -> rk <> RexByte ->
  t = tseq (tbytes pre) (t_encode [0x0f; op] rk (ModReg (run_reg ev r0 a)) (run_rm ev lenv r0 (grm_of_xm b)) ImmNone) ->
  (forall n o, gas (mkIns m W64 [OXmm n; o]) = Some (form pre false false [0x0f; op] n o [])) ->
  d_fp val rel m a b = Some x -> canon t x.
Proof.
  intros Hp Ho Fa Fb Lb Hw Hk -> Hg Hd. eapply (g_xx pre [0x0f; op] rk r0); [exact Hp|byt|sc|exact Fa|exact Fb|exact Lb|exact Hd|].
  intros o n Io No Hn. apply as_gas_intro; [apply long_noimm; destruct Io as [[? ->]|[? ->]]; discriminate|]. rewrite Hg, Hw.
  destruct rk; first [discriminate Hw|congruence|reflexivity].
Qed.
Lemma rm_gas pre op rk m w ws a b t x : Forall is_byte pre -> Forall is_byte op -> always (reg_exprs a) -> always (rm_exprs b) -> rm_lab b -> is_w rk = is64 w -> rk <> RexByte -> (rk = RexNone -> ws <> W8) ->
  t = tseq (tbytes pre) (t_encode op rk (ModReg (run_reg ev r0 (greg_of a))) (run_rm ev lenv r0 (grm_of_rm b)) ImmNone) ->
  (forall n o, gas (mkIns m w [OReg w n; o]) = Some (form pre (is64 w) (needs_rex o) op n o [])) ->
  d_two m w (d_reg val w a) (d_rm val rel ws b) = Some x -> canon t x.
Proof.
  intros Hp Ho Fa Fb Lb Hw Hk H8 -> Hg Hd. eapply (g_rm pre op rk r0); [exact Hp|exact Ho|sc|exact Fa|exact Fb|exact Lb|exact Hd|].
  intros o n Io No Hn. apply as_gas_intro; [apply long_noimm; destruct Io as [[? ->]|[? ->]]; discriminate|]. rewrite Hg. f_equal. rewrite <- Hw.
  destruct rk; [apply form_w; [lia|exact No]| |elim Hk; reflexivity]. f_equal. cbn [ff].
  destruct Io as [[k ->]|[k ->]]; [|reflexivity]. cbn [needs_rex]. destruct ws; try reflexivity. elim (H8 eq_refl eq_refl).
Qed.
Lemma m_gas rk k m w a op t x : Forall is_byte op -> 0 <= k <= 7 -> always (rm_exprs a) -> rm_lab a -> is_w rk = is64 w -> rk <> RexByte -> w <> W8 ->
  t = t_encode op rk (ModDigit k) (run_rm ev lenv r0 (grm_of_rm a)) ImmNone ->
  (forall o, is_rm w o -> gas (mkIns m w [o]) = Some (form [] (is64 w) false op k o [])) ->
  d_one m w (d_rm val rel w a) = Some x -> canon t x.
Proof.
  intros Ho Hk Fa La Hw Hb H8 -> Hg Hd. apply pre0. eapply (g_m [] op rk r0); [byt|exact Ho|sc|exact Hk|exact Fa|exact La|exact Hd|].
  intros o Io No. apply as_gas_intro; [destruct m; try reflexivity; destruct Io as [[[] ->]|[? ->]]; reflexivity|]. rewrite (Hg o Io), Hw. destruct rk; first [congruence|reflexivity].
Qed.
Lemma mm_gas k m a op t x : Forall is_byte op -> 0 <= k <= 7 -> always (mem_exprs a) -> lab_ok a ->
  t = t_encode op RexNone (ModDigit k) (run_rm ev lenv r0 (GRmInd a)) ImmNone ->
  (forall o, gas (mkIns m W64 [OMem o]) = Some (form [] false false op k (OMem o) [])) ->
  d_one m W64 (d_mem val rel a) = Some x -> canon t x.
Proof.
  intros Ho Hk Fa La -> Hg Hd. unfold d_one in Hd. destruct (d_mem val rel a) as [o|] eqn:E; [|discriminate Hd]. injection Hd as <-.
  destruct (mem_is r0 a o (Fa r0 sc0) La E) as [[q ->] Iq]. apply pre0.
  eapply canon_goes; [apply (go_ff [] op RexNone (ModDigit k) _ _ ImmNone ltac:(byt) Ho Hk Iq)|].
  apply as_gas_intro; [destruct m; reflexivity|apply Hg].
Qed.
Lemma mr_gas k m n op t x : Forall is_byte op -> 0 <= k <= 7 ->
  t = t_encode op RexNone (ModDigit k) (run_rm ev lenv r0 (GRmReg (ELit n))) ImmNone ->
  (forall o, gas (mkIns m W64 [OReg W64 o]) = Some (form [] false false op k (OReg W64 o) [])) ->
  d_one m W64 (d_reg val W64 (RReg n)) = Some x -> canon t x.
Proof.
  intros Ho Hk -> Hg Hd. unfold d_one in Hd. destruct (d_reg val W64 (RReg n)) as [o|] eqn:E; [|discriminate Hd]. injection Hd as <-.
  assert (Fa : agree r0 (reg_exprs (RReg n))) by (intros ? []).
  destruct (reg_is r0 (RReg n) o W64 Fa E) as (k0 & -> & Hn & En). cbn [greg_of] in En. apply pre0.
  eapply canon_goes; [apply (go_ff [] op RexNone (ModDigit k) _ (OReg W64 k0) ImmNone ltac:(byt) Ho Hk)|].
  { cbn [run_rm]. rewrite En. apply ris_reg. exact Hn. }
  apply as_gas_intro; [destruct m, k0; reflexivity|apply Hg].
Qed.
Lemma pp_gas op m r t x : op = 0x50 \/ op = 0x58 -> always (reg_exprs r) ->
  t = t_o RexNone op (run_reg ev r0 (greg_of r)) ->
  (forall n, gas (mkIns m W64 [OReg W64 n]) = Some (oform [] false false op n [])) ->
  d_one m W64 (d_reg val W64 r) = Some x -> canon t x.
Proof.
  intros Ho Fa -> Hg Hd. unfold d_one in Hd. destruct (d_reg val W64 r) as [o|] eqn:E; [|discriminate Hd]. cbn [obind] in Hd. injection Hd as <-.
  destruct (reg_is r0 r o W64 (Fa r0 sc0) E) as (n & -> & Hn & ->).
  pose proof (go_op [] RexNone op n [] [] ltac:(byt) ltac:(tauto) Hn eq_refl) as H. change (@nil item, @None panic) with tret in H.
  rewrite tseq_ret_r in H. apply goes_pre0 in H. eapply canon_goes; [exact H|]. apply as_gas_intro; [destruct m, n; reflexivity|apply Hg].
Qed.
Lemma always_incl es es' : always es -> (forall e, In e es' -> In e es) -> always es'.
Proof. intros H I r Hr e He. apply (H r Hr e (I e He)). Qed.
Lemma cc_same c : cc_of c = cond_code c. Proof. destruct c; reflexivity. Qed.
Lemma cc_range c : 0 <= cond_code c <= 15. Proof. destruct c; cbn; lia. Qed.


Ltac al := match goal with |- always _ => eapply always_incl; [eassumption|];
  let e := fresh "e" in intro e; unfold addr_exprs, regs_of, xmms_of, mems_of;
  cbn [operands fst snd]; repeat match goal with o : rm_operand |- _ => destruct o | o : rmi_operand |- _ => destruct o | o : ri_operand |- _ => destruct o | o : xm_operand |- _ => destruct o | o : mov_operand |- _ => destruct o end;
  cbn [rm_regs rm_mems rmi_regs rmi_mems ri_regs xm_xmms xm_mems mov_regs mov_xmms mov_mems flat_map app rm_exprs rmi_exprs ri_exprs xm_exprs mov_exprs reg_exprs In];
  rewrite ?in_app_iff; cbn [In]; tauto end.
Lemma labs_of i a : Forall lab_ok (mems_of i) -> In a (mems_of i) -> lab_ok a.
Proof. intros H I. rewrite Forall_forall in H. exact (H a I). Qed.
Ltac lab := match goal with H : Forall lab_ok (mems_of ?i) |- _ =>
  repeat match goal with o : rm_operand |- _ => destruct o | o : rmi_operand |- _ => destruct o | o : xm_operand |- _ => destruct o | o : mov_operand |- _ => destruct o end;
  cbn [rm_lab xm_lab rmi_lab mov_lab]; try exact I; (eapply labs_of; [exact H|]); unfold mems_of; cbn [operands snd rm_mems rmi_mems xm_mems mov_mems app In]; tauto end.
Ltac one Ht := texec Ht; injection Ht as <-; rewrite ?tseq_ret_r.
Ltac pre := match goal with |- canon (tseq (titem _) _) _ => apply pre1 | _ => apply pre0 end.
Ltac fps Ht := one Ht; pre; (eapply fp_gas; [| | | | | | |reflexivity| |eassumption]); [byt|lia|al|al|lab|reflexivity|discriminate|reflexivity].
Ltac rms Ht := one Ht; pre; (eapply rm_gas; [| | | | | | | |reflexivity| |eassumption]); [byt|byt|al|al|lab|reflexivity|discriminate|discriminate|reflexivity].
Ltac ms Ht := one Ht; (eapply m_gas; [| | | | | | |reflexivity| |eassumption]); [byt|lia|al|lab|reflexivity|discriminate|discriminate|intros ? [[? ->]|[? ->]]; reflexivity].
Ltac fixed Ht := one Ht; match goal with H : Some _ = Some ?x |- canon _ ?x => injection H as <- end;
  eapply canon_goes; [split; reflexivity|]; (apply as_gas_intro; reflexivity).

Lemma goes_more t bs its : goes t bs -> goes (tseq t (its, None)) (bs ++ flat fil its).
Proof. destruct t as [l o]. intros [H <-]. cbn [snd fst] in H. subst o. split; [reflexivity|]. cbn [tseq fst snd]. apply flat_app. Qed.
Lemma form_more pre w c op n o imm : form pre w c op n o [] ++ imm = form pre w c op n o imm.
Proof. unfold form. rewrite <- !app_assoc. reflexivity. Qed.
Lemma roundpd_gas a b e t x : always [a] -> always (xm_exprs b) -> xm_lab b -> 0 <= val e <= 255 ->
  t_exec ev lenv r0 (GDo (GEmitb 0x66) (g2 (GEncMr [0x0f; 0x3a; 0x09] a (grm_of_xm b)) (GEmitbExpr e))) = Some t ->
  denote val rel (IRoundpd a b e) = Some x -> canon t x.
Proof.
  intros Fa Fb Lb He Ht Hd. cbn [denote] in Hd. destruct (d_xmm val a) as [oa|] eqn:Ha; [|discriminate Hd]. destruct (d_xm val rel b) as [ob|] eqn:Hb; [|discriminate Hd].
  cbn [obind] in Hd. destruct (guard _); [|discriminate Hd]. cbn [obind] in Hd. injection Hd as <-.
  destruct (xm_op r0 b ob (Fb r0 sc0) Lb Hb) as [Kb Ib]. destruct (xmm_is r0 a oa (Fa r0 sc0) Ha) as (n & -> & Hn & En).
  texec Ht. rewrite En in Ht. injection Ht as <-. rewrite ?tseq_ret_r.
  pose proof (go_ff [0x66] [0x0f; 0x3a; 0x09] RexNone (ModReg n) _ _ ImmNone ltac:(byt) ltac:(byt) Hn Ib) as G.
  apply goes_more with (its := [IB (val e)]) in G. rewrite form_more in G.
  change (tbytes [102]) with (titem (IB 102)) in G. rewrite tseq_assoc in G. eapply canon_goes; [exact G|]. apply as_gas_intro; [reflexivity|].
  unfold gas. cbn [i_mnem i_ops is_w ff mm_no]. reflexivity.
Qed.
Lemma call_disp_gas e t x : t_exec ev lenv r0 (GIf (CTry32Of e) (g2 (GEmitb 0xe8) GEmitlImm) GPanic GNil) = Some t ->
  d_dest val rel Call (DestDisp e) = Some x -> canon t x.
Proof.
  intros Ht Hd. cbn [d_dest] in Hd. unfold guard in Hd. destruct (in_i32 (i64 (val e))) eqn:E; [|discriminate Hd]. cbn [obind] in Hd. injection Hd as <-.
  texec Ht. rewrite E in Ht. texec Ht. injection Ht as <-. rewrite ?tseq_ret_r. eapply canon_goes; [split; [reflexivity|reflexivity]|].
  apply as_gas_intro; [reflexivity|]. unfold gas. cbn [i_mnem i_ops]. f_equal.
  cbn [tseq titem fst snd]. change ([IB 232] ++ [IL (u32 (i64 (val e)))]) with ([IB 232] ++ imm_items (ImmL (i64 (val e)))). rewrite flat_app, fl_L. reflexivity.
Qed.

Lemma inst_gas i g t x : is_instr i = true -> is_cvttsd2siq i = false -> always (addr_exprs i) -> Forall lab_ok (mems_of i) ->
  roundpd_u8 ev r0 i -> compile i = Some g -> t_exec ev lenv r0 g = Some t -> denote val rel i = Some x -> canon t (count_written val i x).
Proof.
  intros Hi Hk Fx Lx Rx Hc Ht Hd. destruct i; try discriminate Hi; try discriminate Hk; cbn [compile denote] in Hc, Hd; cbn [count_written].
  all: try (eapply shift_gas; [| | | |exact Hc|exact Ht|exact Hd]; [lia|reflexivity|al|lab]).
  all: try (unfold binary_sd_op in Hc; injection Hc as <-; fps Ht).
  all: try (injection Hc as <-; rms Ht).
  all: try (unfold divide_op in Hc; injection Hc as <-; ms Ht).
  all: try (injection Hc as <-; fixed Ht).
  - eapply movq_gas; [| | | |exact Hc|exact Ht|exact Hd]; [al|lab|al|lab].
  - eapply movl_gas; [| | | |exact Hc|exact Ht|exact Hd]; [al|lab|al|lab].
  - eapply movw_gas; [| | | |exact Hc|exact Ht|exact Hd]; [al|lab|al|lab].
  - eapply movb_gas; [| | | |exact Hc|exact Ht|exact Hd]; [al|lab|al|lab].
  - eapply (alu_gas sz 0 a b); [lia| | | | |exact Hc|exact Ht|exact Hd]; [al|lab|al|lab].
  - eapply (alu_gas sz 5 a b); [lia| | | | |exact Hc|exact Ht|exact Hd]; [al|lab|al|lab].
  - eapply (alu_gas sz 2 a b); [lia| | | | |exact Hc|exact Ht|exact Hd]; [al|lab|al|lab].
  - eapply (alu_gas sz 3 a b); [lia| | | | |exact Hc|exact Ht|exact Hd]; [al|lab|al|lab].
  - eapply (alu_gas sz 4 a b); [lia| | | | |exact Hc|exact Ht|exact Hd]; [al|lab|al|lab].
  - eapply (alu_gas sz 1 a b); [lia| | | | |exact Hc|exact Ht|exact Hd]; [al|lab|al|lab].
  - eapply (alu_gas sz 6 a b); [lia| | | | |exact Hc|exact Ht|exact Hd]; [al|lab|al|lab].
  - eapply (alu_gas sz 7 a b); [lia| | | | |exact Hc|exact Ht|exact Hd]; [al|lab|al|lab].
  - destruct (guard _); [|discriminate Hd]. cbn [obind] in Hd. eapply xchg_gas; [| | | |exact Hc|exact Ht|exact Hd]; [al|lab|al|lab].
  - destruct a as [|ra|]; try discriminate Hc. destruct b as [|rb|mb]; cbn [grm_of_rmi] in Hc; try discriminate Hc; injection Hc as <-; one Ht; pre.
    + (eapply (rm_gas [] [0x0f; 0xaf] REXW Imul W64 W64 ra (RmReg rb)); [| | | | | | | |reflexivity| |exact Hd]); [byt|byt|al|al|exact I|reflexivity|discriminate|discriminate|reflexivity].
    + (eapply (rm_gas [] [0x0f; 0xaf] REXW Imul W64 W64 ra (RmInd mb)); [| | | | | | | |reflexivity| |exact Hd]); [byt|byt|al|al|lab|reflexivity|discriminate|discriminate|reflexivity].
  - destruct a as [ra|]; [|discriminate Hc]. destruct b as [|mb]; [discriminate Hc|]. injection Hc as <-. one Ht. pre.
    eapply (g_rmem [] [0x8d] REXW r0); [byt|byt|sc|al|al|lab|exact Hd|]. fin.
  - eapply testq_gas; [| | |exact Hc|exact Ht|exact Hd]; [al|lab|al].
  - eapply testb_gas; [| | |exact Hc|exact Ht|exact Hd]; [al|lab|al].
  - rewrite cc_same in Hd. pose proof (cc_range c) as Hcc. injection Hc as <-. one Ht. pre.
    eapply (g_m [] [0x0f; 0x90 + cond_code c] RexByte r0); [byt|byt|sc|cbn; lia|al|lab|exact Hd|].
    intros o Io No. destruct Io as [[n ->]|[m ->]]; (apply as_gas_intro; [try destruct n; reflexivity|reflexivity]).
  - rewrite cc_same in Hd. pose proof (cc_range c) as Hcc. destruct sz; try discriminate Hc; injection Hc as <-; cbn [width_of] in Hd; rms Ht.
  - destruct (guard _); [|discriminate Hd]. cbn [obind] in Hd. destruct a as [xa|ma].
    + injection Hc as <-. one Ht. pre. change (d_fp val rel (MovF SD) xa b = Some x) in Hd. (eapply fp_gas; [| | | | | | |reflexivity| |exact Hd]); [byt|lia|al|al|lab|reflexivity|discriminate|reflexivity].
    + destruct b as [xb|mb]; [|discriminate Hc]. injection Hc as <-. one Ht. pre. eapply (g_mx [0xf2] [0x0f; 0x11] RexNone r0); [byt|byt|sc|al|al|lab|exact Hd|].
      intros o n [m ->] No Hn. apply as_gas_intro; reflexivity.
  - injection Hc as <-. eapply roundpd_gas; [| | | |exact Ht|exact Hd]; [al|al|lab|exact Rx].
  - injection Hc as <-. one Ht. pre. eapply (g_xr [0xf2] [0x0f; 0x2a] REXW r0); [byt|byt|sc|al|al|lab|exact Hd|].
    intros o n [[k ->]|[m ->]] No Hn _; (apply as_gas_intro; reflexivity).
  - destruct a as [ra|ma]; injection Hc as <-; one Ht; [|eapply (mm_gas 6 Push ma [0xff]); [byt|lia|al|lab|reflexivity|reflexivity|exact Hd]]. (eapply (pp_gas 0x50); [auto| |reflexivity| |exact Hd]); [al|reflexivity].
  - destruct a as [ra|ma]; injection Hc as <-; one Ht; [|eapply (mm_gas 0 Pop ma [0x8f]); [byt|lia|al|lab|reflexivity|reflexivity|exact Hd]]. (eapply (pp_gas 0x58); [auto| |reflexivity| |exact Hd]); [al|reflexivity].
  - destruct d as [n|l|e|a]; try discriminate Hc; injection Hc as <-; cbn [d_dest] in Hd.
    + one Ht. eapply (mr_gas 4 Jmp n [0xff]); [byt|lia|reflexivity|reflexivity|exact Hd].
    + fixed Ht.
    + one Ht. eapply (mm_gas 4 Jmp a [0xff]); [byt|lia|al|lab|reflexivity|reflexivity|exact Hd].
  - pose proof (cc_range c) as Hcc. rewrite cc_same in Hd. injection Hc as <-. one Ht. injection Hd as <-.
    eapply canon_goes; [split; reflexivity|]. apply as_gas_intro; [reflexivity|]. unfold gas. cbn [i_mnem i_ops]. f_equal.
    cbn [t_enc_d tseq titem tbytes fst snd map app flat flat_map item_bytes]. rewrite !u8_id by (unfold is_byte; lia). reflexivity.
  - destruct d as [n|l|e|a].
    + injection Hc as <-. one Ht. eapply (mr_gas 2 Call n [0xff]); [byt|lia|reflexivity|reflexivity|exact Hd].
    + injection Hc as <-. cbn [d_dest] in Hd. fixed Ht.
    + injection Hc as <-. eapply call_disp_gas; [exact Ht|exact Hd].
    + injection Hc as <-. one Ht. eapply (mm_gas 2 Call a [0xff]); [byt|lia|al|lab|reflexivity|reflexivity|exact Hd].
  - destruct sz; try discriminate Hc; injection Hc as <-; cbn [width_of] in Hd; rms Ht.
  - destruct sz; try discriminate Hc; injection Hc as <-; cbn [width_of] in Hd; rms Ht.
  - destruct sz; try discriminate Hc; injection Hc as <-; cbn [width_of] in Hd; rms Ht.
Qed.
End Gas.
