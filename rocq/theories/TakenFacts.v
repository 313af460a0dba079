(** Every instruction, whatever its operands: what is assembled and what is refused. *)
From Verif Require Import Base ModelMem ModelEnc ModelSyntax ModelMacro SpecX86 SpecAsm SpecState SpecTaken
  Trace Emit EncDec Fidelity FidelityInst StateFid EncFacts.
Ltac Zify.zify_post_hook ::= Z.div_mod_to_equations.

Lemma is_instr_taken val i : is_instr (taken val i) = is_instr i. Proof. destruct i; reflexivity. Qed.

Section Taken.
Variables (ev : list tok -> env -> Z) (lenv : string -> label) (r : env).
Notation val := (eval ev r).
Notation rel0 := (fun x => i32 (zeros (lenv x))).
Notation reg_good := (reg_good ev r).
Notation xmm_good := (xmm_good ev r).
Notation mem_good := (mem_good ev lenv zeros r).

(** ** An instruction with a meaning has good operands *)
Lemma two_inv m w x y z : d_two m w x y = Some z -> x <> None /\ y <> None.
Proof. unfold d_two. destruct x; [|discriminate]. destruct y; [|discriminate]. split; discriminate. Qed.
Lemma one_inv m w x z : d_one m w x = Some z -> x <> None.
Proof. unfold d_one. destruct x; [|discriminate]. discriminate. Qed.
Lemma reg_inv w x : d_reg val w (taken_reg val x) <> None -> reg_good x.
Proof. unfold d_reg, Fidelity.reg_good. destruct (is_gpr _); [reflexivity|]. cbn. congruence. Qed.
Lemma xmm_inv x : d_xmm val (taken_xmm val x) <> None -> xmm_good x.
Proof. unfold d_xmm, Fidelity.xmm_good. destruct (is_gpr _); [reflexivity|]. cbn. congruence. Qed.
Lemma mem_inv m : scale_ok m -> d_mem val rel0 (taken_mem val m) <> None -> mem_good m.
Proof. split; assumption. Qed.
Lemma rm_inv w a : Forall scale_ok (rm_mems a) -> d_rm val rel0 w (taken_rm val a) <> None ->
  Forall reg_good (rm_regs a) /\ Forall mem_good (rm_mems a).
Proof.
  destruct a; cbn [rm_mems rm_regs taken_rm d_rm]; intros Hs H; split; repeat constructor; eauto using reg_inv; try exact H; inversion Hs; assumption.
Qed.
Lemma rmi_inv w a : Forall scale_ok (rmi_mems a) -> d_rmi val rel0 w (taken_rmi val a) <> None ->
  Forall reg_good (rmi_regs a) /\ Forall mem_good (rmi_mems a).
Proof.
  destruct a; cbn [rmi_mems rmi_regs taken_rmi d_rmi]; intros Hs H; split; repeat constructor; eauto using reg_inv; try exact H; inversion Hs; assumption.
Qed.
Lemma ri_inv w a : d_ri val w (taken_ri val a) <> None -> Forall reg_good (ri_regs a).
Proof. destruct a; cbn [ri_regs taken_ri d_ri]; intros H; repeat constructor; eauto using reg_inv. Qed.
Lemma xm_inv a : Forall scale_ok (xm_mems a) -> d_xm val rel0 (taken_xm val a) <> None ->
  Forall xmm_good (xm_xmms a) /\ Forall mem_good (xm_mems a).
Proof.
  destruct a; cbn [xm_mems xm_xmms taken_xm d_xm]; intros Hs H; split; repeat constructor; eauto using xmm_inv; try exact H; inversion Hs; assumption.
Qed.
Lemma alu_inv m w a b z : Forall scale_ok (rm_mems a) -> Forall scale_ok (rmi_mems b) ->
  d_alu val rel0 m w (taken_rm val a) (taken_rmi val b) = Some z ->
  (Forall reg_good (rm_regs a) /\ Forall reg_good (rmi_regs b)) /\ (Forall mem_good (rm_mems a) /\ Forall mem_good (rmi_mems b)).
Proof.
  intros Ha Hb H. unfold d_alu, guard in H. destruct (negb _); [|discriminate H]. cbn [obind] in H.
  apply two_inv in H. destruct H as [H1 H2]. destruct (rm_inv _ _ Ha H1). destruct (rmi_inv _ _ Hb H2). auto.
Qed.
Lemma shift_inv m w a b z : Forall scale_ok (rm_mems a) ->
  d_shift val rel0 m w (taken_rm val a) (taken_count val b) = Some z ->
  Forall reg_good (rm_regs a) /\ Forall mem_good (rm_mems a).
Proof.
  intros Ha H. destruct b; cbn [taken_count d_shift] in H; unfold guard in H; destruct (_ : bool); try discriminate H; cbn [obind] in H;
    apply two_inv in H; destruct H as [H1 H2]; eapply rm_inv; eassumption.
Qed.
Ltac fall := repeat match goal with
  | H : Forall _ (_ ++ _) |- _ => apply Forall_app in H; destruct H
  | H : Forall _ (_ :: _) |- _ => apply Forall_cons_iff in H; destruct H
  | H : Forall _ [] |- _ => clear H
  | H : _ /\ _ |- _ => destruct H
  end.
Lemma defined_good i x : Forall scale_ok (mems_of i) -> denote val rel0 (taken val i) = Some x -> operands_taken ev lenv zeros r i.
Proof.
  unfold operands_taken, xmms_of, mems_of. intros Hs H.
  destruct i; cbn [checked_regs operands fst snd] in *; unfold regs_of; cbn [operands fst snd]; cbn [taken denote] in H;
  fall;
  try (apply alu_inv in H; [|assumption|assumption]; fall; repeat split; try apply Forall_app; auto; fail);
  try (apply shift_inv in H; [|assumption]; fall; repeat split; try apply Forall_app; auto; fail);
  try (unfold d_fp in H; apply two_inv in H; destruct H as [K1 K2];
       try (apply reg_inv in K1); try (apply xmm_inv in K1); try (apply rm_inv in K1; [|assumption]);
       try (apply rm_inv in K2; [|assumption]); try (apply xm_inv in K2; [|assumption]); try (apply ri_inv in K2);
       fall; repeat split; rewrite ?Forall_app; repeat constructor; auto; fail);
  try (apply one_inv in H; apply rm_inv in H; [|assumption]; fall; repeat split; auto; fail);
  try (repeat split; constructor).
  - destruct a, b; cbn [mov_regs mov_xmms mov_mems taken_mov d_movq app] in *; fall; try discriminate H;
    repeat match type of H with context [match ?x with _ => _ end] => is_var x; destruct x; try discriminate H end;
    apply two_inv in H; fall; repeat split; repeat constructor; eauto using reg_inv, xmm_inv, mem_inv.
    all: try (split; assumption).
  - unfold guard in H. destruct (negb _); [|discriminate H]. cbn [obind] in H. apply two_inv in H. destruct H as [K1 K2].
    apply rm_inv in K1; [|assumption]. apply rm_inv in K2; [|assumption]. fall. repeat split; rewrite ?Forall_app; auto.
  - destruct a, b; cbn [rmi_regs rmi_mems taken_rmi app] in *; fall; try discriminate H;
    apply two_inv in H; fall; repeat split; repeat constructor; eauto using reg_inv.
  - destruct a, b; cbn [rm_regs rm_mems taken_rm app] in *; fall; try discriminate H;
    apply two_inv in H; fall; repeat split; repeat constructor; eauto using reg_inv.
  - unfold guard in H. destruct (negb _); [|discriminate H]. cbn [obind] in H. apply two_inv in H. destruct H as [K1 K2].
    apply xm_inv in K1; [|assumption]. apply xm_inv in K2; [|assumption]. fall. repeat split; rewrite ?Forall_app; auto.
  - destruct (d_xmm val (taken_xmm val a)) eqn:Ea; [|discriminate H]. destruct (d_xm val rel0 (taken_xm val b)) eqn:Eb; [|discriminate H].
    assert (K1 := xmm_inv a). assert (K2 := xm_inv b). rewrite Ea in K1. rewrite Eb in K2. 
    destruct K2; [assumption|discriminate|]. repeat split; repeat constructor; auto. apply K1. discriminate.
  - destruct d; cbn [fst snd taken_dest d_dest] in *; fall; try discriminate H; repeat split; repeat constructor; auto.
    + apply (reg_inv W64). intro K. change (taken_reg val (RReg n)) with (RReg (reg_taken n)) in K. rewrite K in H. discriminate H.
    + intro K. rewrite K in H. discriminate H.
  - destruct d; cbn [fst snd taken_dest d_dest] in *; fall; try discriminate H; repeat split; repeat constructor; auto.
    + apply (reg_inv W64). intro K. change (taken_reg val (RReg n)) with (RReg (reg_taken n)) in K. rewrite K in H. discriminate H.
    + intro K. rewrite K in H. discriminate H.
Qed.

(** ** Bad operands are refused *)
Lemma sib_refused k i b : 16 <= i -> snd (t_sib k i b) <> None.
Proof.
  intro H. unfold t_sib. apply snd_seq_r, snd_seq_l. unfold tassert. replace (i <? 16) with false by lia. discriminate.
Qed.
Lemma bad_mem_enc r' m op rk mm i : agree ev r r' (mem_exprs m) -> scale_ok m -> d_mem val rel0 (taken_mem val m) = None ->
  snd (t_encode op rk mm (run_rm ev lenv r' (GRmInd m)) i) <> None.
Proof.
  intros Ha Hs Hn. unfold mem_exprs in Ha. apply agree_app in Ha. destruct Ha as [Ha1 Ha].
  apply agree_app in Ha. destruct Ha as [Ha2 Ha3].
  unfold d_mem, taken_mem in *. cbn [ia_disp ia_base ia_scale reg_no] in *.
  destruct (disp_bridge ev lenv zeros r r' _ Ha3) as [_ Hdv]. rewrite Hdv in *. cbn [obind] in *.
  assert (Eb : run_reg ev r' (greg_of (ia_base m)) = u8 (reg_no val (ia_base m))) by (unfold run_reg; rewrite (reg_eval ev r) by exact Ha1; reflexivity).
  cbn [run_rm]. unfold rm_ind. rewrite Eb. set (b := reg_no val (ia_base m)) in *. clearbody b.
  assert (Hb : reg_taken b = 16 /\ u8 b = 16 \/ is_gpr (reg_taken b) = true /\ is_rip (u8 b) = false /\ reg_taken b <> 16).
  { unfold reg_taken, u8, is_gpr, is_rip, rip. destruct (b mod 256 =? 16) eqn:E; [left; lia|right]. repeat split; lia. }
  unfold scale_ok in Hs. destruct (ia_scale m) as [|k x]; cbn [run_scale taken_scale] in *.
  { exfalso. destruct Hb as [[E _]|(G & _ & E)]; [rewrite E in Hn; discriminate Hn|].
    replace (reg_taken b =? 16) with false in Hn by lia. rewrite G in Hn. discriminate Hn. }
  assert (Ex : run_reg ev r' (greg_of x) = u8 (reg_no val x)) by (unfold run_reg; rewrite (reg_eval ev r) by exact Ha2; reflexivity).
  rewrite Ex. unfold taken_index in Hn. fold (u8 (reg_no val x)) in Hn. set (i' := u8 (reg_no val x)) in *.
  unfold t_encode. apply snd_seq_r. cbn [rm_base rm_mode].
  destruct Hb as [[_ ->]|(G & R & N)]; [discriminate|]. rewrite R. cbn [mode_is_reg negb andb is_indirect_no_disp mode_scale].
  assert (Hi : 16 <= i').
  { replace (reg_taken b =? 16) with false in Hn by lia. rewrite G in Hn. cbn [negb] in Hn. rewrite andb_true_r in Hn.
    destruct (i' =? 4) eqn:E4; [discriminate Hn|]. cbn [reg_no] in Hn. rewrite E4 in Hn.
    destruct (is_gpr i') eqn:Gi.
    - replace (0 <=? k) with true in Hn by lia. replace (k <=? 3) with true in Hn by lia. discriminate Hn.
    - unfold is_gpr in Gi. subst i'. unfold u8 in *. lia. }
  destruct (Z.land (u8 b) 7 =? 4); [do 3 apply snd_seq_r; apply snd_seq_l, sib_refused, Hi|].
  destruct (match run_disp ev lenv r' (ia_disp m) with DispNone => true | _ => false end) eqn:E.
  all: match goal with |- context [if ?b then _ else _] => destruct b end; do 3 apply snd_seq_r; apply snd_seq_l, sib_refused, Hi.
Qed.
Lemma bad_mem_byte op al d i m : (forall op rk mm i, snd (t_encode op rk mm m i) <> None) -> rm_mode m <> MReg ->
  snd (t_enc_digit_imm_byte op al m d i) <> None.
Proof.
  intros H Hm. unfold t_enc_digit_imm_byte, rm_is_rax, rm_is_reg. destruct (rm_mode m) eqn:E; [congruence|]. cbn [mode_is_reg andb]. apply H.
Qed.

Lemma bad_reg16 n : is_gpr (reg_taken n) = false -> u8 n = 16.
Proof. unfold is_gpr, reg_taken, u8. destruct (n mod 256 =? 16) eqn:E; lia. Qed.
Lemma not_forall A (P : A -> Prop) (dec : forall x, P x \/ ~ P x) l : Forall P l \/ exists x, In x l /\ ~ P x.
Proof.
  induction l as [|a l [IH|(x & H1 & H2)]]; [left; constructor| |right; exists x; cbn; auto].
  destruct (dec a); [left; constructor; assumption|right; exists a; cbn; auto].
Qed.
Lemma mem_dec m : mem_good m \/ ~ mem_good m.
Proof.
  unfold Fidelity.mem_good. assert (D : scale_ok m \/ ~ scale_ok m) by (unfold scale_ok; destruct (ia_scale m); [left; exact I|lia]).
  destruct D; [|right; tauto]. destruct (d_mem _ _ _); [left; split; [assumption|discriminate]|right; intros [_ K]; apply K; reflexivity].
Qed.
Definition refused_reg (c : register) : Prop := run_reg ev r (greg_of c) = 16 /\ forall v, run_reg ev (env_set "imm" v r) (greg_of c) = 16.
Definition refused_mem (m : ind_addr) : Prop :=
  (forall op rk mm i, snd (t_encode op rk mm (run_rm ev lenv r (GRmInd m)) i) <> None) /\
  (forall v op rk mm i, snd (t_encode op rk mm (run_rm ev lenv (env_set "imm" v r) (GRmInd m)) i) <> None).
Lemma checked_in i c : In c (checked_regs i) -> In c (regs_of i).
Proof. destruct i; cbn [checked_regs]; auto; unfold regs_of; cbn [operands fst]; intro; apply in_or_app; auto. Qed.
Lemma not_good i : no_imm_var ev r i -> Forall scale_ok (mems_of i) -> ~ operands_taken ev lenv zeros r i ->
  (exists c, In c (checked_regs i) /\ refused_reg c) \/ (exists x, In x (xmms_of i) /\ run_reg ev r x = 16) \/
  (exists m, In m (mems_of i) /\ refused_mem m).
Proof.
  intros Hn Hs Hg.
  destruct (not_forall _ reg_good) with (l := checked_regs i) as [G1|(c & H1 & H2)].
  { intro c. unfold Fidelity.reg_good. destruct (is_gpr _); auto. }
  2:{ left. exists c. split; [exact H1|]. unfold Fidelity.reg_good in H2. apply not_true_iff_false in H2.
      assert (E := bad_reg16 _ H2). split; [apply reg16; exact E|]. intro v. apply reg16'; [exact E|].
      intros e He. apply Hn. unfold addr_exprs. apply in_or_app. left. apply in_flat_map. exists c. split; [apply checked_in; exact H1|exact He]. }
  destruct (not_forall _ xmm_good) with (l := xmms_of i) as [G2|(x & H1 & H2)].
  { intro c. unfold Fidelity.xmm_good. destruct (is_gpr _); auto. }
  2:{ right. left. exists x. split; [exact H1|]. unfold Fidelity.xmm_good in H2. apply not_true_iff_false in H2. exact (bad_reg16 _ H2). }
  destruct (not_forall _ mem_good) with (l := mems_of i) as [G3|(m & H1 & H2)].
  { exact mem_dec. }
  { elim Hg. repeat split; assumption. }
  right. right. exists m. split; [exact H1|].
  assert (Sm : scale_ok m) by (rewrite Forall_forall in Hs; auto).
  assert (Dm : d_mem val rel0 (taken_mem val m) = None).
  { destruct (d_mem val rel0 (taken_mem val m)) eqn:E; [|reflexivity]. elim H2. split; [exact Sm|]. rewrite E. discriminate. }
  split; intros; apply bad_mem_enc; auto; [apply agree_self|]. intros e He. apply Hn. unfold addr_exprs. apply in_or_app. right. apply in_or_app. right.
  apply in_flat_map. eauto.
Qed.

Lemma bad_refused i g t : is_instr i = true -> no_imm_var ev r i -> Forall scale_ok (mems_of i) -> ~ operands_taken ev lenv zeros r i ->
  compile i = Some g -> t_exec ev lenv r g = Some t -> snd t <> None.
Proof.
  intros Hi Hn Hs Hg Hc Ht. pose proof (not_good i Hn Hs Hg) as D. clear Hn Hs Hg.
  unfold xmms_of, mems_of in D.
  destruct i; try discriminate Hi; cbn [checked_regs] in D; unfold regs_of in D; cbn [operands fst snd] in D; cbn [compile] in Hc;
  try (unfold binary_op, binary_opq, binary_opl, binary_opw, binary_opb, shift_op, divide_op, binary_sd_op,
         push_pop, count_op, xchg, testq, testb, movq, movl, movw, movb in Hc);
  repeat match goal with
  | x : rm_operand |- _ => destruct x | x : rmi_operand |- _ => destruct x | x : ri_operand |- _ => destruct x
  | x : xm_operand |- _ => destruct x | x : mov_operand |- _ => destruct x | x : dest |- _ => destruct x
  end; cbn [rm_regs rmi_regs ri_regs xm_xmms mov_regs mov_xmms rm_mems rmi_mems xm_mems mov_mems app In fst snd grm_of_rmi grm_of_rm grm_of_xm] in *;
  (destruct D as [(c0 & Hin & H16 & H16')|[(x0 & Hin & H16)|(m0 & Hin & M & M')]];
   repeat match goal with K : _ \/ _ |- _ => destruct K as [K|K] end; try contradiction; subst);
  repeat match goal with H : context [match ?x with _ => _ end] |- _ => is_var x; destruct x; try discriminate end;
  try discriminate Hc;
  injection Hc as <-; cbn [t_exec t_call g1 g2 run_cond run_imm greg_of grm_of_rm] in Ht;
  try (cbn [run_rm rm_reg] in Ht; cbn [greg_of] in H16; try (cbn [greg_of] in H16'); rewrite ?the_imm_set, ?H16, ?H16' in Ht);
  rewrite ?the_imm_set in Ht;
  try (change (reg_is_rax 16) with false in Ht); cbn [negb] in Ht;
  repeat match type of Ht with context [if ?b then _ else _] => destruct b end; injection Ht as <-;
  rewrite ?tseq_ret_r, ?tseq_ret_l, ?tseq_assoc.
  all: repeat first [ discriminate | (apply snd_seq_l; first [apply M|apply M'|apply bad_mem_byte; [apply M'|discriminate]|apply enc_rip_reg|apply enc_rip_rm|apply enc_rip_o|apply enc_rip_oi|apply enc_rip_rexw_o|apply enc_rip_db|discriminate])
    | apply M | apply M' | (apply bad_mem_byte; [apply M'|discriminate])
    | apply enc_rip_reg | apply enc_rip_rm | apply enc_rip_o | apply enc_rip_oi | apply enc_rip_rexw_o | apply enc_rip_db | apply snd_seq_r ].
Qed.

(** ** What every instruction is assembled to *)
Lemma good_dec i : operands_taken ev lenv zeros r i \/ ~ operands_taken ev lenv zeros r i.
Proof.
  unfold operands_taken.
  destruct (not_forall _ reg_good) with (l := checked_regs i) as [G1|(c & H1 & H2)].
  { intro c. unfold Fidelity.reg_good. destruct (is_gpr _); auto. }
  2:{ right. intros (K & _). rewrite Forall_forall in K. auto. }
  destruct (not_forall _ xmm_good) with (l := xmms_of i) as [G2|(c & H1 & H2)].
  { intro c. unfold Fidelity.xmm_good. destruct (is_gpr _); auto. }
  2:{ right. intros (_ & K & _). rewrite Forall_forall in K. auto. }
  destruct (not_forall _ mem_good) with (l := mems_of i) as [G3|(c & H1 & H2)]; [exact mem_dec|auto|].
  right. intros (_ & _ & K). rewrite Forall_forall in K. auto.
Qed.
Lemma assembled_good i x : scales_written i -> assembled val (fun _ => 0) i = Some x -> operands_taken ev lenv zeros r i.
Proof.
  intros Hs Ea. destruct (is_cvttsd2siq i) eqn:Ek.
  - destruct i; try discriminate Ek. cbn [assembled] in Ea. apply two_inv in Ea. destruct Ea as [H1 H2].
    unfold scales_written, mems_of in Hs. cbn [operands snd] in Hs. apply xm_inv in H2; [|exact Hs]. apply reg_inv in H1.
    unfold operands_taken, checked_regs, regs_of, xmms_of, mems_of. cbn [operands fst snd]. destruct H2. auto.
  - eapply defined_good; [exact Hs|]. destruct i; try discriminate Ek; exact Ea.
Qed.
Lemma taken_trace_all i g t : is_instr i = true -> no_imm_var ev r i -> roundpd_u8 ev r i -> scales_written i ->
  compile i = Some g -> t_exec ev lenv r g = Some t ->
  (exists its, t = (its, None) /\ (forall f, faithful f its (assembled val (fun x => i32 (f (lenv x))) i)) /\
     (rel_wrong i = false -> rel_ok its) /\ (rel_wrong i = true -> rel_late its)) \/
  (assembled val (fun _ => 0) i = None /\ snd t <> None).
Proof.
  intros Hi Hn Hu Hs Hc Ht. destruct (good_dec i) as [G|G].
  - destruct (is_cvttsd2siq i) eqn:Ek.
    + left. destruct i; try discriminate Ek. 
      assert (H : forall f, done f t (assembled val (fun x => i32 (f (lenv x))) (ICvttsd2siq a b))).
      { intro f. destruct (taken_rel ev lenv r zeros f _ G) as (G1 & G2 & G3). unfold checked_regs, regs_of, xmms_of, mems_of in *. cbn [operands fst snd] in *.
        inversion G1; subst. apply (cvttsd2siq_t ev lenv f r a b g t); auto. eapply xm_good_of; eauto. }
      destruct (H zeros) as (its & E & _ & R). exists its. split; [exact E|]. split; [|split; [auto|discriminate]].
      intro f. destruct (H f) as (its' & E' & F & _). rewrite E in E'. injection E' as <-. exact F.
    + destruct (inst_trace_t ev lenv r i g t Hi) as [its E F R La|N P]; auto.
      * left. exists its. split; [exact E|]. rewrite rel_wrong_taken in R, La. split; [|auto]. intro f. specialize (F f). destruct i; try discriminate Ek; exact F.
      * right. split; [destruct i; try discriminate Ek; apply N|congruence].
  - right. split; [|eapply bad_refused; eauto].
    destruct (assembled val (fun _ => 0) i) as [x|] eqn:Ea; [|reflexivity]. elim G. eapply assembled_good; eassumption.
Qed.
Lemma taken_trace i g t : is_instr i = true -> no_imm_var ev r i -> roundpd_u8 ev r i -> scales_written i ->
  compile i = Some g -> t_exec ev lenv r g = Some t ->
  (exists its, t = (its, None) /\ faithful zeros its (assembled val (fun _ => 0) i)) \/
  (assembled val (fun _ => 0) i = None /\ snd t <> None).
Proof.
  intros Hi Hn Hu Hs Hc Ht. destruct (taken_trace_all i g t Hi Hn Hu Hs Hc Ht) as [(its & E & F & _)|K]; [left|right; exact K].
  exists its. split; [exact E|exact (F zeros)].
Qed.

Lemma taken_accepted i g s r' s' : is_instr i = true -> no_imm_var ev r i -> roundpd_u8 ev r i -> scales_written i ->
  compile i = Some g -> exec ev lenv r g s = Ok r' s' ->
  exists bs x, grows s s' bs /\ assembled val (fun _ => 0) i = Some x /\ reads_as bs x.
Proof.
  intros Hi Hn Hu Hs Hc He.
  assert (Hni : match i with ILabel _ => False | _ => True end) by (destruct i; auto; discriminate Hi).
  destruct (compile_has_trace ev lenv _ g r Hc Hni) as [t Ht].
  rewrite (exec_run _ _ _ _ _ s Ht) in He.
  destruct (run_trace_cases t s) as [(s1 & E & Hsn & Em & Hr)|(e & s1 & E & _)]; rewrite E in He; [|discriminate].
  inversion He; subst; clear He.
  destruct (taken_trace i g t Hi Hn Hu Hs Hc Ht) as [(its & -> & F)|[_ K]]; [|congruence].
  destruct F as (x & y & Hd & Hsame & Hy). exists (flat zeros its), x. split; [|split; [exact Hd|exists y; auto]].
  apply emitted_grows; [exact Em|]. unfold tlen in Hr. cbn [fst] in Hr. destruct Hr as [Hr| ->]; [exact Hr|]. specialize (Hy []). discriminate Hy.
Qed.
Lemma taken_total i g s : is_instr i = true -> no_imm_var ev r i -> roundpd_u8 ev r i -> scales_written i ->
  compile i = Some g ->
  cursor s + 15 <= PAGE_SIZE -> (forall x, In x (inst_labels i) -> (lenv x < List.length (labels s))%nat) ->
  match assembled val (fun _ => 0) i with
  | Some x => exists r' s' bs, exec ev lenv r g s = Ok r' s' /\ grows s s' bs /\ reads_as bs x
  | None => exists e s', exec ev lenv r g s = Panic e s'
  end.
Proof.
  intros Hi Hn Hu Hs Hc Hr Hl.
  destruct (exec ev lenv r g s) as [r' s'|e s'] eqn:E.
  - destruct (taken_accepted i g s r' s' Hi Hn Hu Hs Hc E) as (bs & x & G & -> & R). exists r', s', bs. auto.
  - destruct (assembled val (fun _ => 0) i) as [x|] eqn:Ea; [|eauto]. exfalso.
    assert (Hni : match i with ILabel _ => False | _ => True end) by (destruct i; auto; discriminate Hi).
    destruct (compile_has_trace ev lenv _ g r Hc Hni) as [t Ht]. rewrite (exec_run _ _ _ _ _ s Ht) in E.
    pose proof (t_exec_len _ _ _ _ _ Ht) as Hlen. pose proof (compile_len _ _ Hc) as H15.
    assert (R : refs_in (fun l => (l < List.length (labels s))%nat) (fst t)).
    { eapply refs_exec; [exact Ht|]. intros y Hy. apply Hl. eapply compile_labels; eauto. }
    destruct (taken_trace i g t Hi Hn Hu Hs Hc Ht) as [(its & -> & F)|[K _]]; [|congruence].
    destruct (run_trace_cases (its, None) s) as [(s1 & E1 & _)|(e1 & s1 & E1 & _ & [[_ H]|[[_ H]|[H _]]])]; rewrite E1 in E; [discriminate| | |].
    + unfold cursor in Hr. lia.
    + elim H. eapply Forall_impl; [|exact R]. intros it. destruct it; cbn; auto.
    + discriminate H.
Qed.
End Taken.
