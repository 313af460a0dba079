(** From the trace-level results to the statements of the encoder properties. *)
From Verif Require Import Base ModelMem ModelEnc ModelSyntax ModelMacro SpecX86 SpecAsm SpecState
  Trace Emit EncDec Fidelity FidelityInst StateFid.
Ltac Zify.zify_post_hook ::= Z.div_mod_to_equations.

(** ** Appending *)
Lemma wr_nth m a : forall bs k b, nth_error bs k = Some b -> wr m a bs (a + Z.of_nat k) = b.
Proof.
  intros bs k b H. assert (Hk : (k < List.length bs)%nat) by (apply nth_error_Some; congruence).
  pose proof (read_wr m a bs) as R.
  assert (Hn : forall m n x j, nth_error (read m x n) j = if (j <? n)%nat then Some (m (x + Z.of_nat j)) else None).
  { clear. intro m. induction n as [|n IH]; intros x j; [destruct j; reflexivity|]. cbn [read]. destruct j; cbn [nth_error].
    - cbn. f_equal. f_equal. lia.
    - rewrite IH. change (S j <? S n)%nat with (j <? n)%nat. destruct (j <? n)%nat; [|reflexivity]. f_equal. f_equal. lia. }
  specialize (Hn (wr m a bs) (List.length bs) a k). rewrite R, H in Hn.
  destruct (k <? List.length bs)%nat eqn:E; [|lia]. congruence.
Qed.
Lemma emitted_grows its s s' : emitted its s s' -> counter (pages s (cur s)) + items_len its <= PAGE_SIZE ->
  grows s s' (flat zeros its).
Proof.
  intros [B C L P O M] Hr. assert (Hl := flat_len zeros its).
  assert (Ha : here s = addr s (cur s) (counter (pages s (cur s)))) by reflexivity.
  constructor; auto; try (rewrite P; cbn [with_counter counter constants data code_len code_block_top code_block]).
  - unfold cursor. lia.
  - lia.
  - auto.
  - intros k b H. rewrite M, Ha. apply wr_nth. exact H.
  - intros x H. rewrite M. apply wr_out. rewrite <- Ha. lia.
Qed.

(** ** Accepted and rejected instructions *)
Section Facts.
Variables (ev : list tok -> env -> Z) (lenv : string -> label) (r : env).
Notation val := (eval ev r).

Lemma good_of i : ordinary ev r i -> is_cvttsd2siq i = false -> good_inst ev r i.
Proof. intros (A & B & C & D) E. constructor; auto. Qed.

Lemma fid_main i g s r' s' : ordinary ev r i -> is_cvttsd2siq i = false -> compile i = Some g -> exec ev lenv r g s = Ok r' s' ->
  exists bs x, grows s s' bs /\ denote val (fun _ => 0) i = Some x /\ reads_as bs x.
Proof.
  intros Ho Hk Hc He. destruct (asm_accepted ev lenv r i g s r' s' (good_of i Ho Hk) Hc He) as (its & Em & F & _ & Hr).
  destruct (F zeros) as (x & y & Hd & Hs & Hy). exists (flat zeros its), x.
  split; [apply emitted_grows; assumption|]. split; [exact Hd|]. exists y. auto.
Qed.

Lemma fid_gp i g s r' s' : ordinary ev r i -> is_sse i = false -> compile i = Some g -> exec ev lenv r g s = Ok r' s' ->
  exists bs x, grows s s' bs /\ denote val (fun _ => 0) i = Some x /\ reads_as bs x.
Proof. intros Ho Hs. apply fid_main; [exact Ho|]. destruct i; auto. Qed.

Lemma fid_cvttsd2siq a b g s r' s' : ordinary ev r (ICvttsd2siq a b) ->
  compile (ICvttsd2siq a b) = Some g -> exec ev lenv r g s = Ok r' s' ->
  exists bs d x, grows s s' bs /\ d_xm val (fun _ => 0) b = Some d /\ x = mkIns (Cvttf2si SD) W32 [OReg W32 (reg_no val a); d] /\ reads_as bs x.
Proof.
  intros (Hi & Hw & Hn & _) Hc He. destruct (compile_has_trace ev lenv _ g r Hc I) as [t Ht].
  destruct (wf_ok ev lenv zeros r _ Hw) as (O1 & O2 & O3). unfold regs_of, xmms_of, mems_of in O1, O2, O3.
  cbn [operands fst snd] in O1, O2, O3. inversion O1; subst.
  destruct (cvttsd2siq_out ev lenv zeros r a b g t) as (its & -> & F & _); auto using wf_ok.
  rewrite (exec_run _ _ _ _ _ s Ht) in He.
  destruct (run_trace_cases (its, None) s) as [(s1 & E & _ & Em & Hr)|(e & s1 & E & _)]; rewrite E in He; [|discriminate].
  inversion He; subst; clear He. cbn [fst] in *. destruct F as (x & y & Hd & Hs & Hy).
  change (d_xm val (fun x => i32 (zeros (lenv x))) b) with (d_xm val (fun _ => 0) b) in Hd.
  unfold d_reg in Hd. rewrite H1 in Hd. cbn [guard obind d_two] in Hd.
  destruct (d_xm val (fun _ => 0) b) as [d|]; [|discriminate Hd]. injection Hd as <-.
  exists (flat zeros its), d. eexists. split; [|split; [reflexivity|split; [reflexivity|exists y; auto]]].
  apply emitted_grows; [exact Em|]. destruct Hr as [Hr| ->]; [exact Hr|]. specialize (Hy []). discriminate Hy.
Qed.

(** *** Memory operands *)
Lemma d_mem_ea rel a o rf next : d_mem val rel a = Some o ->
  exists m, o = OMem m /\ ea rf next m = written_ea val rel rf next a /\ m_disp m = written_disp val rel (ia_disp a) /\
    (match ia_disp a with PLabel _ => True | _ => in_i32 (written_disp val rel (ia_disp a)) = true end).
Proof.
  unfold d_mem, written_ea. intro H. destruct (d_disp val rel (ia_disp a)) as [d|] eqn:Ed; [|discriminate H]. cbn [obind] in H.
  assert (Hd : d = written_disp val rel (ia_disp a) /\ match ia_disp a with PLabel _ => True | _ => in_i32 (written_disp val rel (ia_disp a)) = true end).
  { unfold d_disp, written_disp, guard in *. destruct (ia_disp a) as [d0|[|] e|l]; cbn [obind] in *;
      repeat match type of Ed with context [if ?b then _ else _] => destruct b eqn:? end; cbn [obind] in *; try discriminate; inversion Ed; subst; auto. }
  destruct Hd as [Hd Hr].
  destruct (ia_scale a) as [|k x].
  - destruct (reg_no val (ia_base a) =? 16) eqn:E16.
    + injection H as <-. eexists. split; [reflexivity|]. unfold ea. cbn [m_base m_index m_disp]. rewrite Hd. auto.
    + unfold guard in H. destruct (is_gpr _); [|discriminate H]. injection H as <-. eexists. split; [reflexivity|].
      unfold ea. cbn [m_base m_index m_disp]. rewrite Hd. auto.
  - unfold guard in H. destruct (is_gpr (reg_no val (ia_base a))) eqn:Eb; [|discriminate H]. cbn [andb] in H.
    destruct (_ && _) in H; [|discriminate H]. injection H as <-. eexists. split; [reflexivity|].
    unfold ea. cbn [m_base m_index m_disp]. unfold is_gpr in Eb. destruct (_ =? 16) eqn:E16; [lia|]. rewrite Hd. auto.
Qed.
Ltac dob H := repeat (match type of H with
  | obind (guard ?b) _ = Some _ => let E := fresh "E" in destruct b eqn:E; cbn [guard obind] in H; [|discriminate H]
  | obind ?m _ = Some _ => let o := fresh "o" in let E := fresh "E" in destruct m as [o|] eqn:E; cbn [obind] in H; [|discriminate H]
  end).
Lemma d_two_ops m w a b x : d_two m w a b = Some x -> exists oa ob, a = Some oa /\ b = Some ob /\ i_ops x = [oa; ob].
Proof. unfold d_two. intro H. dob H. injection H as <-. exists o, o0. auto. Qed.
Lemma d_one_ops m w a x : d_one m w a = Some x -> exists oa, a = Some oa /\ i_ops x = [oa].
Proof. unfold d_one. intro H. dob H. injection H as <-. exists o. auto. Qed.
Lemma denote_mem rel i x a : denote val rel i = Some x -> In a (mems_of i) ->
  exists o, d_mem val rel a = Some o /\ In o (i_ops x).
Proof.
  assert (K2 : forall m w oa ob y, d_two m w oa ob = Some y -> (oa = d_mem val rel a \/ ob = d_mem val rel a) ->
    exists o, d_mem val rel a = Some o /\ In o (i_ops y)).
  { intros m w oa ob y H K. apply d_two_ops in H. destruct H as (p & q & -> & -> & ->). cbn [In].
    destruct K as [<-|<-]; eauto. }
  assert (K1 : forall m w oa y, d_one m w oa = Some y -> oa = d_mem val rel a ->
    exists o, d_mem val rel a = Some o /\ In o (i_ops y)).
  { intros m w oa y H K. apply d_one_ops in H. destruct H as (p & -> & ->). cbn [In]. rewrite <- K. eauto. }
  assert (G2 : forall m w oa ob b y, obind (guard b) (fun _ => d_two m w oa ob) = Some y -> (oa = d_mem val rel a \/ ob = d_mem val rel a) ->
    exists o, d_mem val rel a = Some o /\ In o (i_ops y)).
  { intros m w oa ob b y H K. dob H. eapply K2; eauto. }
  unfold mems_of. intros H Ha.
  destruct i; cbn [operands snd app] in Ha; try contradiction; cbn [denote] in H;
  unfold d_movq, d_alu, d_shift, d_fp, d_dest in H;
  repeat match goal with
  | x : rm_operand |- _ => destruct x | x : rmi_operand |- _ => destruct x | x : ri_operand |- _ => destruct x
  | x : xm_operand |- _ => destruct x | x : mov_operand |- _ => destruct x | x : dest |- _ => destruct x
  end; cbn [rm_mems rmi_mems xm_mems mov_mems app In snd d_rm d_rmi d_ri d_xm] in *; try contradiction;
  try (destruct size as [[]|]); try discriminate H;
  repeat match goal with K : _ \/ _ |- _ => destruct K as [K|K]; [subst a|] end; try contradiction; 
  try (eapply K1; [exact H|auto]; fail); try (eapply K2; [exact H|auto]; fail); try (eapply G2; [exact H|auto]; fail);
  try (dob H; injection H as <-; eexists; split; [reflexivity|cbn [In i_ops]; auto]; fail).
Qed.
Lemma same_mem x y m : same_ins x y -> In (OMem m) (i_ops x) -> In (OMem m) (i_ops y).
Proof. intros []; cbn [i_ops In]; intuition congruence. Qed.

Lemma mem_main i g s r' s' a rf : ordinary ev r i -> compile i = Some g -> exec ev lenv r g s = Ok r' s' -> In a (mems_of i) ->
  exists bs y m, grows s s' bs /\ (forall rest, decode (bs ++ rest) = Some (y, rest)) /\ In (OMem m) (i_ops y) /\
    ea rf (here s + Z.of_nat (List.length bs)) m = written_ea val (fun _ => 0) rf (here s + Z.of_nat (List.length bs)) a /\
    m_disp m = written_disp val (fun _ => 0) (ia_disp a).
Proof.
  intros Ho Hc He Ha. destruct (is_cvttsd2siq i) eqn:Ek.
  - destruct i; try discriminate Ek. destruct (fid_cvttsd2siq _ _ _ _ _ _ Ho Hc He) as (bs & d & x & G & Hd & -> & y & Hs & Hy).
    cbn [mems_of operands snd] in Ha. unfold mems_of in Ha. cbn [operands snd] in Ha. destruct b as [e|a']; [contradiction|].
    destruct Ha as [<-|[]]. cbn [d_xm] in Hd.
    destruct (d_mem_ea _ _ _ rf (here s + Z.of_nat (List.length bs)) Hd) as (m & -> & E1 & E2 & _).
    exists bs, y, m. split; [exact G|]. split; [exact Hy|]. split; [|auto].
    apply (same_mem _ _ _ Hs). cbn. auto.
  - destruct (fid_main _ _ _ _ _ Ho Ek Hc He) as (bs & x & G & Hd & y & Hs & Hy).
    destruct (denote_mem _ _ _ _ Hd Ha) as (o & Hm & Hin).
    destruct (d_mem_ea _ _ _ rf (here s + Z.of_nat (List.length bs)) Hm) as (m & -> & E1 & E2 & _).
    exists bs, y, m. split; [exact G|]. split; [exact Hy|]. split; [apply (same_mem _ _ _ Hs); exact Hin|auto].
Qed.

(** *** Immediates *)
Lemma denote_imm rel i x e ok : denote val rel i = Some x -> immediate i = Some (e, ok) ->
  ok (i64 (val e)) = true /\ In (imm_operand i (i64 (val e))) (i_ops x).
Proof.
  assert (KA : forall m w a e y, d_alu val rel m w a (RmiImm e) = Some y ->
     imm_ok w (i64 (val e)) = true /\ In (OImm (i64 (val e))) (i_ops y)).
  { intros m w a e0 y H. unfold d_alu in H. dob H. apply d_two_ops in H. destruct H as (p & q & _ & Hq & ->).
    cbn [d_rmi] in Hq. unfold d_imm in Hq. dob Hq. injection Hq as <-. cbn [In]. auto. }
  assert (KT : forall m w a e y, d_two m w (d_rm val rel w a) (d_ri val w (RiImm e)) = Some y ->
     imm_ok w (i64 (val e)) = true /\ In (OImm (i64 (val e))) (i_ops y)).
  { intros m w a e0 y H. apply d_two_ops in H. destruct H as (p & q & _ & Hq & ->).
    cbn [d_ri] in Hq. unfold d_imm in Hq. dob Hq. injection Hq as <-. cbn [In]. auto. }
  assert (KS : forall o w a e y, d_shift val rel o w a (RiImm e) = Some y ->
     imm_ok W8 (i64 (val e)) = true /\ In (OImm (i64 (val e) mod (match w with W64 => 64 | _ => 32 end))) (i_ops y)).
  { intros o w a e0 y H. unfold d_shift in H. dob H. apply d_two_ops in H. destruct H as (p & q & _ & Hq & ->).
    injection Hq as <-. cbn [In imm_ok]. auto. }
  intros H Hi.
  destruct i; cbn [immediate] in Hi; try discriminate Hi; cbn [denote imm_operand] in *;
  try (destruct b; try discriminate Hi; cbn [rmi_imm ri_imm] in Hi; injection Hi as <- <-;
       first [exact (KA _ _ _ _ _ H) | exact (KT _ _ _ _ _ H) | destruct sz; exact (KS _ _ _ _ _ H)]).
  - destruct a; try discriminate Hi; destruct b; try discriminate Hi; injection Hi as <- <-; cbn [d_movq] in H.
    + destruct size as [[]|]; try discriminate H; apply d_two_ops in H; destruct H as (p & q & _ & Hq & ->); injection Hq as <-; cbn; auto.
    + apply d_two_ops in H. destruct H as (p & q & _ & Hq & ->). unfold d_imm in Hq. dob Hq. injection Hq as <-. cbn [In imm_ok] in *. auto.
  - destruct d; try discriminate Hi. injection Hi as <- <-. cbn [d_dest] in H. dob H. injection H as <-. cbn [In i_ops]. auto.
Qed.
Lemma same_imm x y v : same_ins x y -> In (OImm v) (i_ops x) -> In (OImm v) (i_ops y).
Proof. intros []; cbn [i_ops In]; intuition congruence. Qed.
Lemma same_rel x y v : same_ins x y -> In (ORel v) (i_ops x) -> In (ORel v) (i_ops y).
Proof. intros []; cbn [i_ops In]; intuition congruence. Qed.
Lemma imm_shape i v : (exists n, imm_operand i v = OImm n) \/ (exists n, imm_operand i v = ORel n).
Proof. destruct i; cbn [imm_operand]; eauto. Qed.

Lemma imm_accepted i g s r' s' e ok : ordinary ev r i -> compile i = Some g -> immediate i = Some (e, ok) ->
  exec ev lenv r g s = Ok r' s' ->
  ok (i64 (val e)) = true /\ exists bs y, grows s s' bs /\ (forall rest, decode (bs ++ rest) = Some (y, rest)) /\
    In (imm_operand i (i64 (val e))) (i_ops y).
Proof.
  intros Ho Hc Hi He. assert (Ek : is_cvttsd2siq i = false) by (destruct i; auto; discriminate Hi).
  destruct (fid_main _ _ _ _ _ Ho Ek Hc He) as (bs & x & G & Hd & y & Hs & Hy).
  destruct (denote_imm _ _ _ _ _ Hd Hi) as [H1 H2]. split; [exact H1|]. exists bs, y. split; [exact G|]. split; [exact Hy|].
  destruct (imm_shape i (i64 (val e))) as [[n E]|[n E]]; rewrite E in *; [eapply same_imm|eapply same_rel]; eauto.
Qed.

Ltac dall := repeat match goal with
  | H : Forall _ (_ ++ _) |- _ => apply Forall_app in H; destruct H
  | H : Forall _ (_ :: _) |- _ => apply Forall_cons_iff in H; destruct H
  | H : Forall _ [] |- _ => clear H end.
Lemma denote_defined i g : ordinary ev r i -> compile i = Some g -> count_is_cl ev r i ->
  (forall e ok, immediate i = Some (e, ok) -> ok (i64 (val e)) = true) -> denote val (fun _ => 0) i <> None.
Proof.
  intros (Hi & (O1 & O2 & O3) & _ & Hty) Hc Hcl Himm.
  set (rel := fun _ : string => 0) in *.
  assert (Dr : forall w x, is_gpr (reg_no val x) = true -> d_reg val w x <> None).
  { intros w x E. unfold d_reg. rewrite E. discriminate. }
  assert (Dx : forall x, is_gpr (val x) = true -> d_xmm val x <> None).
  { intros x E. unfold d_xmm. rewrite E. discriminate. }
  assert (Drm : forall w a, Forall (fun r => is_gpr (reg_no val r) = true) (rm_regs a) ->
    Forall (fun a => d_mem val rel a <> None) (rm_mems a) -> d_rm val rel w a <> None).
  { intros w [x|a]; cbn [rm_regs rm_mems d_rm]; intros; dall; auto. }
  assert (Drmi : forall w a, Forall (fun r => is_gpr (reg_no val r) = true) (rmi_regs a) ->
    Forall (fun a => d_mem val rel a <> None) (rmi_mems a) ->
    (forall e ok, rmi_imm w a = Some (e, ok) -> ok (i64 (val e)) = true) -> d_rmi val rel w a <> None).
  { intros w [e|x|a]; cbn [rmi_regs rmi_mems d_rmi rmi_imm]; intros A B C; dall; auto.
    unfold d_imm. rewrite (C _ _ eq_refl). discriminate. }
  assert (Dxm : forall a, Forall (fun e => is_gpr (val e) = true) (xm_xmms a) ->
    Forall (fun a => d_mem val rel a <> None) (xm_mems a) -> d_xm val rel a <> None).
  { intros [x|a]; cbn [xm_xmms xm_mems d_xm]; intros; dall; auto. }
  assert (D2 : forall m w a b, a <> None -> b <> None -> d_two m w a b <> None).
  { intros m w [a|] [b|]; try congruence. discriminate. }
  assert (D1 : forall m w a, a <> None -> d_one m w a <> None).
  { intros m w [a|]; try congruence. discriminate. }
  assert (Dsh : forall o w a b, Forall (fun r => is_gpr (reg_no val r) = true) (rm_regs a) ->
    Forall (fun a => d_mem val rel a <> None) (rm_mems a) ->
    match b with RiReg c => reg_no val c = 1 | _ => True end ->
    (forall e ok, ri_imm W8 b = Some (e, ok) -> ok (i64 (val e)) = true) -> d_shift val rel o w a b <> None).
  { intros o w a b A B C D. unfold d_shift. destruct b as [e|c].
    - cbn [ri_imm] in D. specialize (D _ _ eq_refl). cbn [imm_ok] in D. rewrite D. cbn [guard obind]. apply D2; [auto|discriminate].
    - rewrite C. cbn [guard obind Z.eqb Pos.eqb]. apply D2; [auto|discriminate]. }
  assert (Dalu : forall m w a b, Forall (fun r => is_gpr (reg_no val r) = true) (rm_regs a) ->
    Forall (fun a => d_mem val rel a <> None) (rm_mems a) -> Forall (fun r => is_gpr (reg_no val r) = true) (rmi_regs b) ->
    Forall (fun a => d_mem val rel a <> None) (rmi_mems b) -> is_mem_rm a && is_mem_rmi b = false ->
    (forall e ok, rmi_imm w b = Some (e, ok) -> ok (i64 (val e)) = true) -> d_alu val rel m w a b <> None).
  { intros m w a b A B C D E F. unfold d_alu. rewrite E. cbn [negb guard obind]. apply D2; auto. }
  unfold regs_of, xmms_of, mems_of in O1, O2, O3.
  destruct i; try discriminate Hi; cbn [operands fst snd denote immediate count_is_cl] in *; dall; try discriminate;
  try (apply D2; auto; fail); try (apply D1; auto; fail);
  try (apply Dalu; auto; destruct sz, a, b; try reflexivity; discriminate Hc);
  try (apply Dalu; auto; destruct a, b; try reflexivity; discriminate Hc);
  try (apply Dsh; auto; fail).
  - destruct a; try discriminate Hc; destruct b; try discriminate Hc;
      cbn [mov_regs mov_xmms mov_mems d_movq] in *; dall; try (apply D2; auto; fail).
    + destruct size as [[]|]; try discriminate Hc; apply D2; auto; discriminate.
    + apply D2; auto. unfold d_imm. cbn [imm_ok]. rewrite (Himm _ _ eq_refl). discriminate.
  - destruct sz; try discriminate Hc. destruct a, b; try discriminate Hc; cbn [is_mem_rm andb negb guard obind];
      cbn [rm_regs rm_mems] in *; dall; apply D2; cbn [d_rm]; auto.
  - destruct a; try discriminate Hc; destruct b; try discriminate Hc; cbn [rmi_regs rmi_mems] in *; dall; apply D2; auto.
  - destruct a; try discriminate Hc; destruct b; try discriminate Hc; cbn [rm_regs rm_mems] in *; dall; apply D2; auto.
  - destruct b; cbn [ri_regs ri_imm d_ri] in *; dall; apply D2; auto.
    unfold d_imm. rewrite (Himm _ _ eq_refl). discriminate.
  - destruct b; cbn [ri_regs ri_imm d_ri] in *; dall; apply D2; auto.
    unfold d_imm. rewrite (Himm _ _ eq_refl). discriminate.
  - destruct a, b; try discriminate Hc; cbn [is_mem_xm andb negb guard obind xm_xmms xm_mems] in *; dall; apply D2; cbn [d_xm]; auto.
  - cbn [roundpd_u8] in Hty. pose proof (Dx a ltac:(assumption)) as Ha. pose proof (Dxm b ltac:(assumption) ltac:(assumption)) as Hb.
    destruct (d_xmm val a); [|congruence]. destruct (d_xm val rel b); [|congruence]. cbn [obind].
    destruct ((0 <=? val i) && (val i <=? 255)) eqn:E; [discriminate|lia].
  - destruct d; try discriminate Hc; cbn [d_dest fst snd] in *; dall; try discriminate.
    + unfold d_reg. match goal with H : is_gpr _ = true |- _ => rewrite H end. discriminate.
    + match goal with H : d_mem _ _ _ <> None |- _ => destruct (d_mem val rel a) eqn:Em; [discriminate|congruence] end.
  - destruct d; try discriminate Hc; cbn [d_dest fst snd immediate] in *; dall; try discriminate.
    + unfold d_reg. match goal with H : is_gpr _ = true |- _ => rewrite H end. discriminate.
    + rewrite (Himm _ _ eq_refl). discriminate.
    + match goal with H : d_mem _ _ _ <> None |- _ => destruct (d_mem val rel a) eqn:Em; [discriminate|congruence] end.
Qed.
End Facts.

(** ** Byte registers *)
Lemma denote_byte val rel i x c : denote val rel i = Some x -> In c (byte_regs i) ->
  In (OReg W8 (reg_no val c)) (i_ops x) /\ forall n, ~ In (OHi n) (i_ops x).
Proof.
  assert (KR : forall w c o, d_reg val w c = Some o -> o = OReg w (reg_no val c)).
  { intros w c0 o H. unfold d_reg, guard in H. destruct (is_gpr _); [|discriminate H]. injection H as <-. reflexivity. }
  assert (KM : forall a o, d_mem val rel a = Some o -> exists m, o = OMem m).
  { intros a o H. unfold d_mem in H. destruct (d_disp val rel (ia_disp a)); [|discriminate H]. cbn [obind] in H.
    destruct (ia_scale a); [destruct (_ =? 16)|]; unfold guard in H; try (destruct (_ : bool); [|discriminate H]); injection H as <-; eauto. }
  assert (NH : forall w a o, d_rm val rel w a = Some o -> forall n, o <> OHi n).
  { intros w [c0|a] o H n; cbn [d_rm] in H; [apply KR in H|apply KM in H; destruct H]; subst; discriminate. }
  assert (NHi : forall w a o, d_rmi val rel w a = Some o -> forall n, o <> OHi n).
  { intros w [e|c0|a] o H n; cbn [d_rmi] in H; [unfold d_imm, guard in H; destruct (imm_ok _ _); [|discriminate H]; injection H as <-; discriminate
     |apply KR in H|apply KM in H; destruct H]; subst; discriminate. }
  assert (NRi : forall w a o, d_ri val w a = Some o -> forall n, o <> OHi n).
  { intros w [e|c0] o H n; cbn [d_ri] in H; [unfold d_imm, guard in H; destruct (imm_ok _ _); [|discriminate H]; injection H as <-; discriminate
     |apply KR in H]; subst; discriminate. }
  assert (NR : forall w c o, d_reg val w c = Some o -> forall n, o <> OHi n).
  { intros w c0 o H n. apply KR in H. subst; discriminate. }
  assert (KA : forall m a b y, d_alu val rel m W8 a b = Some y -> In c (rm_regs a ++ rmi_regs b) ->
     In (OReg W8 (reg_no val c)) (i_ops y) /\ forall n, ~ In (OHi n) (i_ops y)).
  { intros m a b y H Hc. unfold d_alu, guard in H. destruct (negb _); [|discriminate H]. cbn [obind] in H.
    apply d_two_ops in H. destruct H as (p & q & Hp & Hq & ->). split.
    - apply in_app_or in Hc. destruct Hc as [Hc|Hc].
      + destruct a as [c0|a]; [|contradiction]. destruct Hc as [<-|[]]. cbn [d_rm] in Hp. apply KR in Hp. subst p. cbn; auto.
      + destruct b as [e|c0|b]; try contradiction. destruct Hc as [<-|[]]. cbn [d_rmi] in Hq. apply KR in Hq. subst q. cbn; auto.
    - intros n [Hn|[Hn|[]]]; [exact (NH _ _ _ Hp n Hn)|exact (NHi _ _ _ Hq n Hn)]. }
  intros H Hc.
  destruct i; cbn [byte_regs] in Hc; try contradiction; cbn [denote] in H; try (exact (KA _ _ _ _ H Hc));
  try (destruct sz; try contradiction; exact (KA _ _ _ _ H Hc)).
  - destruct b as [c0|b]; [|contradiction]. destruct Hc as [<-|[]]. apply d_two_ops in H. destruct H as (p & q & Hp & Hq & ->).
    cbn [d_rm] in Hq. pose proof (KR _ _ _ Hq). subst q. split; [cbn; auto|]. intros n [Hn|[Hn|[]]]; [exact (NR _ _ _ Hp n Hn)|discriminate].
  - destruct b as [c0|b]; [|contradiction]. destruct Hc as [<-|[]]. apply d_two_ops in H. destruct H as (p & q & Hp & Hq & ->).
    cbn [d_rm] in Hq. pose proof (KR _ _ _ Hq). subst q. split; [cbn; auto|]. intros n [Hn|[Hn|[]]]; [exact (NR _ _ _ Hp n Hn)|discriminate].
  - apply d_two_ops in H. destruct H as (p & q & Hp & Hq & ->). split.
    + apply in_app_or in Hc. destruct Hc as [Hc|Hc].
      * destruct a as [c0|a]; [|contradiction]. destruct Hc as [<-|[]]. cbn [d_rm] in Hp. apply KR in Hp. subst p. cbn; auto.
      * destruct b as [e|c0]; try contradiction. destruct Hc as [<-|[]]. cbn [d_ri] in Hq. apply KR in Hq. subst q. cbn; auto.
    + intros n [Hn|[Hn|[]]]; [exact (NH _ _ _ Hp n Hn)|exact (NRi _ _ _ Hq n Hn)].
  - destruct a as [cr|a]; [|contradiction]. destruct Hc as [<-|[]]. apply d_one_ops in H. destruct H as (p & Hp & ->).
    cbn [d_rm] in Hp. apply KR in Hp. subst p. split; [cbn; auto|]. intros n [Hn|[]]; discriminate.
Qed.

(** ** Exactly which label references an instruction makes *)
Definition rel_labels (l : list item) : list label := flat_map (fun i => match i with IRel _ x _ => [x] | _ => [] end) l.
Lemma rel_labels_app a b : rel_labels (a ++ b) = rel_labels a ++ rel_labels b. Proof. apply flat_map_app. Qed.
Lemma rel_labels_none l : no_rel l -> rel_labels l = [].
Proof.
  induction l as [|i l IH]; intro H; [reflexivity|]. inversion H; subst. unfold rel_labels in *. cbn [flat_map].
  rewrite IH by assumption. destruct i; try reflexivity. contradiction.
Qed.
Definition disp_labels (d : disp) : list label := match d with DLabel l => [l] | _ => [] end.
Definition trel (t : trace) : list label := rel_labels (fst t).
Lemma trel_seq a b : snd (tseq a b) = None -> snd a = None /\ snd b = None /\ trel (tseq a b) = trel a ++ trel b.
Proof.
  unfold tseq, trel. destruct (snd a) eqn:E; cbn [snd fst]; [congruence|]. intro H. rewrite rel_labels_app. auto.
Qed.
Lemma trel_rex rk a b c d : trel (t_rex_fn rk a b c d) = []. Proof. apply rel_labels_none, no_rel_rex. Qed.
Lemma trel_sib a b c : trel (t_sib a b c) = []. Proof. apply rel_labels_none, no_rel_sib. Qed.
Lemma trel_bytes bs : trel (tbytes bs) = []. Proof. apply rel_labels_none, no_rel_bytes. Qed.
Lemma trel_modrm a b c : trel (t_modrm a b c) = []. Proof. reflexivity. Qed.
Lemma trel_ret : trel tret = []. Proof. reflexivity. Qed.
Lemma trel_assert b : trel (tassert b) = []. Proof. destruct b; reflexivity. Qed.
Lemma trel_di d i : trel (t_disp_imm d i) = disp_labels d.
Proof. unfold t_disp_imm. destruct d, i; reflexivity. Qed.
Opaque tseq tret tfail t_disp_imm t_modrm t_rex_fn t_sib tbytes trel.
Lemma trel_encode op rk mm r i : snd (t_encode op rk mm r i) = None -> trel (t_encode op rk mm r i) = disp_labels (mode_disp (rm_mode r)).
Proof.
  assert (G : forall a b c d m k x t, trel t = [] ->
     snd (tseq (t_rex_fn rk a b c d) (tseq (tbytes op) (tseq (t_modrm mm m k) (tseq t (t_disp_imm x i))))) = None ->
     trel (tseq (t_rex_fn rk a b c d) (tseq (tbytes op) (tseq (t_modrm mm m k) (tseq t (t_disp_imm x i))))) = disp_labels x).
  { intros a b c d m k x t Ht H. apply trel_seq in H. destruct H as (_ & H & ->). apply trel_seq in H. destruct H as (_ & H & ->).
    apply trel_seq in H. destruct H as (_ & H & ->). apply trel_seq in H. destruct H as (_ & H & ->).
    rewrite trel_rex, trel_bytes, trel_modrm, trel_di, Ht. reflexivity. }
  assert (G0 : forall a b c d m k x,
     snd (tseq (t_rex_fn rk a b c d) (tseq (tbytes op) (tseq (t_modrm mm m k) (t_disp_imm x i)))) = None ->
     trel (tseq (t_rex_fn rk a b c d) (tseq (tbytes op) (tseq (t_modrm mm m k) (t_disp_imm x i)))) = disp_labels x).
  { intros a b c d m k x H. apply trel_seq in H. destruct H as (_ & H & ->). apply trel_seq in H. destruct H as (_ & H & ->).
    apply trel_seq in H. destruct H as (_ & H & ->).
    rewrite trel_rex, trel_bytes, trel_modrm, trel_di. reflexivity. }
  assert (F : forall e, snd (tfail e) = None -> forall X, trel (tfail e) = X) by (intros e H; discriminate H).
  unfold t_encode. intro H. apply trel_seq in H. destruct H as (_ & H & E). rewrite E, trel_assert. clear E. cbn [app].
  revert H.
  destruct r as [b [|[|k x] [|d|d|l]]]; cbn [rm_base rm_mode mode_disp mode_scale scale_index rip_ind_from mode_is_reg negb andb is_indirect_no_disp];
  repeat match goal with |- context [if ?b then _ else _] => destruct b end; intro H;
  first [ (simple apply F; exact H) | (simple apply G0 in H; exact H)
        | (simple apply G in H; [exact H|first [simple apply trel_sib | simple apply trel_ret]]) ].
Qed.
Transparent tseq tret tfail t_disp_imm t_modrm t_rex_fn t_sib tbytes trel.

Fixpoint has_refs (g : gcode) (l : list string) : Prop :=
  match g with
  | GNil => l = []
  | GPanic => True
  | GDo c k => exists l2, l = gcall_labels c ++ l2 /\ has_refs k l2
  | GLetImm _ k => has_refs k l
  | GIf _ t e GNil => has_refs t l /\ has_refs e l
  | GIf _ GPanic GNil k => has_refs k l
  | GIf _ _ _ _ => False
  end.
Section Refs2.
Variables (ev : list tok -> env -> Z) (lenv : string -> label).
Lemma disp_labels_rm r x : disp_labels (mode_disp (rm_mode (run_rm ev lenv r x))) = map lenv (grm_labels x).
Proof.
  destruct x as [g|a]; [reflexivity|]. cbn [grm_labels run_rm rm_reg rm_ind rm_mode mode_disp].
  destruct (ia_disp a) as [d|n e|l]; cbn [label_of_disp run_disp map]; unfold from_disp, from_label;
    repeat match goal with |- context [if ?b then _ else _] => destruct b end; reflexivity.
Qed.
Lemma trel_call r c t : t_call ev lenv r c = Some t -> snd t = None -> trel t = map lenv (gcall_labels c).
Proof.
  assert (HO : forall a m b, snd (tseq (tassert a) (tseq m (titem (IB b)))) = None -> trel m = [] -> trel (tseq (tassert a) (tseq m (titem (IB b)))) = []).
  { intros a m b H K. apply trel_seq in H. destruct H as (_ & H & ->). apply trel_seq in H. destruct H as (_ & H & ->).
    rewrite trel_assert, K. reflexivity. }
  destruct c; cbn [t_call gcall_labels]; intros H Hl; inversion H; subst; clear H;
    try (rewrite trel_encode by assumption; apply disp_labels_rm); try reflexivity;
    try (unfold t_enc_o, t_enc_oi_byte, t_enc_rexw_o, t_op_with_rd in *; apply HO; [exact Hl|];
         first [apply (trel_rex RexNone)|apply (trel_rex RexByte)|apply (trel_rex REXW)]).
  - apply trel_bytes.
  - unfold t_enc_d in *. apply trel_seq in Hl. destruct Hl as (_ & _ & ->). rewrite trel_bytes. reflexivity.
  - unfold t_enc_digit_imm_byte in *. destruct (rm_is_rax _) eqn:Er.
    + apply trel_seq in Hl. destruct Hl as (_ & _ & ->). rewrite trel_di.
      unfold rm_is_rax in Er. destruct r0; [reflexivity|discriminate Er].
    + destruct (rm_is_reg _); rewrite trel_encode by assumption; apply disp_labels_rm.
Qed.
Lemma trel_exec g : forall r t l, t_exec ev lenv r g = Some t -> snd t = None -> has_refs g l -> trel t = map lenv l.
Proof.
  induction g as [|c k IH|e k IH|c t1 IHt e1 IHe k IH|]; intros r t l H Hn Hl.
  - inversion H. cbn [has_refs] in Hl. subst. reflexivity.
  - cbn [has_refs] in Hl. destruct Hl as (l2 & -> & Hl).
    assert (Hgen : match t_call ev lenv r c, t_exec ev lenv r k with Some a, Some b => Some (tseq a b) | _, _ => None end = Some t ->
                   trel t = map lenv (gcall_labels c ++ l2)).
    { intro K. destruct (t_call ev lenv r c) as [a|] eqn:Ea; [|discriminate]. destruct (t_exec ev lenv r k) as [b|] eqn:Eb; [|discriminate].
      inversion K; subst. apply trel_seq in Hn. destruct Hn as (N1 & N2 & ->). rewrite map_app. f_equal; [eapply trel_call|eapply IH]; eauto. }
    destruct c; try (apply Hgen; exact H). cbn [t_exec] in H.
    destruct k as [|c2 k2| | |]; try discriminate. destruct c2; try discriminate.
    destruct v; try discriminate.
    destruct (t_exec ev lenv r k2) as [b|] eqn:Eb; [|discriminate]. inversion H; subst.
    specialize (IH r (tseq (titem (IL 0)) b) l2). cbn [t_exec t_call] in IH. rewrite Eb in IH. specialize (IH eq_refl).
    apply trel_seq in Hn. destruct Hn as (_ & Hn & ->). rewrite map_app. f_equal.
    assert (E : snd (tseq (titem (IL 0)) b) = None) by (unfold tseq; cbn [snd titem fst]; exact Hn).
    specialize (IH E Hl). apply trel_seq in E. destruct E as (_ & _ & E). rewrite E in IH. exact IH.
  - cbn [t_exec has_refs] in *. eapply IH; eassumption.
  - cbn [t_exec] in H. destruct (run_cond ev r c) as [bb r'].
    destruct (if bb then t_exec ev lenv r' t1 else t_exec ev lenv r e1) as [a|] eqn:Ea; [|discriminate].
    destruct (t_exec ev lenv r k) as [b|] eqn:Eb; [|discriminate]. inversion H; subst.
    apply trel_seq in Hn. destruct Hn as (N1 & N2 & ->).
    destruct k.
    { inversion Eb; subst. assert (Hl' : has_refs t1 l /\ has_refs e1 l) by (destruct t1; destruct e1; exact Hl).
      rewrite trel_ret, app_nil_r. destruct bb; [eapply IHt|eapply IHe]; eauto; tauto. }
    all: destruct t1; try contradiction; destruct e1; try contradiction; destruct bb; inversion Ea; subst; try discriminate N1;
      change (has_refs (GIf c GPanic GNil ?k) l) with (has_refs k l) in Hl; rewrite trel_ret; cbn [app]; eapply IH; eauto.
  - inversion H; subst. discriminate Hn.
Qed.
End Refs2.
Lemma compile_refs i g : compile i = Some g -> is_instr i = true -> has_refs g (inst_labels i).
Proof.
  intros H Hi. destruct i; try discriminate Hi; cbn [compile] in H;
  try (unfold binary_op, binary_opq, binary_opl, binary_opw, binary_opb, shift_op, divide_op, binary_sd_op,
         push_pop, count_op, xchg, testq, testb, movq, movl, movw, movb in H);
  repeat match goal with H : context [grm_of_rmi ?b] |- _ => destruct b; cbn [grm_of_rmi] in H end;
  repeat match goal with H : context [match ?x with _ => _ end] |- _ => destruct x; try discriminate end;
  inversion H; subst; clear H; unfold inst_labels, mems_of;
  cbn [operands snd rm_mems rmi_mems xm_mems mov_mems flat_map app];
  rewrite <- ?grm_labels_rm, <- ?grm_labels_xm, ?flat_map_app; cbn [rm_mems rmi_mems xm_mems mov_mems flat_map app];
  rewrite <- ?grm_labels_rm, <- ?grm_labels_xm, ?app_nil_r; cbn [has_refs gcall_labels g1 g2 app grm_labels];
  repeat first [ split | exact I | reflexivity | (eexists; split; [reflexivity|]) | (eexists; split; [symmetry; apply app_nil_r|]) ].
Qed.

(** ** Where the references point *)
Fixpoint field_refs (p : pid) (c : Z) (its : list item) (l : label) : list target :=
  match its with
  | [] => []
  | i :: r => (match i with IRel _ x off => if (x =? l)%nat then [Rel p off c] else [] | _ => [] end) ++ field_refs p (c + item_len i) r l
  end.
Lemma add_refs_nth p : forall its c ls l,
  nth_error (add_refs p c its ls) l = option_map (fun i => mkLabel (loc i) (targets i ++ field_refs p c its l)) (nth_error ls l).
Proof.
  induction its as [|i its IH]; intros c ls l; cbn [add_refs field_refs].
  - destruct (nth_error ls l) as [[a b]|]; [|reflexivity]. cbn. rewrite app_nil_r. reflexivity.
  - rewrite IH. destruct i as [b|v|v|v|bw x off]; try reflexivity.
    rewrite upd_nth_nth, Nat.eqb_sym. destruct (x =? l)%nat; [|reflexivity].
    destruct (nth_error ls l) as [[a b]|]; [|reflexivity]. cbn. rewrite <- app_assoc. reflexivity.
Qed.
Lemma field_refs_count p l : forall its c, List.length (field_refs p c its l) = count_occ Nat.eq_dec (rel_labels its) l.
Proof.
  induction its as [|i its IH]; intro c; [reflexivity|]. cbn [field_refs]. unfold rel_labels in *. cbn [flat_map].
  rewrite app_length, count_occ_app, IH. f_equal. destruct i; try reflexivity.
  destruct (l0 =? l)%nat eqn:E; cbn; destruct (Nat.eq_dec l0 l); try reflexivity; lia.
Qed.
Lemma read_app_mid m a b1 b2 b3 : read (wr m a (b1 ++ b2 ++ b3)) (a + Z.of_nat (List.length b1)) (List.length b2) = b2.
Proof. apply read_wr_sub. Qed.
Lemma field_refs_pos m a p l : forall post pre c, c = items_len pre -> rel_ok post ->
  Forall (fun t => exists pos, t = Rel p (items_len (pre ++ post) - (pos - a)) pos /\ a + c <= pos /\ pos + 4 <= a + items_len (pre ++ post) /\
    forall A, read (wr m A (flat zeros (pre ++ post))) (A + (pos - a)) 4 = [0; 0; 0; 0]) (field_refs p (a + c) post l).
Proof.
  induction post as [|i post IH]; intros pre c Hc Hr; [constructor|]. cbn [field_refs rel_ok] in *. destruct Hr as [Hi Hr].
  pose proof (items_len_nonneg post) as Hnn. apply Forall_app. split.
  - destruct i; try constructor. destruct (l0 =? l)%nat; [|constructor]. constructor; [|constructor].
    exists (a + c). rewrite items_len_app. change (items_len (IRel bytewise l0 off :: post)) with (4 + items_len post).
    split; [f_equal; lia|]. split; [lia|]. split; [lia|]. intro A.
    rewrite flat_app. change (flat zeros (IRel bytewise l0 off :: post)) with ([0;0;0;0] ++ flat zeros post).
    replace (A + (a + c - a)) with (A + Z.of_nat (List.length (flat zeros pre))) by (rewrite flat_len; lia).
    apply (read_app_mid m A (flat zeros pre) [0;0;0;0] (flat zeros post)).
  - specialize (IH (pre ++ [i]) (c + item_len i)). rewrite <- app_assoc in IH. cbn [app] in IH.
    replace (a + c + item_len i) with (a + (c + item_len i)) by lia.
    eapply Forall_impl; [|apply IH; [|exact Hr]].
    + intros t (pos & -> & H1 & H2 & H3). exists pos. repeat split; auto. destruct i; cbn [item_len] in H1; lia.
    + rewrite items_len_app. subst c. unfold items_len. cbn [fold_right]. lia.
Qed.

Section RefFacts.
Variables (ev : list tok -> env -> Z) (lenv : string -> label) (r : env).
Notation val := (eval ev r).
Lemma rel_main i g s r' s' : ordinary ev r i -> is_roundpd_label i = false -> compile i = Some g -> exec ev lenv r g s = Ok r' s' ->
  exists its, emitted its s s' /\ rel_ok its /\ counter (pages s (cur s)) + items_len its <= PAGE_SIZE /\
    rel_labels its = map lenv (inst_labels i).
Proof.
  intros Ho Hrp Hc He. pose proof Ho as Ho'. destruct Ho' as (Hi & Hw & Hn & Hty).
  assert (Hni : match i with ILabel _ => False | _ => True end) by (destruct i; auto; discriminate Hi).
  destruct (compile_has_trace ev lenv _ g r Hc Hni) as [t Ht].
  assert (Hrl : rel_wrong i = false).
  { destruct i; try reflexivity. cbn [rel_wrong]. destruct b; [reflexivity|]. exact Hrp. }
  assert (K : snd t = None -> rel_ok (fst t) /\ fst t <> []).
  { intro Hsn. destruct (is_cvttsd2siq i) eqn:Ek.
    - destruct i; try discriminate Ek. destruct (wf_ok ev lenv zeros r _ Hw) as (O1 & O2 & O3). unfold regs_of, xmms_of, mems_of in O1, O2, O3.
      cbn [operands fst snd] in O1, O2, O3. inversion O1; subst.
      destruct (cvttsd2siq_out ev lenv zeros r a b g t) as (its & -> & F & R); auto using wf_ok.
      split; [exact R|]. cbn [fst]. intros ->. destruct F as (x & y & _ & _ & D). specialize (D []). discriminate D.
    - destruct (inst_trace ev lenv r i g t Hi Ek Hty Hw Hn Hc Ht) as [its -> F R _|_ Hp]; [|congruence]. cbn [fst].
      split; [apply R, Hrl|]. intros ->. destruct (F zeros) as (x & y & _ & _ & D). specialize (D []). discriminate D. }
  rewrite (exec_run _ _ _ _ _ s Ht) in He.
  destruct (run_trace_cases t s) as [(s1 & E & Hsn & Em & Hr)|(e & s1 & E & _)]; rewrite E in He; [|discriminate].
  inversion He; subst; clear He. destruct (K Hsn) as [K1 K2]. exists (fst t). split; [exact Em|]. split; [exact K1|]. split.
  - destruct Hr as [Hr|Hr]; [exact Hr|congruence].
  - apply (trel_exec ev lenv g r t); auto. apply compile_refs; assumption.
Qed.
Lemma refs_main i g s r' s' : ordinary ev r i -> is_roundpd_label i = false -> compile i = Some g -> exec ev lenv r g s = Ok r' s' ->
  List.length (labels s') = List.length (labels s) /\
  forall l, (l < List.length (labels s))%nat -> exists ts, new_refs s s' l ts /\
    List.length ts = count_occ Nat.eq_dec (map lenv (inst_labels i)) l /\
    Forall (fun t => exists pos, t = Rel (cur s) (cursor s' - pos) pos /\ cursor s <= pos /\ pos + 4 <= cursor s' /\
      read (mem s') (here s + (pos - cursor s)) 4 = [0; 0; 0; 0]) ts.
Proof.
  intros Ho Hrp Hc He. destruct (rel_main i g s r' s' Ho Hrp Hc He) as (its & Em & Rok & Hroom & Hrl).
  pose proof (em_labels _ _ _ Em) as HL. split; [rewrite HL; apply add_refs_length|].
  intros l Hl. exists (field_refs (cur s) (cursor s) its l).
  assert (Hc' : cursor s' = cursor s + items_len its).
  { unfold cursor. rewrite (em_cur _ _ _ Em), (em_page _ _ _ Em). reflexivity. }
  split; [|split].
  - unfold new_refs, refs. rewrite HL, add_refs_nth. destruct (nth_error (labels s) l) as [x|] eqn:E; [reflexivity|].
    apply nth_error_None in E. lia.
  - rewrite field_refs_count, Hrl. reflexivity.
  - pose proof (field_refs_pos (mem s) (cursor s) (cur s) l its [] 0 eq_refl Rok) as H. cbn [app] in H. rewrite Z.add_0_r in H.
    eapply Forall_impl; [|exact H]. intros t (pos & -> & H1 & H2 & H3). exists pos.
    split; [f_equal; lia|]. split; [exact H1|]. split; [lia|].
    rewrite <- (H3 (here s)). apply read_ext. intros x _. apply (em_mem _ _ _ Em).
Qed.
End RefFacts.

(** ** Register number 16 *)
Lemma snd_seq_r a b : snd b <> None -> snd (tseq a b) <> None.
Proof. unfold tseq. destruct (snd a) eqn:E; cbn [snd]; [congruence|auto]. Qed.
Lemma snd_seq_l a b : snd a <> None -> snd (tseq a b) <> None.
Proof. unfold tseq. destruct (snd a) eqn:E; cbn [snd]; congruence. Qed.
Lemma enc_rip_reg op rk m i : snd (t_encode op rk (ModReg 16) m i) <> None.
Proof. unfold t_encode. apply snd_seq_l. discriminate. Qed.
Lemma enc_rip_rm op rk mm i : snd (t_encode op rk mm (rm_reg 16) i) <> None.
Proof. unfold t_encode. apply snd_seq_r. discriminate. Qed.
Lemma enc_rip_o op : snd (t_enc_o op 16) <> None. Proof. discriminate. Qed.
Lemma enc_rip_oi op : snd (t_enc_oi_byte op 16) <> None. Proof. discriminate. Qed.
Lemma enc_rip_rexw_o op : snd (t_enc_rexw_o op 16) <> None. Proof. discriminate. Qed.
Lemma enc_rip_db op al d i : snd (t_enc_digit_imm_byte op al (rm_reg 16) d i) <> None.
Proof. unfold t_enc_digit_imm_byte. cbn. discriminate. Qed.

Section Rip.
Variables (ev : list tok -> env -> Z) (lenv : string -> label) (r : env).
Notation val := (eval ev r).
Definition reg_values (i : inst) : list Z := map (reg_no val) (regs_of i) ++ map val (xmms_of i).
Lemma reg16 c : u8 (reg_no val c) = 16 -> run_reg ev r (greg_of c) = 16.
Proof. destruct c; intro H; exact H. Qed.
Lemma reg16' c v : u8 (reg_no val c) = 16 -> (forall e, In e (reg_exprs c) -> eval ev (env_set "imm" v r) e = val e) ->
  run_reg ev (env_set "imm" v r) (greg_of c) = 16.
Proof. destruct c; cbn [reg_no greg_of reg_exprs In]; intros H K; [exact H|]. unfold run_reg, reg_from. rewrite K by auto. exact H. Qed.
Lemma rip_rejected i g s r' s' n : is_instr i = true -> no_imm_var ev r i -> In n (reg_values i) -> u8 n = 16 ->
  compile i = Some g -> exec ev lenv r g s <> Ok r' s'.
Proof.
  intros Hi Hn Hin Hu Hc He.
  assert (Hni : match i with ILabel _ => False | _ => True end) by (destruct i; auto; discriminate Hi).
  destruct (compile_has_trace ev lenv _ g r Hc Hni) as [t Ht].
  rewrite (exec_run _ _ _ _ _ s Ht) in He.
  destruct (run_trace_cases t s) as [(s1 & E & Hsn & _)|(e & s1 & E & _)]; rewrite E in He; [|discriminate].
  clear He E. revert Hsn. change (snd t <> None).
  assert (Hreg : forall c, In c (regs_of i) -> forall v e, In e (reg_exprs c) -> eval ev (env_set "imm" v r) e = val e).
  { intros c Hc0 v e He. apply Hn. unfold addr_exprs. apply in_or_app. left. apply in_flat_map. exists c. auto. }
  assert (Hx : forall x, In x (xmms_of i) -> forall v, eval ev (env_set "imm" v r) x = val x).
  { intros x Hx v. apply Hn. unfold addr_exprs. apply in_or_app. right. apply in_or_app. auto. }
  clear Hn.
  unfold reg_values in Hin. apply in_app_or in Hin.
  assert (Hin' : (exists c, In c (regs_of i) /\ u8 (reg_no val c) = 16) \/ (exists x, In x (xmms_of i) /\ u8 (val x) = 16)).
  { destruct Hin as [Hin|Hin]; apply in_map_iff in Hin; destruct Hin as (c & Hc1 & Hc2); subst n; eauto. }
  clear Hin. 
  assert (D : (exists c, In c (regs_of i) /\ run_reg ev r (greg_of c) = 16 /\ forall v, run_reg ev (env_set "imm" v r) (greg_of c) = 16) \/
              (exists x, In x (xmms_of i) /\ run_reg ev r x = 16)).
  { destruct Hin' as [(c & H1 & H2)|(x & H1 & H2)]; [left; exists c|right; exists x; auto]. split; [exact H1|].
    split; [apply reg16; exact H2|]. intro v. apply reg16'; [exact H2|exact (Hreg c H1 v)]. }
  clear Hin' Hreg Hx Hu.
  unfold regs_of, xmms_of in D.
  destruct i; try discriminate Hi; cbn [operands fst snd] in D; cbn [compile] in Hc;
  try (unfold binary_op, binary_opq, binary_opl, binary_opw, binary_opb, shift_op, divide_op, binary_sd_op,
         push_pop, count_op, xchg, testq, testb, movq, movl, movw, movb in Hc);
  repeat match goal with
  | x : rm_operand |- _ => destruct x | x : rmi_operand |- _ => destruct x | x : ri_operand |- _ => destruct x
  | x : xm_operand |- _ => destruct x | x : mov_operand |- _ => destruct x | x : dest |- _ => destruct x
  end; cbn [rm_regs rmi_regs ri_regs xm_xmms mov_regs mov_xmms app In fst snd grm_of_rmi grm_of_rm grm_of_xm] in *;
  (destruct D as [(c0 & Hin & H16 & H16')|(x0 & Hin & H16)];
   repeat match goal with K : _ \/ _ |- _ => destruct K as [K|K] end; try contradiction; subst);
  repeat match goal with H : context [match ?x with _ => _ end] |- _ => is_var x; destruct x; try discriminate end;
  try discriminate Hc;
  injection Hc as <-; cbn [t_exec t_call g1 g2 run_cond run_imm run_rm rm_reg greg_of grm_of_rm] in Ht;
  cbn [greg_of] in H16; try (cbn [greg_of] in H16');
  rewrite ?the_imm_set, ?H16, ?H16' in Ht; change (is_cl 16) with false in Ht; change (reg_is_rax 16) with false in Ht; cbn [negb] in Ht;
  repeat match type of Ht with context [if ?b then _ else _] => destruct b end; injection Ht as <-;
  rewrite ?tseq_ret_r, ?tseq_ret_l, ?tseq_assoc;
  repeat first [ discriminate | (apply snd_seq_l; first [apply enc_rip_reg|apply enc_rip_rm|apply enc_rip_o|apply enc_rip_oi|apply enc_rip_rexw_o|apply enc_rip_db|discriminate])
    | apply enc_rip_reg | apply enc_rip_rm | apply enc_rip_o | apply enc_rip_oi | apply enc_rip_rexw_o | apply enc_rip_db | apply snd_seq_r ].
Qed.
End Rip.

(** ** Remaining statements *)
Lemma same_not_xchg x y : same_ins x y -> i_mnem x <> Xchg -> y = x.
Proof. intros []; cbn [i_mnem]; congruence. Qed.
Lemma d_two_mnem m w a b x : d_two m w a b = Some x -> i_mnem x = m.
Proof. unfold d_two. destruct a; [|discriminate]. destruct b; [|discriminate]. cbn [obind]. intro H; injection H as <-. reflexivity. Qed.
Lemma denote_byte_mnem val rel i x c : denote val rel i = Some x -> In c (byte_regs i) -> i_mnem x <> Xchg.
Proof.
  assert (KA : forall m a b, d_alu val rel m W8 a b = Some x -> i_mnem x = m).
  { intros m a b H. unfold d_alu, guard in H. destruct (negb _); [|discriminate H]. cbn [obind] in H. eapply d_two_mnem; exact H. }
  intros H Hc. destruct i; cbn [byte_regs] in Hc; try contradiction; cbn [denote] in H;
  try (rewrite (KA _ _ _ H); discriminate); try (destruct sz; try contradiction; rewrite (KA _ _ _ H); discriminate);
  try (rewrite (d_two_mnem _ _ _ _ _ H); discriminate).
  unfold d_one in H. destruct (d_rm _ _ _ _); [|discriminate H]. injection H as <-. discriminate.
Qed.

Section Facts2.
Variables (ev : list tok -> env -> Z) (lenv : string -> label) (r : env).
Notation val := (eval ev r).
Lemma byte_main i g s r' s' c : ordinary ev r i -> compile i = Some g -> exec ev lenv r g s = Ok r' s' -> In c (byte_regs i) ->
  exists bs y, grows s s' bs /\ (forall rest, decode (bs ++ rest) = Some (y, rest)) /\
    In (OReg W8 (reg_no val c)) (i_ops y) /\ (forall n, ~ In (OHi n) (i_ops y)) /\ denote val (fun _ => 0) i = Some y.
Proof.
  intros Ho Hc He Hb. assert (Ek : is_cvttsd2siq i = false) by (destruct i; try reflexivity; elim Hb).
  destruct (fid_main ev lenv r _ _ _ _ _ Ho Ek Hc He) as (bs & x & G & Hd & y & Hs & Hy).
  rewrite (same_not_xchg _ _ Hs (denote_byte_mnem _ _ _ _ _ Hd Hb)) in Hy.
  destruct (denote_byte _ _ _ _ _ Hd Hb) as [H1 H2]. exists bs, x. auto.
Qed.
Lemma xchg_main a b g s r' s' : ordinary ev r (IXchg QWORD a b) -> compile (IXchg QWORD a b) = Some g -> exec ev lenv r g s = Ok r' s' ->
  exists bs oa ob y, grows s s' bs /\ (forall rest, decode (bs ++ rest) = Some (y, rest)) /\
    d_rm val (fun _ => 0) W64 a = Some oa /\ d_rm val (fun _ => 0) W64 b = Some ob /\
    (y = mkIns Xchg W64 [oa; ob] \/ y = mkIns Xchg W64 [ob; oa] \/ (i_mnem y = Nop /\ oa = OReg W64 0 /\ ob = OReg W64 0)).
Proof.
  intros Ho Hc He. destruct (fid_main ev lenv r _ _ _ _ _ Ho eq_refl Hc He) as (bs & x & G & Hd & y & Hs & Hy).
  cbn [denote width_of] in Hd. unfold guard in Hd. destruct (negb _); [|discriminate Hd]. cbn [obind] in Hd.
  unfold d_two in Hd. destruct (d_rm val (fun _ => 0) W64 a) as [oa|] eqn:Ea; [|discriminate Hd].
  destruct (d_rm val (fun _ => 0) W64 b) as [ob|] eqn:Eb; [|discriminate Hd]. injection Hd as <-.
  exists bs, oa, ob, y. repeat (split; [assumption || reflexivity|]). inversion Hs; subst; auto.
Qed.
Lemma xchg_forms sz a b : compile (IXchg sz a b) <> None -> sz = QWORD /\ is_mem_rm a && is_mem_rm b = false.
Proof. intro H. destruct sz; try (elim H; reflexivity). destruct a, b; auto. elim H; reflexivity. Qed.
Lemma accept_main i g s : ordinary ev r i -> is_cvttsd2siq i = false -> compile i = Some g -> count_is_cl ev r i ->
  (forall e ok, immediate i = Some (e, ok) -> ok (i64 (val e)) = true) ->
  cursor s + 15 <= PAGE_SIZE -> (forall x, In x (inst_labels i) -> (lenv x < List.length (labels s))%nat) ->
  exists r' s', exec ev lenv r g s = Ok r' s'.
Proof.
  intros Ho Hk Hc Hcl Hi Hr Hl. eapply asm_accepts; eauto using good_of. eapply denote_defined; eauto.
Qed.
Lemma imm_rejected i g s e ok : ordinary ev r i -> compile i = Some g -> immediate i = Some (e, ok) ->
  ok (i64 (val e)) = false -> exists p s', exec ev lenv r g s = Panic p s'.
Proof.
  intros Ho Hc Hi Hf. assert (Ek : is_cvttsd2siq i = false) by (destruct i; auto; discriminate Hi).
  eapply asm_rejects; eauto using good_of. destruct (denote val (fun _ => 0) i) as [x|] eqn:Ed; [|reflexivity].
  destruct (denote_imm _ _ _ _ _ _ _ Ed Hi). congruence.
Qed.
Lemma reject_main i g s e s' : ordinary ev r i -> is_cvttsd2siq i = false -> is_word_alu_imm i = false -> compile i = Some g ->
  exec ev lenv r g s = Panic e s' ->
  cursor s + 15 <= PAGE_SIZE -> (forall x, In x (inst_labels i) -> (lenv x < List.length (labels s))%nat) -> s' = s.
Proof.
  intros Ho Hk Hw Hc He Hr Hl. destruct (asm_panics ev lenv r i g s e s' (good_of ev r i Ho Hk) Hc He) as [[-> _]|[[_ H]|(_ & x & Hx & H)]].
  - destruct Ho as (Hi & _). eapply asm_reject_clean; eauto.
  - unfold cursor in Hr. lia.
  - specialize (Hl x Hx). lia.
Qed.
Lemma total_main i g s : ordinary ev r i -> is_cvttsd2siq i = false -> compile i = Some g ->
  cursor s + 15 <= PAGE_SIZE -> (forall x, In x (inst_labels i) -> (lenv x < List.length (labels s))%nat) ->
  match denote val (fun _ => 0) i with
  | Some x => exists r' s' bs, exec ev lenv r g s = Ok r' s' /\ grows s s' bs /\ reads_as bs x
  | None => exists s', exec ev lenv r g s = Panic ImmRange s'
  end.
Proof.
  intros Ho Hk Hc Hr Hl. destruct (denote val (fun _ => 0) i) as [x|] eqn:Ed.
  - destruct (asm_accepts ev lenv r i g s (good_of ev r i Ho Hk) Hc) as (r' & s' & E); auto; [congruence|].
    destruct (fid_main ev lenv r _ _ _ _ _ Ho Hk Hc E) as (bs & x' & G & Hd & R). assert (x' = x) by congruence. subst x'. exists r', s', bs. auto.
  - destruct (asm_rejects ev lenv r i g s (good_of ev r i Ho Hk) Hc Ed) as (e & s' & E). exists s'. rewrite E. f_equal.
    destruct (asm_panics ev lenv r i g s e s' (good_of ev r i Ho Hk) Hc E) as [[-> _]|[[_ H]|(_ & y & Hy & H)]]; auto.
    + unfold cursor in Hr. lia.
    + specialize (Hl y Hy). lia.
Qed.
Lemma disp_main i g s r' s' a : ordinary ev r i -> compile i = Some g -> exec ev lenv r g s = Ok r' s' -> In a (mems_of i) ->
  exists bs y m, grows s s' bs /\ (forall rest, decode (bs ++ rest) = Some (y, rest)) /\ In (OMem m) (i_ops y) /\
    m_disp m = written_disp val (fun _ => 0) (ia_disp a).
Proof.
  intros Ho Hc He Ha. destruct (mem_main ev lenv r i g s r' s' a (fun _ => 0) Ho Hc He Ha) as (bs & y & m & A & B & C & _ & D).
  exists bs, y, m. auto.
Qed.
Lemma accept_cvttsd2siq a b g s : ordinary ev r (ICvttsd2siq a b) -> compile (ICvttsd2siq a b) = Some g ->
  cursor s + 15 <= PAGE_SIZE -> (forall x, In x (inst_labels (ICvttsd2siq a b)) -> (lenv x < List.length (labels s))%nat) ->
  exists r' s', exec ev lenv r g s = Ok r' s'.
Proof.
  intros (Hi & Hw & Hn & _) Hc Hr Hl. destruct (compile_has_trace ev lenv _ g r Hc I) as [t Ht].
  destruct (wf_ok ev lenv zeros r _ Hw) as (O1 & O2 & O3). unfold regs_of, xmms_of, mems_of in O1, O2, O3.
  cbn [operands fst snd] in O1, O2, O3. inversion O1; subst.
  pose proof (t_exec_len _ _ _ _ _ Ht) as Hlen. pose proof (compile_len _ _ Hc) as H15.
  assert (R : refs_in (fun l => (l < List.length (labels s))%nat) (fst t)).
  { eapply refs_exec; [exact Ht|]. intros y Hy. apply Hl. eapply compile_labels; eauto. }
  destruct (cvttsd2siq_out ev lenv zeros r a b g t) as (its & -> & F & _); auto using wf_ok.
  rewrite (exec_run _ _ _ _ _ s Ht).
  destruct (run_trace_cases (its, None) s) as [(s1 & E & _)|(e & s1 & E & _ & [[_ H]|[[_ H]|[H _]]])]; rewrite E; [eauto| | |].
  - unfold cursor in Hr. lia.
  - elim H. eapply Forall_impl; [|exact R]. intros it. destruct it; cbn; auto.
  - discriminate H.
Qed.
Lemma accept_all i g s : ordinary ev r i -> compile i = Some g -> count_is_cl ev r i ->
  (forall e ok, immediate i = Some (e, ok) -> ok (i64 (val e)) = true) ->
  cursor s + 15 <= PAGE_SIZE -> (forall x, In x (inst_labels i) -> (lenv x < List.length (labels s))%nat) ->
  exists r' s', exec ev lenv r g s = Ok r' s'.
Proof.
  intros Ho Hc. destruct (is_cvttsd2siq i) eqn:Ek; [|apply accept_main; assumption].
  destruct i; try discriminate Ek. intros _ _. apply accept_cvttsd2siq; assumption.
Qed.
End Facts2.

(** ** Helpers for concrete runs *)
Definition is_ok {A} (x : res A) : bool := match x with Ok _ _ => true | Panic _ _ => false end.
Definition state_of {A} (x : res A) : jit := match x with Ok _ s => s | Panic _ s => s end.
Lemma ok_intro {A} (x : res A) : is_ok x = true -> exists a, x = Ok a (state_of x).
Proof. destruct x; [eauto|discriminate]. Qed.
Lemma grows_bytes s s' bs : grows s s' bs ->
  bs = read (mem s') (here s) (Z.to_nat (counter (pages s' (cur s)) - cursor s)).
Proof.
  intros [B C K R _ _ M _]. rewrite K. replace (Z.to_nat _) with (List.length bs) by lia.
  symmetry. apply read_eq. intros k Hk.
  destruct (nth_error bs k) as [b|] eqn:E; [|apply nth_error_None in E; lia].
  rewrite (M k b E). symmetry. apply nth_error_nth. exact E.
Qed.
