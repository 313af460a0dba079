(** From traces to assembler states: what running the code generated for one
    instruction does to the memory, the cursor and the label table. *)
From Verif Require Import Base ModelMem ModelEnc ModelSyntax ModelMacro SpecX86 SpecAsm SpecTaken Trace Emit EncDec Fidelity FidelityInst.
Ltac Zify.zify_post_hook ::= Z.div_mod_to_equations.

(** ** Conditions on the written operands *)
Lemma d_mem_rel val rel rel' a : d_mem val rel a <> None -> d_mem val rel' a <> None.
Proof.
  unfold d_mem, d_disp. destruct (ia_disp a) as [d|n e|l]; cbn [obind]; try tauto.
  intros H K; apply H; clear H. destruct (ia_scale a) as [|k x]; [destruct (_ =? _); [discriminate|]|];
    unfold guard in *; destruct (_ : bool); cbn [obind] in *; congruence.
Qed.
Lemma wf_written ev r rel i : wf_operands (eval ev r) i -> written_ok ev r rel i.
Proof.
  intros (A & B & C). repeat split; auto. eapply Forall_impl; [|exact C]. intros a. apply d_mem_rel.
Qed.
Lemma wf_ok ev lenv f r i : wf_operands (eval ev r) i -> operands_ok ev lenv f r i.
Proof. apply wf_written. Qed.

(** ** Running the code of one instruction *)
Lemma exec_run ev lenv r g t s : t_exec ev lenv r g = Some t ->
  exec ev lenv r g s = match run_trace t s with Ok _ s' => Ok (env_after ev r g) s' | Panic e s' => Panic e s' end.
Proof. intro H. rewrite (exec_trace _ _ _ _ _ H s). unfold bind, ret. destruct (run_trace t s); reflexivity. Qed.

Definition the_bytes (s s' : jit) : list Z :=
  read (mem s') (addr s (cur s) (counter (pages s (cur s))))
       (Z.to_nat (counter (pages s' (cur s)) - counter (pages s (cur s)))).

Lemma emitted_bytes its s s' : emitted its s s' -> the_bytes s s' = flat zeros its.
Proof.
  intros [B C L P O M]. unfold the_bytes. rewrite P. cbn [counter with_counter].
  assert (Hl := flat_len zeros its).
  replace (Z.to_nat _) with (List.length (flat zeros its)) by lia.
  rewrite (read_ext _ (wr (mem s) (addr s (cur s) (counter (pages s (cur s)))) (flat zeros its))) by (intros; apply M).
  apply read_wr.
Qed.

(** The trace of an instruction, with what it means for every contents of the label fields. *)
Section One.
Variable ev : list tok -> env -> Z.
Variable lenv : string -> label.
Variable r : env.
Notation val := (eval ev r).

(** Instructions other than label definitions and data directives. *)
Definition bytes_wrong (i : inst) : bool := match i with ICvttsd2siq _ _ => true | _ => false end.
Definition rel_wrong (i : inst) : bool := match i with IRoundpd _ b _ => label_xm b | _ => false end.

Inductive asm_trace (i : inst) (t : trace) : Prop :=
| at_ok its : t = (its, None) -> (forall f, faithful f its (denote val (fun x => i32 (f (lenv x))) i)) ->
    (rel_wrong i = false -> rel_ok its) -> (rel_wrong i = true -> rel_late its) -> asm_trace i t
| at_rejected : (forall rel, denote val rel i = None) -> snd t = Some ImmRange -> asm_trace i t.

Lemma d_mem_none rel rel' a : d_mem val rel a = None -> d_mem val rel' a = None.
Proof.
  intro H. destruct (d_mem val rel' a) eqn:E; [|reflexivity].
  exfalso. apply (d_mem_rel val rel' rel a); [congruence|exact H].
Qed.
Lemma denote_none_rel rel rel' i : denote val rel i = None -> denote val rel' i = None.
Proof.
  pose proof (d_mem_none rel rel') as Hm.
  assert (Hrm : forall w a, d_rm val rel w a = None -> d_rm val rel' w a = None) by (intros w [|]; cbn [d_rm]; auto).
  assert (Hrmi : forall w a, d_rmi val rel w a = None -> d_rmi val rel' w a = None) by (intros w [| |]; cbn [d_rmi]; auto).
  assert (Hxm : forall a, d_xm val rel a = None -> d_xm val rel' a = None) by (intros [|]; cbn [d_xm]; auto).
  assert (Ht : forall m w x y x' y', (x = None -> x' = None) -> (y = None -> y' = None) -> d_two m w x y = None -> d_two m w x' y' = None).
  { intros m w x y x' y' Hx Hy H. destruct x as [x|]; [|rewrite Hx by reflexivity; reflexivity].
    destruct y as [y|]; [discriminate H|]. rewrite Hy by reflexivity. destruct x'; reflexivity. }
  assert (H1 : forall m w x x', (x = None -> x' = None) -> d_one m w x = None -> d_one m w x' = None).
  { intros m w x x' Hx H. destruct x; [discriminate H|]. rewrite Hx; reflexivity. }
  destruct i; cbn [denote]; try discriminate; auto; unfold d_movq, d_alu, d_shift, d_fp, d_dest;
  repeat match goal with |- context [match ?x with _ => _ end] => is_var x; destruct x end; auto;
  try (unfold guard; match goal with |- context [if ?b then _ else _] => destruct b end; cbn [obind]; auto);
  try (apply Ht; auto); try (apply H1; auto); try discriminate.
  - destruct (d_xmm val a); cbn [obind]; [|auto]. specialize (Hxm b). destruct (d_xm val rel b); cbn [obind];
    [destruct (d_xm val rel' b); cbn [obind]|rewrite Hxm by reflexivity]; auto; discriminate.
  - destruct (d_xmm val a); cbn [obind]; [|auto]. specialize (Hxm b). destruct (d_xm val rel b); cbn [obind];
    [destruct (d_xm val rel' b); cbn [obind]|rewrite Hxm by reflexivity]; auto; discriminate.
Qed.

Lemma taken_rel f f' i : operands_taken ev lenv f r i -> operands_taken ev lenv f' r i.
Proof.
  intros (A & B & C). repeat split; auto. eapply Forall_impl; [|exact C]. intros m [H1 H2]. split; [exact H1|].
  eapply d_mem_rel; exact H2.
Qed.
Lemma rel_wrong_taken i : rel_wrong (taken val i) = rel_wrong i.
Proof. destruct i; try reflexivity. destruct b as [e|m]; [reflexivity|]. cbn. unfold label_mem. cbn. destruct (ia_disp m); reflexivity. Qed.
(** What an instruction's trace means: the operands as the assembler takes them. *)
Lemma inst_trace_t i g t : is_instr i = true -> bytes_wrong i = false -> typed ev r i ->
  operands_taken ev lenv zeros r i -> imm_free ev r i -> compile i = Some g -> t_exec ev lenv r g = Some t ->
  asm_trace (taken val i) t.
Proof.
  intros Hi Hb Hty Hw Hf Hc Ht.
  destruct (rel_wrong i) eqn:Hr.
  - destruct i; try discriminate Hr. cbn [rel_wrong] in Hr. injection Hc as <-.
    assert (H : forall f, exists its, t = (its, None) /\ rel_late its /\ faithful f its (denote val (fun x => i32 (f (lenv x))) (taken val (IRoundpd a b i)))).
    { intro f. destruct (taken_rel zeros f _ Hw) as (O1 & O2 & O3). unfold xmms_of, mems_of in O2, O3.
      cbn [operands fst snd] in O2, O3. inversion O2; subst.
      destruct (roundpd_t ev lenv f r a b i t) as (its & E & F & _ & La); auto. 2: eauto.
      eapply xm_good_of; eauto. }
    destruct (H zeros) as (its & E & La & _). apply (at_ok _ _ its); auto.
    + intro f. destruct (H f) as (its' & E' & _ & F). rewrite E in E'. injection E' as <-. exact F.
    + rewrite rel_wrong_taken. cbn [rel_wrong]. rewrite Hr. discriminate.
  - assert (H : forall f, outcome f t (denote val (fun x => i32 (f (lenv x))) (taken val i))).
    { intro f. eapply inst_outcome_t; eauto using taken_rel. destruct i; try reflexivity; [exact Hr|exact Hb]. }
    destruct (H zeros) as [(its & E & F & R)|[Hn Hp]].
    + apply (at_ok _ _ its); auto; [|rewrite rel_wrong_taken; congruence]. intro f. destruct (H f) as [(its' & E' & F' & _)|[_ Hp]].
      * rewrite E in E'. injection E' as <-. exact F'.
      * rewrite E in Hp. discriminate.
    + apply at_rejected; [|exact Hp]. intro rel. eapply denote_none_rel; exact Hn.
Qed.
Lemma inst_trace i g t : is_instr i = true -> bytes_wrong i = false -> typed ev r i ->
  wf_operands val i -> imm_free ev r i -> compile i = Some g -> t_exec ev lenv r g = Some t -> asm_trace i t.
Proof.
  intros Hi Hb Hty Hw Hf Hc Ht.
  assert (E : forall f, denote val (fun x => i32 (f (lenv x))) (taken val i) = denote val (fun x => i32 (f (lenv x))) i)
    by (intro f; apply denote_taken, wf_written, Hw).
  destruct (inst_trace_t i g t Hi Hb Hty (ok_taken _ _ _ _ _ (wf_ok _ _ zeros _ _ Hw)) Hf Hc Ht) as [its Et F R La|N P].
  - apply (at_ok _ _ its); [exact Et| |rewrite <- rel_wrong_taken; exact R|rewrite <- rel_wrong_taken; exact La]. intro f. rewrite <- E. apply F.
  - apply at_rejected; [|exact P]. intro rel. eapply denote_none_rel. rewrite <- (E zeros). apply N.
Qed.
End One.

(** ** Length of the generated bytes *)
Lemma items_len_app a b : items_len (a ++ b) = items_len a + items_len b.
Proof. induction a as [|i l IH]; unfold items_len in *; cbn [app fold_right]; lia. Qed.
Lemma items_len_nonneg l : 0 <= items_len l.
Proof. induction l as [|i l IH]; unfold items_len in *; cbn [fold_right]; [lia|]. destruct i; cbn [item_len]; lia. Qed.
Lemma items_len_bytes bs : items_len (map IB bs) = Z.of_nat (List.length bs).
Proof. induction bs as [|b l IH]; [reflexivity|]. unfold items_len in *. cbn [map fold_right List.length item_len]. lia. Qed.
Definition tlen (t : trace) : Z := items_len (fst t).
Lemma tlen_seq a b : tlen (tseq a b) <= tlen a + tlen b.
Proof.
  unfold tseq, tlen. destruct (snd a); cbn [fst]; [pose proof (items_len_nonneg (fst b)); lia|].
  rewrite items_len_app. lia.
Qed.
Lemma tlen_item i : tlen (titem i) = item_len i.
Proof. unfold tlen, titem, items_len. cbn [fst fold_right]. lia. Qed.
Lemma tlen_ret : tlen tret = 0. Proof. reflexivity. Qed.
Lemma tlen_fail e : tlen (tfail e) = 0. Proof. reflexivity. Qed.
Lemma tlen_assert b : tlen (tassert b) = 0. Proof. destruct b; reflexivity. Qed.
Lemma tlen_bytes bs : tlen (tbytes bs) = Z.of_nat (List.length bs). Proof. apply items_len_bytes. Qed.
Definition imm_len (i : imm) : Z := match i with ImmNone => 0 | ImmB _ => 1 | ImmW _ => 2 | ImmL _ => 4 | ImmQ _ => 8 end.
Lemma tlen_rex rk a b c m : tlen (t_rex_fn rk a b c m) <= 1.
Proof.
  destruct rk; cbn [t_rex_fn]; unfold t_rexw, t_rex_none, t_rex_none_byte, t_rex;
    repeat match goal with |- context [if ?b then _ else _] => destruct b end; rewrite ?tlen_item, ?tlen_ret; cbn [item_len]; lia.
Qed.
Lemma tlen_sib k a b : tlen (t_sib k a b) <= 1.
Proof. unfold t_sib, tassert. destruct (k <? 4), (a <? 16); vm_compute; discriminate. Qed.
Lemma tlen_di d i : tlen (t_disp_imm d i) <= 4 + imm_len i.
Proof.
  unfold t_disp_imm. etransitivity; [apply tlen_seq|].
  destruct d, i; cbn [t_disp t_imm imm_len]; rewrite ?tlen_item, ?tlen_ret; cbn [item_len]; lia.
Qed.
Lemma tlen_modrm mm m b : tlen (t_modrm mm m b) = 1. Proof. apply tlen_item. Qed.
Lemma tseq_le a b n m : tlen a <= n -> tlen b <= m -> tlen (tseq a b) <= n + m.
Proof. pose proof (tlen_seq a b). lia. Qed.
Opaque tlen tseq tret tfail t_disp_imm t_modrm t_rex_fn t_sib tbytes.
Lemma tlen_encode op rk mm r i : tlen (t_encode op rk mm r i) <= Z.of_nat (List.length op) + 7 + imm_len i.
Proof.
  assert (Hi : 0 <= imm_len i) by (destruct i; cbn; lia).
  assert (G : forall a b c d m k x t, tlen t <= 1 -> tlen (tseq (t_rex_fn rk a b c d) (tseq (tbytes op) (tseq (t_modrm mm m k) (tseq t (t_disp_imm x i)))))
     <= Z.of_nat (List.length op) + 7 + imm_len i).
  { intros. etransitivity; [apply tseq_le; [apply tlen_rex|apply tseq_le; [rewrite tlen_bytes; reflexivity|apply tseq_le;
      [rewrite tlen_modrm; reflexivity|apply tseq_le; [eassumption|apply tlen_di]]]]|]. lia. }
  assert (G0 : forall a b c d m k x, tlen (tseq (t_rex_fn rk a b c d) (tseq (tbytes op) (tseq (t_modrm mm m k) (t_disp_imm x i))))
     <= Z.of_nat (List.length op) + 7 + imm_len i).
  { intros. etransitivity; [apply tseq_le; [apply tlen_rex|apply tseq_le; [rewrite tlen_bytes; reflexivity|apply tseq_le;
      [rewrite tlen_modrm; reflexivity|apply tlen_di]]]|]. lia. }
  unfold t_encode. replace (Z.of_nat (List.length op) + 7 + imm_len i) with (0 + (Z.of_nat (List.length op) + 7 + imm_len i)) by lia.
  apply tseq_le; [rewrite tlen_assert; lia|].
  destruct r as [b [|[|k x] [|d|d|l]]]; cbn [rm_base rm_mode mode_disp mode_scale scale_index rip_ind_from mode_is_reg negb andb is_indirect_no_disp];
  repeat match goal with |- context [if ?b then _ else _] => destruct b end;
  repeat first [ simple apply G0 | (simple apply G; first [simple apply tlen_sib | (rewrite tlen_ret; lia)]) | (rewrite tlen_fail; lia) ].
Qed.

Transparent tlen tseq tret tfail t_disp_imm t_modrm t_rex_fn t_sib tbytes.
(** An upper bound computed from the generated code. *)
Definition gimm_len (i : gimm) : Z := match i with GImmNone => 0 | GImmB => 1 | GImmW => 2 | GImmL => 4 end.
Definition gcall_len (c : gcall) : Z :=
  match c with
  | GBindLabel _ => 0
  | GEmit bs => Z.of_nat (List.length bs)
  | GEmitb _ | GEmitbExpr _ | GEmitbImm => 1
  | GEmitwImm => 2 | GEmitlImm | GEmitl _ => 4 | GEmitqLit _ | GEmitqImm => 8
  | GEncO _ _ | GEncOi _ _ | GEncOiByte _ _ | GEncRexwO _ _ => 2
  | GEncMi _ _ i | GEncRexwMi _ _ i | GEncMiByte _ _ i => 8 + gimm_len i
  | GEncMr op _ _ | GEncMrByte op _ _ | GEncRexwMr op _ _ | GEncMByte op _ => Z.of_nat (List.length op) + 7
  | GEncD op _ => Z.of_nat (List.length op) + 4
  | GEncDigit op _ _ => Z.of_nat (List.length op) + 7
  | GEncDigitImm op _ _ i | GEncDigitImmByte op _ _ _ i | GEncRexwDigit op _ _ i => Z.of_nat (List.length op) + 7 + gimm_len i
  | GSaveReloc _ _ => 0
  end.
Fixpoint gcode_len (g : gcode) : Z :=
  match g with
  | GNil | GPanic => 0
  | GDo c k => gcall_len c + gcode_len k
  | GLetImm _ k => gcode_len k
  | GIf _ t e k => Z.max (gcode_len t) (gcode_len e) + gcode_len k
  end.
Lemma run_imm_len r i : imm_len (run_imm r i) = gimm_len i. Proof. destruct i; reflexivity. Qed.
Lemma t_call_len ev lenv r c t : t_call ev lenv r c = Some t -> tlen t <= gcall_len c.
Proof.
  assert (Ho : forall m a b, tlen (tseq (tassert a) (tseq m (titem (IB b)))) <= tlen m + 1).
  { intros. etransitivity; [apply tseq_le; [rewrite tlen_assert; reflexivity|apply tlen_seq]|]. rewrite tlen_item. cbn [item_len]. lia. }
  assert (He : forall op rk mm x i, tlen (t_encode op rk mm x (run_imm r i)) <= Z.of_nat (List.length op) + 7 + gimm_len i).
  { intros. rewrite <- (run_imm_len r i). apply tlen_encode. }
  assert (He0 : forall op rk mm x, tlen (t_encode op rk mm x ImmNone) <= Z.of_nat (List.length op) + 7).
  { intros. etransitivity; [apply tlen_encode|]. cbn [imm_len]. lia. }
  destruct c; cbn [t_call]; intro H; inversion H; subst; clear H; cbn [gcall_len];
    rewrite ?tlen_bytes, ?tlen_item; cbn [item_len]; try lia; auto;
    try (etransitivity; [apply He|cbn [List.length]; lia]);
    try (unfold t_enc_o, t_enc_oi_byte, t_enc_rexw_o, t_op_with_rd; etransitivity; [apply Ho|];
      match goal with |- tlen ?x + 1 <= 2 => enough (tlen x <= 1) by lia end;
      first [apply (tlen_rex RexNone)|apply (tlen_rex RexByte)|apply (tlen_rex REXW)]).
  - unfold t_enc_d. etransitivity; [apply tlen_seq|]. rewrite tlen_bytes, tlen_item. cbn [item_len]. lia.
  - unfold t_enc_digit_imm_byte. destruct (rm_is_rax _); [|destruct (rm_is_reg _); apply He].
    etransitivity; [apply tseq_le; [rewrite tlen_item; reflexivity|apply tlen_di]|]. rewrite run_imm_len. cbn [item_len]. lia.
Qed.
Lemma t_exec_len ev lenv g : forall r t, t_exec ev lenv r g = Some t -> tlen t <= gcode_len g.
Proof.
  induction g as [|c k IH|e k IH|c t1 IHt e1 IHe k IH|]; intros r t H.
  - inversion H. reflexivity.
  - assert (Hgen : match t_call ev lenv r c, t_exec ev lenv r k with Some a, Some b => Some (tseq a b) | _, _ => None end = Some t ->
                   tlen t <= gcode_len (GDo c k)).
    { intro K. destruct (t_call ev lenv r c) as [a|] eqn:Ea; [|discriminate]. destruct (t_exec ev lenv r k) as [b|] eqn:Eb; [|discriminate].
      inversion K; subst. cbn [gcode_len]. apply tseq_le; [eapply t_call_len; exact Ea|eapply IH; exact Eb]. }
    destruct c; try (apply Hgen; exact H). cbn [t_exec] in H.
    destruct k as [|c2 k2| | |]; try discriminate. destruct c2; try discriminate.
    destruct v; try discriminate.
    destruct (t_exec ev lenv r k2) as [b|] eqn:Eb; [|discriminate]. inversion H; subst.
    specialize (IH r (tseq (titem (IL 0)) b)). cbn [t_exec t_call] in IH. rewrite Eb in IH. specialize (IH eq_refl).
    cbn [gcode_len gcall_len] in *. unfold tseq, tlen in *. cbn [snd titem tbytes fst] in *. rewrite items_len_app in *.
    change (items_len [IRel false (lenv ident) offset]) with 4. change (items_len [IL 0]) with 4 in IH. lia.
  - cbn [t_exec gcode_len] in *. eapply IH; exact H.
  - cbn [t_exec gcode_len] in *. destruct (run_cond ev r c) as [bb r'].
    destruct (if bb then t_exec ev lenv r' t1 else t_exec ev lenv r e1) as [a|] eqn:Ea; [|discriminate].
    destruct (t_exec ev lenv r k) as [b|] eqn:Eb; [|discriminate]. inversion H; subst.
    apply tseq_le; [|eapply IH; exact Eb]. destruct bb; [apply IHt in Ea|apply IHe in Ea]; lia.
  - inversion H. reflexivity.
Qed.
(** No instruction is longer than the architectural limit of 15 bytes. *)
Lemma compile_len i g : compile i = Some g -> gcode_len g <= 15.
Proof.
  intro H. destruct i; cbn [compile] in H;
  try (unfold binary_op, binary_opq, binary_opl, binary_opw, binary_opb, shift_op, divide_op, binary_sd_op,
         push_pop, count_op, xchg, testq, testb, movq, movl, movw, movb in H);
  repeat match goal with H : context [match ?x with _ => _ end] |- _ => destruct x; try discriminate end;
  inversion H; subst; clear H; vm_compute; discriminate.
Qed.

(** ** Labels referenced by the generated code *)
Definition refs_in (P : label -> Prop) (l : list item) : Prop :=
  Forall (fun i => match i with IRel _ x _ => P x | _ => True end) l.
Lemma refs_tseq P a b : refs_in P (fst a) -> refs_in P (fst b) -> refs_in P (fst (tseq a b)).
Proof. intros. unfold tseq. destruct (snd a); cbn [fst]; [assumption|]. apply Forall_app; auto. Qed.
Lemma refs_norel P l : no_rel l -> refs_in P l.
Proof. intro H. eapply Forall_impl; [|exact H]. intros i. destruct i; tauto. Qed.
Definition disp_in (P : label -> Prop) (d : disp) : Prop := match d with DLabel l => P l | _ => True end.
Lemma refs_di P d i : disp_in P d -> refs_in P (fst (t_disp_imm d i)).
Proof. intro H. unfold t_disp_imm. apply refs_tseq; [destruct d|destruct i]; repeat constructor; exact H. Qed.
Opaque tseq tret tfail t_disp_imm t_modrm t_rex_fn t_sib tbytes.
Lemma refs_encode P op rk mm r i : disp_in P (mode_disp (rm_mode r)) -> refs_in P (fst (t_encode op rk mm r i)).
Proof.
  intro H.
  assert (N1 : forall a b c d, refs_in P (fst (t_rex_fn rk a b c d))) by (intros; apply refs_norel, no_rel_rex).
  assert (N2 : forall a b c, refs_in P (fst (t_modrm a b c))) by (intros; apply refs_norel; repeat constructor).
  assert (N3 : forall a b c, refs_in P (fst (t_sib a b c))) by (intros; apply refs_norel, no_rel_sib).
  assert (N4 : refs_in P (fst (tbytes op))) by (apply refs_norel, no_rel_bytes).
  assert (N5 : refs_in P (fst tret)) by constructor.
  assert (N6 : refs_in P (fst (tfail Unimplemented))) by constructor.
  unfold t_encode. apply refs_tseq; [unfold tassert; destruct (negb _); constructor|].
  destruct r as [b [|[|k x] [|d|d|l]]]; cbn [rm_base rm_mode mode_disp mode_scale scale_index rip_ind_from mode_is_reg negb andb is_indirect_no_disp disp_in] in *;
  repeat match goal with |- context [if ?b then _ else _] => destruct b end;
  repeat first [ simple apply refs_tseq | simple apply N1 | simple apply N2 | simple apply N3 | simple apply N4
    | simple apply N5 | simple apply N6 | (simple apply refs_di; cbn [disp_in]; first [exact I | exact H]) ].
Qed.
Transparent tseq tret tfail t_disp_imm t_modrm t_rex_fn t_sib tbytes.

Definition grm_labels (x : grm) : list string := match x with GRmInd a => label_of_disp (ia_disp a) | _ => [] end.
Definition gcall_labels (c : gcall) : list string :=
  match c with
  | GBindLabel x | GEncD _ x | GSaveReloc x _ => [x]
  | GEncMi _ x _ | GEncRexwMi _ x _ | GEncMiByte _ x _ | GEncMr _ _ x | GEncMrByte _ _ x | GEncRexwMr _ _ x | GEncMByte _ x
  | GEncDigit _ x _ | GEncDigitImm _ x _ _ | GEncDigitImmByte _ _ x _ _ | GEncRexwDigit _ x _ _ => grm_labels x
  | _ => []
  end.
Fixpoint gcode_labels (g : gcode) : list string :=
  match g with
  | GNil | GPanic => []
  | GDo c k => gcall_labels c ++ gcode_labels k
  | GLetImm _ k => gcode_labels k
  | GIf _ t e k => gcode_labels t ++ gcode_labels e ++ gcode_labels k
  end.
Section Refs.
Variables (ev : list tok -> env -> Z) (lenv : string -> label) (P : label -> Prop).
Lemma refs_rm r x : (forall y, In y (grm_labels x) -> P (lenv y)) -> disp_in P (mode_disp (rm_mode (run_rm ev lenv r x))).
Proof.
  destruct x as [g|a]; cbn [grm_labels run_rm rm_reg rm_ind rm_mode mode_disp]; [intros; exact I|].
  destruct (ia_disp a) as [d|n e|l]; cbn [label_of_disp run_disp In]; intro H; unfold from_disp, from_label;
    repeat match goal with |- context [if ?b then _ else _] => destruct b end; cbn [disp_in]; auto.
Qed.
Lemma refs_call r c t : t_call ev lenv r c = Some t -> (forall y, In y (gcall_labels c) -> P (lenv y)) -> refs_in P (fst t).
Proof.
  assert (Hr : forall rk a b c d, refs_in P (fst (t_rex_fn rk a b c d))) by (intros; apply refs_norel, no_rel_rex).
  destruct c; cbn [t_call gcall_labels]; intros H Hl; inversion H; subst; clear H;
    try (apply refs_encode, refs_rm; exact Hl); try (repeat constructor; fail).
  - apply refs_norel, no_rel_bytes.
  - apply refs_tseq; [unfold tassert; destruct (negb _); constructor|]. apply refs_tseq; [apply (Hr RexNone)|repeat constructor].
  - apply refs_tseq; [unfold tassert; destruct (negb _); constructor|]. apply refs_tseq; [apply (Hr RexNone)|repeat constructor].
  - apply refs_tseq; [unfold tassert; destruct (negb _); constructor|]. apply refs_tseq; [apply (Hr RexByte)|repeat constructor].
  - apply refs_tseq; [unfold tassert; destruct (negb _); constructor|]. apply refs_tseq; [apply (Hr REXW)|repeat constructor].
  - apply refs_tseq; [apply refs_norel, no_rel_bytes|]. constructor; [|constructor]. apply Hl. cbn. auto.
  - unfold t_enc_digit_imm_byte. destruct (rm_is_rax _); [|destruct (rm_is_reg _); apply refs_encode, refs_rm; exact Hl].
    apply refs_tseq; [repeat constructor|]. apply refs_di. exact I.
Qed.
Lemma refs_exec g : forall r t, t_exec ev lenv r g = Some t -> (forall y, In y (gcode_labels g) -> P (lenv y)) -> refs_in P (fst t).
Proof.
  induction g as [|c k IH|e k IH|c t1 IHt e1 IHe k IH|]; intros r t H Hl.
  - inversion H. constructor.
  - cbn [gcode_labels] in Hl.
    assert (Hgen : match t_call ev lenv r c, t_exec ev lenv r k with Some a, Some b => Some (tseq a b) | _, _ => None end = Some t ->
                   refs_in P (fst t)).
    { intro K. destruct (t_call ev lenv r c) as [a|] eqn:Ea; [|discriminate]. destruct (t_exec ev lenv r k) as [b|] eqn:Eb; [|discriminate].
      inversion K; subst. apply refs_tseq; [eapply refs_call; [exact Ea|]|eapply IH; [exact Eb|]]; intros; apply Hl, in_or_app; auto. }
    destruct c; try (apply Hgen; exact H). cbn [t_exec] in H.
    destruct k as [|c2 k2| | |]; try discriminate. destruct c2; try discriminate.
    destruct v; try discriminate.
    destruct (t_exec ev lenv r k2) as [b|] eqn:Eb; [|discriminate]. inversion H; subst.
    specialize (IH r (tseq (titem (IL 0)) b)). cbn [t_exec t_call] in IH. rewrite Eb in IH. specialize (IH eq_refl).
    cbn [gcode_labels gcall_labels app] in *.
    assert (IH' : refs_in P (fst (tseq (titem (IL 0)) b))) by (apply IH; intros; apply Hl; right; assumption).
    unfold tseq in *. cbn [snd titem tbytes fst] in *. constructor; [apply Hl; left; reflexivity|].
    apply Forall_app in IH'. tauto.
  - cbn [t_exec gcode_labels] in *. eapply IH; eassumption.
  - cbn [t_exec gcode_labels] in *. destruct (run_cond ev r c) as [bb r'].
    destruct (if bb then t_exec ev lenv r' t1 else t_exec ev lenv r e1) as [a|] eqn:Ea; [|discriminate].
    destruct (t_exec ev lenv r k) as [b|] eqn:Eb; [|discriminate]. inversion H; subst.
    apply refs_tseq; [destruct bb; [eapply IHt|eapply IHe]|eapply IH]; try eassumption; intros; apply Hl; rewrite !in_app_iff; auto.
  - inversion H. constructor.
Qed.
End Refs.
Lemma grm_labels_rm b : grm_labels (grm_of_rm b) = flat_map (fun a => label_of_disp (ia_disp a)) (rm_mems b).
Proof. destruct b; cbn; rewrite ?app_nil_r; reflexivity. Qed.
Lemma grm_labels_xm b : grm_labels (grm_of_xm b) = flat_map (fun a => label_of_disp (ia_disp a)) (xm_mems b).
Proof. destruct b; cbn; rewrite ?app_nil_r; reflexivity. Qed.
Lemma compile_labels i g x : compile i = Some g -> match i with ILabel _ => False | _ => True end ->
  In x (gcode_labels g) -> In x (inst_labels i).
Proof.
  intros H Hi. destruct i; try contradiction; cbn [compile] in H;
  try (unfold binary_op, binary_opq, binary_opl, binary_opw, binary_opb, shift_op, divide_op, binary_sd_op,
         push_pop, count_op, xchg, testq, testb, movq, movl, movw, movb in H);
  repeat match goal with H : context [grm_of_rmi ?b] |- _ => destruct b; cbn [grm_of_rmi] in H end;
  repeat match goal with H : context [match ?x with _ => _ end] |- _ => destruct x; try discriminate end;
  inversion H; subst; clear H; unfold inst_labels, mems_of;
  cbn [gcode_labels gcall_labels g1 g2 app operands snd rm_mems rmi_mems xm_mems mov_mems flat_map];
  rewrite ?grm_labels_rm, ?grm_labels_xm, ?flat_map_app; cbn [grm_labels rm_mems rmi_mems xm_mems mov_mems flat_map app In];
  rewrite ?in_app_iff; cbn [In]; tauto.
Qed.

(** ** Instructions on assembler states *)
Lemma run_trace_cases t s :
  (exists s', run_trace t s = Ok tt s' /\ snd t = None /\ emitted (fst t) s s' /\
     (counter (pages s (cur s)) + tlen t <= PAGE_SIZE \/ fst t = [])) \/
  (exists e s', run_trace t s = Panic e s' /\ framed (cur s) s s' /\
     (e = PageOverflow /\ PAGE_SIZE < counter (pages s (cur s)) + tlen t \/
      e = IndexOOB /\ ~ Forall (item_label_ok (List.length (labels s))) (fst t) \/
      snd t = Some e /\ emitted (fst t) s s')).
Proof.
  unfold run_trace, bind. destruct (emit_items_spec (fst t) s) as [(s' & E & A & Hc & Hl)|(e & s' & E & F & H)]; rewrite E.
  - destruct (snd t) as [e|].
    + right. exists e, s'. split; [reflexivity|]. split; [|right; right; auto].
      destruct A as [B C L P O M]. pose proof (items_len_nonneg (fst t)). constructor; auto.
      * rewrite P. cbn [counter with_counter]. lia.
      * rewrite P. cbn [counter with_counter]. destruct Hc as [Hc|Hc]; [right; lia|left; rewrite Hc; cbn; lia].
      * rewrite P. reflexivity.
      * intros x Hx. rewrite M. destruct Hc as [Hc|Hc].
        -- apply wr_out. rewrite flat_len. unfold addr in *. lia.
        -- rewrite Hc. apply wr_nil.
    + left. exists s'. auto.
  - right. exists e, s'. split; [reflexivity|]. split; [exact F|]. tauto.
Qed.

Section States.
Variables (ev : list tok -> env -> Z) (lenv : string -> label) (r : env).
Notation val := (eval ev r).
(** The conditions under which an instruction is claimed to be assembled faithfully. *)
Record good_inst (i : inst) : Prop := mkGood {
  gi_instr : is_instr i = true;
  gi_bytes : bytes_wrong i = false;
  gi_typed : typed ev r i;
  gi_wf : wf_operands val i;
  gi_free : imm_free ev r i
}.

Lemma good_trace i g : good_inst i -> compile i = Some g ->
  exists t, t_exec ev lenv r g = Some t /\ asm_trace ev lenv r i t.
Proof.
  intros [A B C D E] Hc. destruct (compile_has_trace ev lenv i g r Hc) as [t Ht]; [destruct i; auto; discriminate|].
  exists t. split; [exact Ht|]. eapply inst_trace; eauto.
Qed.

(** Accepted: exactly one instruction has been appended and it is the denoted one,
    whatever values the label fields will get. *)
Lemma asm_accepted i g s r' s' : good_inst i -> compile i = Some g -> exec ev lenv r g s = Ok r' s' ->
  exists its, emitted its s s' /\ (forall f, faithful f its (denote val (fun x => i32 (f (lenv x))) i)) /\
    (rel_wrong i = false -> rel_ok its) /\ counter (pages s (cur s)) + items_len its <= PAGE_SIZE.
Proof.
  intros Hg Hc He. destruct (good_trace i g Hg Hc) as (t & Ht & A). rewrite (exec_run _ _ _ _ _ s Ht) in He.
  destruct (run_trace_cases t s) as [(s1 & E & Hn & Em & Hr)|(e & s1 & E & _)]; rewrite E in He; [|discriminate].
  inversion He; subst; clear He. destruct A as [its -> F R|_ Hp]; [|congruence]. cbn [fst snd tlen] in *.
  exists its. split; [exact Em|]. split; [exact F|]. split; [exact R|]. unfold tlen in Hr. cbn [fst] in Hr. destruct Hr as [Hr| ->]; [exact Hr|].
  destruct (F zeros) as (x & y & _ & _ & D). specialize (D []). discriminate D.
Qed.

(** Rejected: the operands name no instruction, or there is no room, or a label is not in the table. *)
Lemma asm_panics i g s e s' : good_inst i -> compile i = Some g -> exec ev lenv r g s = Panic e s' ->
  (e = ImmRange /\ forall rel, denote val rel i = None) \/
  (e = PageOverflow /\ PAGE_SIZE < counter (pages s (cur s)) + 15) \/
  (e = IndexOOB /\ exists x, In x (inst_labels i) /\ (List.length (labels s) <= lenv x)%nat).
Proof.
  intros Hg Hc He. destruct (good_trace i g Hg Hc) as (t & Ht & A). rewrite (exec_run _ _ _ _ _ s Ht) in He.
  pose proof (t_exec_len _ _ _ _ _ Ht) as Hlen. pose proof (compile_len _ _ Hc) as H15.
  destruct (run_trace_cases t s) as [(s1 & E & _)|(e1 & s1 & E & F & H)]; rewrite E in He; [discriminate|].
  inversion He; subst; clear He. destruct H as [[-> H]|[[-> H]|[H _]]].
  - right. left. split; [reflexivity|lia].
  - right. right. split; [reflexivity|].
    destruct (Forall_Exists_dec (fun x => (lenv x < List.length (labels s))%nat)
       (fun x => Compare_dec.lt_dec (lenv x) (List.length (labels s))) (inst_labels i)) as [K|K].
    + exfalso. apply H. assert (R : refs_in (fun l => (l < List.length (labels s))%nat) (fst t)).
      { eapply refs_exec; [exact Ht|]. intros y Hy. rewrite Forall_forall in K. apply K.
        eapply compile_labels; eauto. destruct Hg as [Hi _ _ _ _]. destruct i; auto; discriminate. }
      eapply Forall_impl; [|exact R]. intros it. destruct it; cbn; auto.
    + apply Exists_exists in K. destruct K as (x & Hx & K). exists x. split; [exact Hx|lia].
  - left. destruct A as [its -> _ _|Hn Hp]; [discriminate H|]. split; [congruence|exact Hn].
Qed.

Lemma asm_accepts i g s : good_inst i -> compile i = Some g -> denote val (fun _ => 0) i <> None ->
  counter (pages s (cur s)) + 15 <= PAGE_SIZE -> (forall x, In x (inst_labels i) -> (lenv x < List.length (labels s))%nat) ->
  exists r' s', exec ev lenv r g s = Ok r' s'.
Proof.
  intros Hg Hc Hd Hr Hl. destruct (exec ev lenv r g s) as [r' s'|e s'] eqn:E; [eauto|].
  exfalso. destruct (asm_panics _ _ _ _ _ Hg Hc E) as [[_ H]|[[_ H]|(_ & x & Hx & H)]].
  - apply Hd, H.
  - lia.
  - specialize (Hl x Hx). lia.
Qed.
Lemma asm_rejects i g s : good_inst i -> compile i = Some g -> denote val (fun _ => 0) i = None ->
  exists e s', exec ev lenv r g s = Panic e s'.
Proof.
  intros Hg Hc Hd. destruct (exec ev lenv r g s) as [r' s'|e s'] eqn:E; [|eauto].
  exfalso. destruct (asm_accepted _ _ _ _ _ Hg Hc E) as (its & _ & F & _).
  destruct (F zeros) as (x & y & K & _). rewrite (denote_none_rel ev r _ _ i Hd) in K. discriminate.
Qed.
End States.

(** ** Rejection before emission *)
Fixpoint no_panic (g : gcode) : bool :=
  match g with GNil => true | GPanic => false | GDo _ k | GLetImm _ k => no_panic k
  | GIf _ t e k => no_panic t && no_panic e && no_panic k end.
Fixpoint panic_first (g : gcode) : bool :=
  match g with
  | GPanic => true
  | GLetImm _ k => panic_first k
  | GIf _ t e GNil => panic_first t && panic_first e
  | GIf _ GPanic GNil k => panic_first k
  | _ => no_panic g
  end.
Lemma t_encode_no_imm op rk mm r i : snd (t_encode op rk mm r i) <> Some ImmRange.
Proof.
  assert (S : forall a b, snd a <> Some ImmRange -> snd b <> Some ImmRange -> snd (tseq a b) <> Some ImmRange).
  { intros a b. unfold tseq. destruct (snd a) as [e|]; cbn [snd]; auto. }
  assert (A : forall b, snd (tassert b) <> Some ImmRange) by (intros []; discriminate).
  assert (N1 : forall a b c d, snd (t_rex_fn rk a b c d) <> Some ImmRange).
  { intros. destruct rk; cbn [t_rex_fn]; unfold t_rexw, t_rex_none, t_rex_none_byte, t_rex;
    repeat match goal with |- context [if ?b then _ else _] => destruct b end; discriminate. }
  assert (N3 : forall a b c, snd (t_sib a b c) <> Some ImmRange) by (intros; unfold t_sib; apply S; [apply A|apply S; [apply A|discriminate]]).
  assert (N4 : forall d, snd (t_disp_imm d i) <> Some ImmRange) by (intros; unfold t_disp_imm; apply S; [destruct d|destruct i]; discriminate).
  assert (N5 : forall e, snd (t_modrm mm (fst e) (snd e)) <> Some ImmRange) by (intros; discriminate).
  unfold t_encode. apply S; [apply A|].
  destruct r as [b [|[|k x] [|d|d|l]]]; cbn [rm_base rm_mode mode_disp mode_scale scale_index rip_ind_from mode_is_reg negb andb is_indirect_no_disp];
  repeat match goal with |- context [if ?b then _ else _] => destruct b end;
  repeat first [ simple apply S | simple apply N1 | simple apply N3 | simple apply N4 | discriminate ].
Qed.
Lemma t_call_no_imm ev lenv r c t : t_call ev lenv r c = Some t -> snd t <> Some ImmRange.
Proof.
  assert (S : forall a b, snd a <> Some ImmRange -> snd b <> Some ImmRange -> snd (tseq a b) <> Some ImmRange).
  { intros a b. unfold tseq. destruct (snd a) as [e|]; cbn [snd]; auto. }
  assert (A : forall b, snd (tassert b) <> Some ImmRange) by (intros []; discriminate).
  destruct c; cbn [t_call]; intro H; inversion H; subst; clear H; try discriminate; try apply t_encode_no_imm.
  - apply S; [apply A|]. apply S; [|discriminate]. unfold t_rex_none; destruct (_ || _); discriminate.
  - apply S; [apply A|]. apply S; [|discriminate]. unfold t_rex_none; destruct (_ || _); discriminate.
  - apply S; [apply A|]. apply S; [|discriminate]. unfold t_rex_none_byte; destruct (_ || _); [discriminate|]. destruct (_ || _); discriminate.
  - apply S; [apply A|]. apply S; discriminate.
  - unfold t_enc_digit_imm_byte. destruct (rm_is_rax _); [|destruct (rm_is_reg _); apply t_encode_no_imm].
    apply S; [discriminate|]. destruct i; discriminate.
Qed.
Lemma no_panic_imm ev lenv g : forall r t, no_panic g = true -> t_exec ev lenv r g = Some t -> snd t <> Some ImmRange.
Proof.
  assert (S : forall a b, snd a <> Some ImmRange -> snd b <> Some ImmRange -> snd (tseq a b) <> Some ImmRange).
  { intros a b. unfold tseq. destruct (snd a) as [e|]; cbn [snd]; auto. }
  induction g as [|c k IH|e k IH|c t1 IHt e1 IHe k IH|]; intros r t Hn H.
  - inversion H. discriminate.
  - cbn [no_panic] in Hn.
    assert (Hgen : match t_call ev lenv r c, t_exec ev lenv r k with Some a, Some b => Some (tseq a b) | _, _ => None end = Some t ->
                   snd t <> Some ImmRange).
    { intro K. destruct (t_call ev lenv r c) as [a|] eqn:Ea; [|discriminate]. destruct (t_exec ev lenv r k) as [b|] eqn:Eb; [|discriminate].
      inversion K; subst. apply S; [eapply t_call_no_imm; exact Ea|eapply IH; eauto]. }
    destruct c; try (apply Hgen; exact H). cbn [t_exec] in H.
    destruct k as [|c2 k2| | |]; try discriminate. destruct c2; try discriminate.
    destruct v; try discriminate.
    destruct (t_exec ev lenv r k2) as [b|] eqn:Eb; [|discriminate]. inversion H; subst.
    specialize (IH r (tseq (titem (IL 0)) b) Hn). cbn [t_exec t_call] in IH. rewrite Eb in IH. specialize (IH eq_refl).
    exact IH.
  - cbn [t_exec no_panic] in *. eapply IH; eassumption.
  - cbn [t_exec no_panic] in *. apply andb_true_iff in Hn. destruct Hn as [Hn Hk]. apply andb_true_iff in Hn. destruct Hn as [Ht1 He1].
    destruct (run_cond ev r c) as [bb r'].
    destruct (if bb then t_exec ev lenv r' t1 else t_exec ev lenv r e1) as [a|] eqn:Ea; [|discriminate].
    destruct (t_exec ev lenv r k) as [b|] eqn:Eb; [|discriminate]. inversion H; subst.
    apply S; [destruct bb; [eapply IHt|eapply IHe]; eauto|eapply IH; eauto].
  - discriminate Hn.
Qed.
Lemma guard_imm ev lenv c k r t : t_exec ev lenv r (GIf c GPanic GNil k) = Some t -> snd t = Some ImmRange ->
  (forall t', t_exec ev lenv r k = Some t' -> snd t' = Some ImmRange -> fst t' = []) -> fst t = [].
Proof.
  cbn [t_exec]. intros H Hp K. destruct (run_cond ev r c) as [bb r'].
  destruct bb; destruct (t_exec ev lenv r k) as [b|] eqn:E; try discriminate H; inversion H; subst; [reflexivity|].
  rewrite tseq_ret_l in *. eapply K; eauto.
Qed.
Lemma panic_first_imm ev lenv g : forall r t, panic_first g = true -> t_exec ev lenv r g = Some t ->
  snd t = Some ImmRange -> fst t = [].
Proof.
  induction g as [|c k IH|e k IH|c t1 IHt e1 IHe k IH|]; intros r t Hn H Hp.
  - inversion H. reflexivity.
  - exfalso. eapply no_panic_imm; eauto.
  - cbn [t_exec panic_first] in *. eapply IH; eassumption.
  - destruct k.
    2-5: destruct t1; try (exfalso; eapply no_panic_imm; eauto; fail); destruct e1; try (exfalso; eapply no_panic_imm; eauto; fail);
      (eapply guard_imm; [exact H|exact Hp|intros t' Ht'; eapply IH; eauto]).
    assert (Hn' : panic_first t1 && panic_first e1 = true) by (destruct t1; destruct e1; exact Hn). clear Hn.
    apply andb_true_iff in Hn'. destruct Hn' as [Ht1 He1]. cbn [t_exec] in H.
    destruct (run_cond ev r c) as [bb r'].
    destruct (if bb then t_exec ev lenv r' t1 else t_exec ev lenv r e1) as [a|] eqn:Ea; [|discriminate]. inversion H; subst.
    rewrite tseq_ret_r in *. destruct bb; [eapply IHt|eapply IHe]; eauto.
  - inversion H; reflexivity.
Qed.
(** Word-sized arithmetic with an immediate emits its prefix first. *)
Definition word_alu_imm (i : inst) : bool :=
  match i with
  | IAdd WORD _ (RmiImm _) | ISub WORD _ (RmiImm _) | IAdc WORD _ (RmiImm _) | ISbb WORD _ (RmiImm _) | IAnd WORD _ (RmiImm _)
  | IOr WORD _ (RmiImm _) | IXor WORD _ (RmiImm _) | ICmp WORD _ (RmiImm _) => true
  | _ => false
  end.
Lemma compile_panic_first i g : word_alu_imm i = false -> compile i = Some g -> panic_first g = true.
Proof.
  intros Hw H. destruct i; cbn [compile] in H;
  try (unfold binary_op, binary_opq, binary_opl, binary_opw, binary_opb, shift_op, divide_op, binary_sd_op,
         push_pop, count_op, xchg, testq, testb, movq, movl, movw, movb in H);
  repeat match goal with H : context [match ?x with _ => _ end] |- _ => destruct x; try discriminate end;
  inversion H; subst; clear H; cbn [word_alu_imm] in Hw; try discriminate Hw; reflexivity.
Qed.
Lemma asm_reject_clean ev lenv r i g s s' : word_alu_imm i = false -> is_instr i = true -> compile i = Some g ->
  exec ev lenv r g s = Panic ImmRange s' -> s' = s.
Proof.
  intros Hw Hi Hc He. destruct (compile_has_trace ev lenv i g r Hc) as [t Ht]; [destruct i; auto; discriminate|].
  rewrite (exec_run _ _ _ _ _ s Ht) in He. unfold run_trace, bind in He.
  destruct (emit_items_spec (fst t) s) as [(s1 & E & _)|(e & s1 & E & _ & H)]; rewrite E in He.
  - destruct (snd t) as [e|] eqn:Et; [|discriminate]. injection He as -> <-.
    rewrite (panic_first_imm _ _ _ _ _ (compile_panic_first _ _ Hw Hc) Ht Et) in E. unfold emit_items, ret in E. cbn [forM] in E. injection E as <-. reflexivity.
  - injection He as -> _. destruct H as [[H _]|[H _]]; discriminate H.
Qed.
