(** Every call other than finalize is an extension. *)
From Verif Require Import Base ModelMem ModelEnc ModelSyntax ModelMacro Trace Emit SpecAsm Fidelity FidelityInst StateFid SpecState SpecHist MemInv.
Local Notation length := List.length.

(** Extension that leaves everything but cursors, memory and labels alone. *)
Record grow (B : label -> Prop) (s s' : jit) : Prop := mkGrow {
  go_ext : ext B s s';
  go_cur : cur s' = cur s;
  go_pages : forall p, pages s' p = with_counter (cnt s' p) (pages s p)
}.
Lemma grow_refl B s : cnt_ok s -> grow B s s.
Proof. intro K. constructor; [apply ext_refl, K|reflexivity|]. intro p. symmetry. apply with_counter_same. Qed.
Lemma grow_trans B s1 s2 s3 : grow B s1 s2 -> grow B s2 s3 -> grow B s1 s3.
Proof.
  intros [E1 C1 P1] [E2 C2 P2]. constructor; [eapply ext_trans; eauto|congruence|].
  intro p. rewrite P2, P1. apply with_counter_twice.
Qed.
Lemma grow_weaken (B C : label -> Prop) s s' : (forall l, B l -> C l) -> grow B s s' -> grow C s s'.
Proof. intros H [E K P]. constructor; auto. eapply ext_weaken; eauto. Qed.
Lemma grow_ok B s s' : grow B s s' -> cnt_ok s'. Proof. intros [E _ _]. apply (ex_ok _ _ _ E). Qed.

Lemma adv_pages p bs s s' : adv p bs s s' -> forall q, pages s' q = with_counter (cnt s' q) (pages s q).
Proof.
  intros A q. destruct (pid_dec q p) as [->|H].
  - unfold cnt. rewrite (adv_page _ _ _ _ A). reflexivity.
  - unfold cnt. rewrite (adv_others _ _ _ _ A) by exact H. symmetry. apply with_counter_same.
Qed.
Lemma appends_grow B p bs m s a s' : cnt_ok s -> appends p bs m -> m s = Ok a s' -> grow B s s'.
Proof.
  intros K A E. destruct (appends_ext B p bs m s a s' K A E) as [X Y]. constructor; [exact X|apply (adv_cur _ _ _ _ Y)|].
  apply (adv_pages _ _ _ _ Y).
Qed.
Lemma set_cnt_grow B p c s : cnt_ok s -> cnt s p <= c <= PAGE_SIZE -> grow B s (set_cnt p c s).
Proof.
  intros K H. constructor; [apply ext_set_cnt; assumption|reflexivity|].
  intro q. rewrite cnt_set_cnt. cbn [set_cnt pages set_page]. destruct (pid_eqb q p); [reflexivity|].
  symmetry. apply with_counter_same.
Qed.
Lemma align_grow B p a s : cnt_ok s -> In a [1; 4; 8; 16; 4096] -> grow B s (set_cnt p (align_up a (cnt s p)) s).
Proof.
  intros K Ha. apply set_cnt_grow; [exact K|]. split; [|apply align_up_max; [exact Ha|apply K]].
  apply align_up_spec. cbn in Ha. lia.
Qed.
Lemma bind_grow (B : label -> Prop) p l s s' : cnt_ok s -> B l -> bind_label_on p l s = Ok tt s' -> grow B s s'.
Proof.
  intros K Hb E. constructor; [eapply ext_bind; eauto|..];
  unfold bind_label_on, bind, get_counter, modify_label in E; destruct (l <? _)%nat; inversion E; subst; [reflexivity|].
  intro q. symmetry. apply with_counter_same.
Qed.
Lemma new_label_grow B s : cnt_ok s -> grow B s (set_labels (labels s ++ [label_new]) s).
Proof. intro K. constructor; [apply ext_new_label, K|reflexivity|]. intro q. symmetry. apply with_counter_same. Qed.

Lemma cop_grow B c p s s' : cnt_ok s -> run_cop c p s = Ok tt s' -> grow B s s'.
Proof.
  intros K E. destruct c; cbn [run_cop] in E.
  - eapply appends_grow; [exact K|apply emitb_on_appends|exact E].
  - eapply appends_grow; [exact K|apply emitw_on_appends|exact E].
  - eapply appends_grow; [exact K|apply emitl_on_appends|exact E].
  - eapply appends_grow; [exact K|apply emitq_on_appends|exact E].
  - rewrite align4_eq in E. inversion E; subst. apply align_grow; cbn; auto.
  - rewrite align8_eq in E. inversion E; subst. apply align_grow; cbn; auto.
  - rewrite align16_eq in E. inversion E; subst. apply align_grow; cbn; auto.
  - rewrite align_page_eq in E. inversion E; subst. apply align_grow; cbn; auto 6.
Qed.

(** ** Items *)
Definition item_off_ok (i : item) : Prop := match i with IRel _ _ off => 0 <= off <= 255 | _ => True end.
Lemma emit_item_grow B i s s' : cnt_ok s -> item_off_ok i -> emit_item i s = Ok tt s' -> grow B s s'.
Proof.
  intros K Ho E. destruct (emit_item_spec i s) as [(s1 & E1 & A & Hr & Hl)|(e & s1 & E1 & _)]; rewrite E1 in E; [|discriminate].
  inversion E; subst s1; clear E.
  assert (HP : forall p, pages s' p = with_counter (cnt s' p) (pages s p)).
  { intro q. unfold cnt. destruct (pid_dec q (cur s)) as [->|H]; [rewrite (em_page _ _ _ A); reflexivity|].
    rewrite (em_others _ _ _ A) by exact H. symmetry. apply with_counter_same. }
  constructor; [|apply (em_cur _ _ _ A)|exact HP].
  assert (Hgen : forall bs, flat zeros [i] = bs -> labels s' = labels s -> ext B s s').
  { intros bs Hb Hlab. destruct A as [B1 C1 L1 P1 O1 M1]. eapply (ext_adv B (cur s) bs).
    - exact K.
    - constructor; auto; rewrite <- Hb.
      + rewrite flat_len. exact P1.
      + exact M1.
    - rewrite <- Hb, flat_len. change (items_len [i]) with (item_len i + 0). unfold cnt. lia. }
  destruct i as [b|v|v|v|bw l off]; try (eapply Hgen; [reflexivity|]; rewrite (em_labels _ _ _ A); reflexivity).
  clear Hgen. destruct A as [B1 C1 L1 P1 O1 M1]. cbn [item_label_ok item_len item_off_ok] in *.
  eapply (ext_ref B (cur s) (Rel (cur s) off (cnt s (cur s))) l s (le 4 0)); try reflexivity; auto.
  constructor; auto.
Qed.
(** [leaves r s']: the call returned in state [s'] or panicked in it, not by a page overflow. *)
Definition leaves {A} (r : res A) (s' : jit) : Prop :=
  match r with Ok _ t => t = s' | Panic e t => t = s' /\ e <> PageOverflow end.
Lemma leaves_bind {A B} (m : M A) (k : A -> M B) s s' : leaves (bind m k s) s' ->
  (exists a s1, m s = Ok a s1 /\ leaves (k a s1) s') \/ (exists e, m s = Panic e s' /\ e <> PageOverflow).
Proof.
  unfold bind. destruct (m s) as [a s1|e s1]; intro H; [left; eauto|right]. destruct H as [<- H]. eauto.
Qed.
Lemma appends_leaves p bs m s s' : appends p bs m -> leaves (m s) s' -> m s = Ok tt s'.
Proof.
  intros A L. specialize (A s). destruct ((_ <=? _) || _) in A; destruct A as (s1 & E & _); rewrite E in *; cbn in L; [congruence|tauto].
Qed.
Lemma emit_item_panic i s e s' : emit_item i s = Panic e s' -> e <> PageOverflow -> s' = s.
Proof.
  intros E He. assert (L : leaves (emit_item i s) s') by (rewrite E; split; auto).
  assert (Hno : forall p bs m, appends p bs m -> m s = emit_item i s -> False).
  { intros p bs m A Em. rewrite <- Em in L. apply (appends_leaves _ _ _ _ _ A) in L. congruence. }
  destruct i as [b|v|v|v|bw l off].
  - exfalso. eapply Hno; [apply emitb_on_appends|reflexivity].
  - exfalso. eapply Hno; [apply emitw_on_appends|reflexivity].
  - exfalso. eapply Hno; [apply emitl_on_appends|reflexivity].
  - exfalso. eapply Hno; [apply emitq_on_appends|reflexivity].
  - destruct (emit_item_spec (IRel bw l off) s) as [(s1 & E1 & _)|(e1 & s1 & E1 & _ & H)]; [congruence|].
    rewrite E in E1. inversion E1; subst e1 s1. destruct H as [[-> _]|[-> H]]; [congruence|]. cbn [item_label_ok] in H.
    cbn [emit_item] in E. unfold bind at 1, save_reloc, on_cur, bind, get_counter, modify_label in E.
    destruct (l <? length (labels s))%nat eqn:El; [|congruence]. exfalso. apply H. apply Nat.ltb_lt. exact El.
Qed.
Lemma emit_items_grow B : forall its s s', cnt_ok s -> Forall item_off_ok its -> leaves (emit_items its s) s' -> grow B s s'.
Proof.
  induction its as [|i its IH]; intros s s' K Ho E.
  - cbn in E. subst. apply grow_refl, K.
  - unfold emit_items in E. cbn [forM] in E. apply leaves_bind in E. destruct E as [([] & s1 & E1 & E)|(e & E1 & He)].
    + inversion Ho; subst. assert (G : grow B s s1) by (eapply emit_item_grow; eauto).
      eapply grow_trans; [exact G|]. apply (IH s1); auto. eapply grow_ok; eauto.
    + rewrite (emit_item_panic _ _ _ _ E1 He). apply grow_refl, K.
Qed.

(** Offsets of the references made by encoder calls. *)
Definition offs (t : trace) : Prop := Forall item_off_ok (fst t).
Lemma offs_tseq a b : offs a -> offs b -> offs (tseq a b).
Proof. intros. unfold offs, tseq. destruct (snd a); cbn [fst]; [assumption|]. apply Forall_app; auto. Qed.
Lemma offs_norel t : no_rel (fst t) -> offs t.
Proof. intro H. eapply Forall_impl; [|exact H]. intros i. destruct i; cbn; tauto. Qed.
Lemma offs_di d i : offs (t_disp_imm d i).
Proof. unfold t_disp_imm. apply offs_tseq; [destruct d|destruct i]; repeat constructor; cbn; destruct i; cbn; lia. Qed.
Opaque tseq tret tfail t_disp_imm t_modrm t_rex_fn t_sib tbytes.
Lemma offs_encode op rk mm r i : offs (t_encode op rk mm r i).
Proof.
  assert (N1 : forall a b c d, offs (t_rex_fn rk a b c d)) by (intros; apply offs_norel, no_rel_rex).
  assert (N2 : forall a b c, offs (t_modrm a b c)) by (intros; apply offs_norel; repeat constructor).
  assert (N3 : forall a b c, offs (t_sib a b c)) by (intros; apply offs_norel, no_rel_sib).
  assert (N4 : offs (tbytes op)) by (apply offs_norel, no_rel_bytes).
  assert (N5 : offs tret) by constructor.
  assert (N6 : offs (tfail Unimplemented)) by constructor.
  unfold t_encode. apply offs_tseq; [unfold tassert; destruct (negb _); constructor|].
  destruct r as [b [|[|k x] [|d|d|l]]]; cbn [rm_base rm_mode mode_disp mode_scale scale_index rip_ind_from mode_is_reg negb andb is_indirect_no_disp] in *;
  repeat match goal with |- context [if ?b then _ else _] => destruct b end;
  repeat first [ simple apply offs_tseq | simple apply N1 | simple apply N2 | simple apply N3 | simple apply N4
    | simple apply N5 | simple apply N6 | simple apply offs_di ].
Qed.
Transparent tseq tret tfail t_disp_imm t_modrm t_rex_fn t_sib tbytes.
Section Calls.
Variables (ev : list tok -> env -> Z) (lenv : string -> label).
Lemma offs_call r c t : t_call ev lenv r c = Some t -> offs t.
Proof.
  assert (Hr : forall rk a b c d, offs (t_rex_fn rk a b c d)) by (intros; apply offs_norel, no_rel_rex).
  assert (Ha : forall b, offs (tassert b)) by (intros []; constructor).
  destruct c; cbn [t_call]; intros H; inversion H; subst; clear H; try apply offs_encode; try (repeat constructor; fail).
  - apply offs_norel, no_rel_bytes.
  - apply offs_tseq; [apply Ha|]. apply offs_tseq; [apply (Hr RexNone)|repeat constructor].
  - apply offs_tseq; [apply Ha|]. apply offs_tseq; [apply (Hr RexNone)|repeat constructor].
  - apply offs_tseq; [apply Ha|]. apply offs_tseq; [apply (Hr RexByte)|repeat constructor].
  - apply offs_tseq; [apply Ha|]. apply offs_tseq; [apply (Hr REXW)|repeat constructor].
  - apply offs_tseq; [apply offs_norel, no_rel_bytes|]. repeat constructor; lia.
  - unfold t_enc_digit_imm_byte. destruct (rm_is_rax _); [|destruct (rm_is_reg _); apply offs_encode].
    apply offs_tseq; [repeat constructor|]. apply offs_di.
Qed.
(** Offsets of the save_reloc calls in generated code. *)
Fixpoint gcode_offs (g : gcode) : bool :=
  match g with
  | GNil | GPanic => true
  | GDo (GSaveReloc _ off) k => (0 <=? off) && (off <=? 255) && gcode_offs k
  | GDo _ k | GLetImm _ k => gcode_offs k
  | GIf _ t e k => gcode_offs t && gcode_offs e && gcode_offs k
  end.
Lemma offs_exec g : forall r t, t_exec ev lenv r g = Some t -> gcode_offs g = true -> offs t.
Proof.
  induction g as [|c k IH|e k IH|c t1 IHt e1 IHe k IH|]; intros r t H Hl.
  - inversion H. constructor.
  - assert (Hgen : match t_call ev lenv r c, t_exec ev lenv r k with Some a, Some b => Some (tseq a b) | _, _ => None end = Some t ->
                   gcode_offs k = true -> offs t).
    { intros E Hk. destruct (t_call ev lenv r c) as [a|] eqn:Ea; [|discriminate]. destruct (t_exec ev lenv r k) as [b|] eqn:Eb; [|discriminate].
      inversion E; subst. apply offs_tseq; [eapply offs_call; exact Ea|eapply IH; [exact Eb|exact Hk]]. }
    destruct c; try (apply Hgen; [exact H|exact Hl]). clear Hgen. cbn [t_exec gcode_offs] in H, Hl.
    destruct k as [|c2 k2| | |]; try discriminate. destruct c2; try discriminate.
    destruct v; try discriminate.
    destruct (t_exec ev lenv r k2) as [b|] eqn:Eb; [|discriminate]. inversion H; subst.
    cbn [gcode_offs] in *.
    assert (IH' : offs (tseq (titem (IL 0)) b)).
    { apply (IH r). { cbn [t_exec t_call]. rewrite Eb. reflexivity. } apply andb_true_iff in Hl. apply Hl. }
    unfold offs, tseq in *. cbn [snd titem tbytes fst] in *. constructor; [cbn; lia|]. apply Forall_app in IH'. tauto.
  - cbn [t_exec gcode_offs] in *. eapply IH; eassumption.
  - cbn [t_exec gcode_offs] in *. destruct (run_cond ev r c) as [bb r'].
    destruct (if bb then t_exec ev lenv r' t1 else t_exec ev lenv r e1) as [a|] eqn:Ea; [|discriminate].
    destruct (t_exec ev lenv r k) as [b|] eqn:Eb; [|discriminate]. inversion H; subst.
    apply andb_true_iff in Hl. destruct Hl as [Hl H3]. apply andb_true_iff in Hl. destruct Hl as [H1 H2].
    apply offs_tseq; [destruct bb; [eapply IHt|eapply IHe]|eapply IH]; eassumption.
  - inversion H. constructor.
Qed.
End Calls.
Lemma compile_offs i g : compile i = Some g -> gcode_offs g = true.
Proof.
  intros H. destruct i; cbn [compile] in H;
  try (unfold binary_op, binary_opq, binary_opl, binary_opw, binary_opb, shift_op, divide_op, binary_sd_op,
         push_pop, count_op, xchg, testq, testb, movq, movl, movw, movb in H);
  repeat match goal with H : context [match ?x with _ => _ end] |- _ => destruct x; try discriminate end;
  inversion H; subst; clear H; vm_compute; reflexivity.
Qed.

(** ** Statements and blocks *)
(** Labels bound by a statement of a block. *)
Definition binds (lenv : string -> label) (i : inst) (l : label) : Prop :=
  match i with ILabel x => lenv x = l | _ => False end.
Lemma trace_grow B t s s' : cnt_ok s -> offs t -> leaves (run_trace t s) s' -> grow B s s'.
Proof.
  intros K Ho E. unfold run_trace in E. apply leaves_bind in E. destruct E as [([] & s2 & E2 & E)|(e & E & He)].
  - assert (s2 = s') by (destruct (snd t); [apply E|exact E]). subst s2. eapply emit_items_grow; [exact K|exact Ho|]. rewrite E2. reflexivity.
  - eapply emit_items_grow; [exact K|exact Ho|]. rewrite E. split; auto.
Qed.
Lemma bind_leaves (B : label -> Prop) p l s s' : cnt_ok s -> B l -> leaves (bind_label_on p l s) s' -> grow B s s'.
Proof.
  intros K Hb E. destruct (bind_label_on p l s) as [[] s1|e s1] eqn:Eb; cbn [leaves] in E.
  - subst. eapply bind_grow; eauto.
  - destruct E as [<- _]. unfold bind_label_on, bind, get_counter, modify_label in Eb. destruct (l <? _)%nat; inversion Eb; subst. apply grow_refl, K.
Qed.
Lemma inst_grow ev lenv r i g s s' : cnt_ok s -> compile i = Some g -> leaves (exec ev lenv r g s) s' -> grow (binds lenv i) s s'.
Proof.
  intros K Hc E.
  assert (Hgen : match i with ILabel _ => False | _ => True end -> grow (binds lenv i) s s').
  { intro Hi. destruct (compile_has_trace ev lenv i g r Hc Hi) as [t Ht]. rewrite (exec_run _ _ _ _ _ s Ht) in E.
    eapply trace_grow; [exact K|exact (offs_exec ev lenv g r t Ht (compile_offs _ _ Hc))|].
    destruct (run_trace t s); exact E. }
  destruct i; try (apply Hgen; exact I).
  inversion Hc; subst g. cbn [exec run_call g1] in E. apply leaves_bind in E.
  eapply (bind_leaves _ (cur s) (lenv ident)); [exact K|reflexivity|].
  destruct E as [(a & s1 & E1 & E)|(e & E1 & He)]; unfold bind_label, on_cur in E1; rewrite E1; [exact E|split; auto].
Qed.
Definition block_binds (lenv : string -> label) (body : list inst) (l : label) : Prop := exists i, In i body /\ binds lenv i l.
Lemma block_grow ev lenv : forall body gs r s s', cnt_ok s -> compile_all body = Some gs -> leaves (exec_all ev lenv r gs s) s' ->
  grow (block_binds lenv body) s s'.
Proof.
  induction body as [|i body IH]; intros gs r s s' K Hc E.
  - inversion Hc; subst. cbn in E. subst. apply grow_refl, K.
  - cbn [compile_all] in Hc. destruct (compile i) as [g|] eqn:Ei; [|discriminate]. destruct (compile_all body) as [gs'|]; [|discriminate].
    inversion Hc; subst. cbn [exec_all] in E. apply leaves_bind in E.
    assert (Hw : forall l, binds lenv i l -> block_binds lenv (i :: body) l) by (intros l Hl; exists i; split; [left; reflexivity|exact Hl]).
    destruct E as [(r1 & s1 & E1 & E)|(e & E1 & He)].
    + assert (G : grow (binds lenv i) s s1) by (eapply inst_grow; [exact K|exact Ei|]; rewrite E1; reflexivity).
      eapply grow_trans; [eapply grow_weaken; [exact Hw|exact G]|].
      eapply grow_weaken; [|eapply IH; [eapply grow_ok; exact G|reflexivity|exact E]].
      intros l (j & Hj & Hb). exists j. split; [right; exact Hj|exact Hb].
    + eapply grow_weaken; [exact Hw|]. eapply inst_grow; [exact K|exact Ei|]. rewrite E1. split; auto.
Qed.

(** ** One call *)
(** Labels a call other than finalize (re)binds. *)
Definition op_binds (o : op) (l : label) : Prop :=
  match o with
  | OBind l' | OBindPage _ l' => l = l'
  | OAsm _ lenv _ body => block_binds lenv body l
  | OEnc _ lenv _ (GBindLabel x) => lenv x = l
  | _ => False
  end.
Definition same_queues (s s' : jit) : Prop := forall p, constants (pages s' p) = constants (pages s p) /\ data (pages s' p) = data (pages s p).

Lemma nolabel_ok m s a s' : nolabel m s = Ok a s' -> m s = Ok tt s'.
Proof. unfold nolabel, bind, ret. destruct (m s) as [[] s1|]; intro H; inversion H; subst; reflexivity. Qed.

Lemma nolabel_leaves m s s' : leaves (nolabel m s) s' -> leaves (m s) s'.
Proof. unfold nolabel, bind, ret. destruct (m s); auto. Qed.
Lemma call_grow ev lenv r c s s' : cnt_ok s -> match c with GSaveReloc _ _ => False | _ => True end ->
  leaves (run_call ev lenv r c s) s' -> grow (op_binds (OEnc ev lenv r c)) s s'.
Proof.
  intros K Hc E.
  assert (Hgen : forall t, t_call ev lenv r c = Some t -> grow (op_binds (OEnc ev lenv r c)) s s').
  { intros t Ht. pose proof (acts_call ev lenv r c t Ht s) as A. rewrite A in E. eapply trace_grow; [exact K| |exact E].
    eapply offs_call; exact Ht. }
  destruct c; try contradiction; try (eapply Hgen; reflexivity).
  cbn [run_call] in E. eapply bind_leaves; [exact K|reflexivity|exact E].
Qed.
Lemma cop_leaves B c p s s' : cnt_ok s -> leaves (run_cop c p s) s' -> grow B s s'.
Proof.
  intros K E. apply (cop_grow B c p); [exact K|]. destruct c; cbn [run_cop] in *.
  - eapply appends_leaves; [apply emitb_on_appends|exact E].
  - eapply appends_leaves; [apply emitw_on_appends|exact E].
  - eapply appends_leaves; [apply emitl_on_appends|exact E].
  - eapply appends_leaves; [apply emitq_on_appends|exact E].
  - rewrite align4_eq in *. cbn in E. congruence.
  - rewrite align8_eq in *. cbn in E. congruence.
  - rewrite align16_eq in *. cbn in E. congruence.
  - rewrite align_page_eq in *. cbn in E. congruence.
Qed.
Lemma emit_meq bs : forall s, emit bs s = forM bs (emitb_on (cur s)) s.
Proof.
  induction bs as [|b r IH]; intros s; [reflexivity|]. unfold emit in *. cbn [forM].
  unfold bind. unfold emitb at 1, on_cur.
  assert (Hb := emitb_on_appends (cur s) b s). destruct ((_ <=? _) || _) in Hb.
  - destruct Hb as (s2 & -> & A). rewrite IH. rewrite (adv_cur _ _ _ _ A). reflexivity.
  - destruct Hb as (s2 & -> & _). reflexivity.
Qed.

(** Calls that are neither finalize, nor creations, nor page selections. *)
Definition plain (o : op) : bool :=
  match o with OSelect _ | OCreate _ | OFinalize => false | _ => api o end.
Lemma leaves_fail {A} e s s' : leaves (@fail A e s) s' -> s' = s.
Proof. intros [H _]. congruence. Qed.
Lemma on_page_grow B {A} n (f : pid -> M A) s s' : cnt_ok s -> (forall p, leaves (f p s) s' -> grow B s s') -> leaves (on_page n f s) s' -> grow B s s'.
Proof.
  intros K H E. unfold on_page in E. destruct (pid_of n); [eapply H; exact E|]. apply leaves_fail in E. subst. apply grow_refl, K.
Qed.
Lemma plain_leaves o s s' : cnt_ok s -> plain o = true -> leaves (step o s) s' -> grow (op_binds o) s s'.
Proof.
  intros K Hp E. destruct o; try discriminate Hp; cbn [step] in E.
  - destruct n as [n|]; apply nolabel_leaves in E.
    + eapply on_page_grow; [exact K| |exact E]. intros p. apply cop_leaves, K.
    + eapply cop_leaves; eauto.
  - apply nolabel_leaves in E. rewrite emit_meq in E. eapply appends_grow; [exact K|apply emit_on_appends|eapply appends_leaves; [apply emit_on_appends|exact E]].
  - destruct (compile_all body) as [gs|] eqn:Ec; [|apply leaves_fail in E; subst; apply grow_refl, K].
    apply (block_grow ev lenv body gs r s s' K Ec). unfold bind, ret in E. destruct (exec_all ev lenv r gs s); exact E.
  - destruct c; try (cbn in E; subst; apply grow_refl; exact K); apply nolabel_leaves in E; eapply call_grow; eauto; exact I.
  - unfold bind in E. cbn [new_label] in E. cbn in E. subst. apply new_label_grow, K.
  - apply nolabel_leaves in E. eapply bind_leaves; [exact K|reflexivity|exact E].
  - apply nolabel_leaves in E. eapply (on_page_grow _ n (fun p => bind_label_on p l)); [exact K| |exact E]. intros p. apply bind_leaves; [exact K|reflexivity].
Qed.
Lemma plain_grow o s a s' : cnt_ok s -> plain o = true -> step o s = Ok a s' -> grow (op_binds o) s s'.
Proof. intros K Hp E. apply plain_leaves; [exact K|exact Hp|]. rewrite E. reflexivity. Qed.
Lemma grow_queues B s s' : grow B s s' -> same_queues s s'.
Proof. intros [_ _ P] p. rewrite P. split; reflexivity. Qed.

(** Page selection. *)
Lemma select_step n s : step (OSelect n) s =
  if n =? 0 then Ok None (set_cur P0 s) else if n =? 1 then Ok None (set_cur P1 s) else Panic (if n <? 2 then IndexOOB else AssertFailed) s.
Proof.
  cbn [step]. unfold nolabel, select_page, bind, assert, pid_of. destruct (n <? 2) eqn:H; cbn [ret fail].
  - destruct (n =? 0); [reflexivity|]. destruct (n =? 1); [reflexivity|]. destruct (n =? 2) eqn:H2; [lia|]. reflexivity.
  - destruct (n =? 0) eqn:H0; [lia|]. destruct (n =? 1) eqn:H1; [lia|]. reflexivity.
Qed.
Lemma select_leaves n s s' : leaves (step (OSelect n) s) s' -> s' = set_cur P0 s \/ s' = set_cur P1 s \/ s' = s.
Proof.
  rewrite select_step. destruct (n =? 0); [intro H; left; symmetry; exact H|]. destruct (n =? 1); [intro H; right; left; symmetry; exact H|].
  intros [H _]. right; right. congruence.
Qed.

(** Creations. *)
Definition is_data (d : dat) : bool := match d with DI64 _ | DI32 _ | DZero _ => true | _ => false end.
Definition dtype_of (d : dat) : dtype :=
  match d with
  | KF64 b => DU64 b | KI64 v | DI64 v => DU64 (u64 v) | KI32 v | DI32 v => DU32 (u32 v)
  | KBytes n | DZero n => DBytes n | KAbs l => DAbsAddress l | KAlign8 => DAlign8
  end.
Definition created (d : dat) (s : jit) : jit :=
  let e := (dtype_of d, length (labels s)) in
  set_page (cur s) (fun g => if is_data d then with_data (data g ++ [e]) g else with_constants (constants g ++ [e]) g)
    (set_labels (labels s ++ [label_new]) s).
Lemma create_eq d s : create d s = Ok (length (labels s)) (created d s).
Proof. destruct d; reflexivity. Qed.
Lemma created_ext B d s : cnt_ok s -> ext B s (created d s).
Proof.
  intro K. eapply ext_trans; [apply ext_new_label, K|]. apply ext_meta; try reflexivity.
  - exact K.
  - intro p. unfold cnt, created. cbn [pages set_page]. destruct (pid_eqb p (cur s)); [|reflexivity]. destruct (is_data d); reflexivity.
Qed.
(** Every call other than finalize is an extension. *)
Lemma after_leaves o s s' : after o s = Some s' -> leaves (step o s) s'.
Proof.
  unfold after, tolerated. destruct (step o s) as [a s1|e s1]; [cbn; congruence|]. destruct (negb _ && _) eqn:E; [|discriminate].
  intro H. split; [congruence|]. intros ->. rewrite andb_false_r in E. discriminate.
Qed.
Lemma step_ext o s s' : cnt_ok s -> api o = true -> is_finalize o = false -> after o s = Some s' -> ext (op_binds o) s s'.
Proof.
  intros K Ha Hf E. apply after_leaves in E. destruct (plain o) eqn:Hp; [apply (go_ext _ _ _ (plain_leaves o s s' K Hp E))|].
  destruct o; try discriminate.
  - apply select_leaves in E. destruct E as [-> |[-> | ->]]; apply ext_meta; auto.
  - cbn [step] in E. unfold bind in E. rewrite create_eq in E. cbn in E. subst. apply created_ext, K.
Qed.
