(** A call on one page sees and changes nothing of the other pages. *)
From Verif Require Import Base ModelMem ModelEnc ModelSyntax ModelMacro SpecState SpecAsm SpecProg SpecHist SpecShare StateFid Emit MemInv MemFill WhenFacts SpecOrder.
Local Notation length := List.length.
Local Open Scope list_scope.
Local Open Scope Z_scope.

Definition chg (b : option (pid * Z)) (ts : list target) (i : label_info) : label_info :=
  mkLabel (match b with Some x => Some x | None => loc i end) (targets i ++ ts).
Definition in_page (s : jit) (p : pid) (x : Z) : Prop := addr s p 0 <= x < addr s p 0 + PAGE_SIZE.
Section Local.
Variable K : pid -> Prop.
Variable B : label -> Prop.
Variable p : pid.
Record view (s t : jit) : Prop := mkView {
  vw_base : base s = base t;
  vw_page : pages s p = pages t p;
  vw_len : length (labels s) = length (labels t);
  vw_pos : 0 <= counter (pages s p);
  vw_cur1 : K (cur s);
  vw_cur2 : K (cur t)
}.
Record both (s t s' t' : jit) : Prop := mkBoth {
  bo_base : base s' = base s /\ base t' = base t;
  bo_cur : cur s' = cur s /\ cur t' = cur t;
  bo_page : pages s' p = pages t' p /\ 0 <= counter (pages s' p);
  bo_rest : forall q, q <> p -> pages s' q = pages s q /\ pages t' q = pages t q;
  bo_len : length (labels s') = length (labels s) /\ length (labels t') = length (labels t);
  bo_mem : forall x, (mem s' x = mem s x /\ mem t' x = mem t x) \/ (in_page s p x /\ mem s' x = mem t' x);
  bo_lab : forall l, exists b ts, (b <> None -> B l) /\
     nth_error (labels s') l = option_map (chg b ts) (nth_error (labels s) l) /\ nth_error (labels t') l = option_map (chg b ts) (nth_error (labels t) l)
}.
Lemma both_view s t s' t' : view s t -> both s t s' t' -> view s' t'.
Proof.
  intros [V1 V2 V3 V4 V5 V6] [[B1 B2] [C1 C2] [P1 P2] R [L1 L2] _ _]. constructor; try congruence; try assumption.
Qed.
Lemma chg_none i : chg None [] i = i.
Proof. destruct i. unfold chg. cbn. rewrite app_nil_r. reflexivity. Qed.
Lemma chg_id (o : option label_info) : o = option_map (chg None []) o.
Proof. destruct o; [|reflexivity]. cbn [option_map]. rewrite chg_none. reflexivity. Qed.
Lemma both_refl s t : view s t -> both s t s t.
Proof.
  intros [V1 V2 V3 V4 V5 V6]. constructor; auto.
  intro l. exists None, []. repeat split; [congruence|apply chg_id|apply chg_id].
Qed.
Lemma both_trans s t s1 t1 s2 t2 : both s t s1 t1 -> both s1 t1 s2 t2 -> both s t s2 t2.
Proof.
  intros [[B1 B2] [C1 C2] [P1 P2] R [L1 L2] X Y] [[B1' B2'] [C1' C2'] [P1' P2'] R' [L1' L2'] X' Y']. constructor; try (split; congruence); try (split; assumption).
  - intros q Hq. destruct (R q Hq), (R' q Hq). split; congruence.
  - intro x. assert (E : in_page s1 p x <-> in_page s p x) by (unfold in_page, addr, contents; rewrite B1; reflexivity).
    destruct (X' x) as [[A1 A2]|[A1 A2]]; [|right; rewrite <- E; split; assumption].
    destruct (X x) as [[D1 D2]|[D1 D2]]; [left; split; congruence|right; split; [assumption|congruence]].
  - intro l. destruct (Y l) as (b & ts & H & E1 & E2), (Y' l) as (b' & ts' & H' & E1' & E2').
    assert (Q : forall o, option_map (chg b' ts') (option_map (chg b ts) o) = option_map (chg (match b' with Some x => Some x | None => b end) (ts ++ ts')) o).
    { intros [i|]; [|reflexivity]. cbn [option_map]. unfold chg. cbn [loc targets]. rewrite app_assoc. destruct b'; reflexivity. }
    exists (match b' with Some x => Some x | None => b end), (ts ++ ts'). rewrite E1', E2', E1, E2, !Q. repeat split. destruct b'; auto.
Qed.
Definition local {A} (m : M A) : Prop := forall s t, view s t -> answer (m s) = answer (m t) /\ both s t (outcome (m s)) (outcome (m t)).
Lemma local_ret {A} (a : A) : local (ret a). Proof. intros s t V. split; [reflexivity|exact (both_refl _ _ V)]. Qed.
Lemma local_fail {A} e : local (@fail A e). Proof. intros s t V. split; [reflexivity|exact (both_refl _ _ V)]. Qed.
Lemma local_bind {A C} (m : M A) (k : A -> M C) : local m -> (forall a, local (k a)) -> local (bind m k).
Proof.
  intros Hm Hk s t V. destruct (Hm s t V) as (Ha & Hb). unfold bind.
  destruct (m s) as [a s1|e s1], (m t) as [a2 t1|e2 t1]; cbn [answer outcome] in *; try discriminate.
  - injection Ha as <-. destruct (Hk a s1 t1 (both_view _ _ _ _ V Hb)) as [H1 H2]. split; [exact H1|exact (both_trans _ _ _ _ _ _ Hb H2)].
  - injection Ha as <-. split; [reflexivity|exact Hb].
Qed.
Lemma local_counter {A} (k : Z -> M A) : (forall c, 0 <= c -> local (k c)) -> local (c <- get_counter p ;; k c).
Proof.
  intros Hk s t V. unfold bind, get_counter. rewrite <- (vw_page _ _ V). apply Hk; [apply (vw_pos _ _ V)|exact V].
Qed.
Lemma local_assert b : local (assert b). Proof. destruct b; [apply local_ret|apply local_fail]. Qed.
Lemma local_forM {A} (g : A -> M unit) : (forall x, local (g x)) -> forall l, local (forM l g).
Proof. intros H l. induction l as [|x l IH]; cbn [forM]; [apply local_ret|]. apply local_bind; [apply H|intros _; exact IH]. Qed.
Lemma local_repeatM m k : local m -> local (repeatM k m).
Proof. intro H. induction k as [|k IH]; cbn [repeatM]; [apply local_ret|]. apply local_bind; [exact H|intros _; exact IH]. Qed.
Lemma local_put pos v : 0 <= pos -> local (put p pos v).
Proof.
  intros H s t V. unfold put. destruct (Z.leb_spec PAGE_SIZE pos); cbn [answer outcome]; (split; [reflexivity|]); [exact (both_refl _ _ V)|].
  destruct (both_refl _ _ V). constructor; auto. intro x. cbn [mem set_mem]. unfold in_page, upd, addr, contents. rewrite <- (vw_base _ _ V).
  destruct (Z.eqb_spec x (base s + pidx p * PAGE_SIZE + pos)); [right; split; [lia|reflexivity]|left; split; reflexivity].
Qed.
Lemma local_set_page g : (forall e, 0 <= counter e -> 0 <= counter (g e)) -> local (modify (set_page p g)).
Proof.
  intros Hg s t V. split; [reflexivity|]. destruct (both_refl _ _ V). constructor; auto; cbn [outcome modify pages set_page].
  - rewrite pid_eqb_refl, (vw_page _ _ V). split; [reflexivity|]. apply Hg. rewrite <- (vw_page _ _ V). apply (vw_pos _ _ V).
  - intros q Hq. destruct (pid_eqb q p) eqn:E; [elim Hq; apply pid_eqb_eq, E|]. split; reflexivity.
Qed.
Lemma local_set_counter c : 0 <= c -> local (set_counter p c). Proof. intro H. apply local_set_page. intros; exact H. Qed.
Lemma local_modify_label l b ts : (b <> None -> B l) -> forall g, (forall i, g i = chg b ts i) -> local (modify_label l g).
Proof.
  intros Hb g Hg s t V. unfold modify_label. rewrite <- (vw_len _ _ V). destruct (l <? length (labels s))%nat; cbn [answer outcome]; (split; [reflexivity|]); [|exact (both_refl _ _ V)].
  destruct (both_refl _ _ V). constructor; auto; cbn [labels set_labels].
  - rewrite !upd_nth_len. split; reflexivity.
  - intro k. rewrite !upd_nth_at. destruct (Nat.eqb_spec k l) as [->|N]; [|exact (bo_lab0 k)]. exists b, ts. split; [exact Hb|].
    split; (destruct (nth_error _ l); [cbn [option_map]; rewrite Hg|]; reflexivity).
Qed.
Lemma local_on_cur {A} (g : pid -> M A) : (forall c, K c -> c = p) -> local (g p) -> local (on_cur g).
Proof. intros H Hg s t V. unfold on_cur. rewrite (H _ (vw_cur1 _ _ V)), (H _ (vw_cur2 _ _ V)). apply Hg, V. Qed.
End Local.

Create HintDb local.
Ltac local0 := solve [assumption | lia | apply Z.land_nonneg; left; lia | eauto 3 with local nocore].
#[export] Hint Resolve local_ret local_fail local_assert : local.
Ltac local1 := first
  [ solve [eauto 3 with local nocore] | apply local_put; lia | apply local_set_counter; solve [lia|apply Z.land_nonneg; left; lia]
  | apply local_forM; intro | apply local_repeatM | apply local_counter; intros ? ? | apply local_bind; [|intros ?]
  | match goal with |- local _ _ _ (match ?x with _ => _ end) => destruct x end ].
Ltac locals := repeat local1.
Section Functions.
Variable K : pid -> Prop.
Variable B : label -> Prop.
Variable p : pid.
Notation local := (local K B p).
Lemma local_emitb_on v : local (emitb_on p v). Proof. unfold emitb_on. locals. Qed.
Lemma local_emitw_on v : local (emitw_on p v). Proof. unfold emitw_on. locals. Qed.
Lemma local_emitl_on v : local (emitl_on p v). Proof. unfold emitl_on. locals. Qed.
Hint Resolve local_emitb_on local_emitw_on local_emitl_on : local.
Lemma local_emitq_on v : local (emitq_on p v). Proof. unfold emitq_on. locals. Qed.
Hint Resolve local_emitq_on : local.
Lemma local_align4 : local (align4_on p). Proof. unfold align4_on. locals. Qed.
Lemma local_align8 : local (align8_on p). Proof. unfold align8_on. locals. Qed.
Lemma local_align16 : local (align16_on p). Proof. unfold align16_on. locals. Qed.
Lemma local_align_page : local (align_page_on p). Proof. unfold align_page_on. locals. Qed.
Hint Resolve local_align4 local_align8 local_align16 local_align_page : local.
Lemma local_cop c : local (run_cop c p). Proof. destruct c; cbn [run_cop]; locals. Qed.
Lemma local_bind_label_on l : B l -> local (bind_label_on p l).
Proof. intro H. unfold bind_label_on. apply local_counter. intros c Hc. apply (local_modify_label K B p l (Some (p, c)) []); [intros _; exact H|]. intro i. unfold with_loc, chg. rewrite app_nil_r. reflexivity. Qed.
Lemma local_save_abs l : local (save_absolute_reloc p l).
Proof. unfold save_absolute_reloc. apply local_counter. intros c Hc. apply (local_modify_label K B p l None [Abs p c]); [congruence|]. intro i. reflexivity. Qed.
Hint Resolve local_cop local_bind_label_on local_save_abs : local.
Lemma local_resolve_constant e : B (snd e) -> local (resolve_constant_entry p e).
Proof. intro H. unfold resolve_constant_entry. cbv zeta. destruct (fst e); locals. Qed.
(** On the selected page. *)
Hypothesis HK : forall c, K c -> c = p.
Ltac oncur := apply local_on_cur; [exact HK|].
Lemma local_emitb v : local (emitb v). Proof. unfold emitb. oncur. locals. Qed.
Lemma local_emitw v : local (emitw v). Proof. unfold emitw. oncur. locals. Qed.
Lemma local_emitl v : local (emitl v). Proof. unfold emitl. oncur. locals. Qed.
Lemma local_emitq v : local (emitq v). Proof. unfold emitq. oncur. locals. Qed.
Hint Resolve local_emitb local_emitw local_emitl local_emitq : local.
Lemma local_emit bs : local (emit bs). Proof. unfold emit. locals. Qed.
Lemma local_save_reloc l off : local (save_reloc l off).
Proof. unfold save_reloc. oncur. apply local_counter. intros c Hc. apply (local_modify_label K B p l None [Rel p off c]); [congruence|]. intro i. reflexivity. Qed.
Lemma local_bind_label l : B l -> local (bind_label l). Proof. intro H. unfold bind_label. oncur. locals. Qed.
Hint Resolve local_emit local_save_reloc local_bind_label : local.
Lemma local_rex_fn k a b c d : local (rex_fn k a b c d).
Proof. destruct k; cbn [rex_fn]; unfold rexw, rex_none, rex_none_byte, rex; locals. Qed.
Lemma local_modrm a b c : local (modrm a b c). Proof. unfold modrm. cbv zeta. locals. Qed.
Lemma local_sib a b c : local (sib a b c). Proof. unfold sib. locals. Qed.
Lemma local_disp_imm d i : local (emit_disp_imm d i). Proof. unfold emit_disp_imm. locals. Qed.
Hint Resolve local_rex_fn local_modrm local_sib local_disp_imm : local.
Lemma local_encode op rx mm r i : local (encode op rx mm r i).
Proof. unfold encode. cbv zeta. locals. Qed.
Hint Resolve local_encode : local.
Variable ev : list tok -> env -> Z.
Variable lenv : string -> label.
Lemma local_call r c : (forall x, c = GBindLabel x -> B (lenv x)) -> local (run_call ev lenv r c).
Proof.
  intro H. destruct c; cbn [run_call];
  unfold enc_o, enc_oi, enc_oi_byte, enc_rexw_o, enc_mi, enc_rexw_mi, enc_mi_byte, enc_mr, enc_mr_byte, enc_rexw_mr, enc_m_byte, enc_d,
    enc_digit, enc_digit_imm, enc_digit_imm_byte, enc_rexw_digit, op_with_rd, rexw, rex_none, rex_none_byte, rex; try (locals; fail).
  apply local_bind_label, (H _ eq_refl).
Qed.
Fixpoint bound_names (g : gcode) : list string :=
  match g with
  | GNil | GPanic => []
  | GDo (GBindLabel x) k => x :: bound_names k
  | GDo _ k | GLetImm _ k => bound_names k
  | GIf _ t e k => bound_names t ++ bound_names e ++ bound_names k
  end.
Lemma local_exec : forall g r, (forall y, In y (bound_names g) -> B (lenv y)) -> local (exec ev lenv r g).
Proof.
  induction g as [|c k IH|e k IH|c t1 IHt e1 IHe k IH|]; intros r H; cbn [exec] in *.
  - locals.
  - apply local_bind.
    + apply local_call. intros x ->. apply H. left. reflexivity.
    + intros _. apply IH. intros y Hy. apply H. destruct c; cbn [bound_names]; try exact Hy. right. exact Hy.
  - apply IH, H.
  - cbn [bound_names] in H. apply local_bind; [|intros _; apply IH; intros y Hy; apply H; rewrite !in_app_iff; auto]. destruct (run_cond ev r c) as [b r'].
    destruct b; [apply IHt|apply IHe]; intros y Hy; apply H; rewrite !in_app_iff; auto.
  - locals.
Qed.
Lemma local_exec_all : forall gs r, (forall g y, In g gs -> In y (bound_names g) -> B (lenv y)) -> local (exec_all ev lenv r gs).
Proof.
  induction gs as [|g gs IH]; intros r H; cbn [exec_all]; [locals|].
  apply local_bind; [apply local_exec; intros y Hy; apply (H g); [left; reflexivity|exact Hy]|]. intro r'. apply IH. intros g' y Hg Hy. apply (H g'); [right; exact Hg|exact Hy].
Qed.
End Functions.

Lemma compile_bound i g x : compile i = Some g -> In x (bound_names g) -> i = ILabel x.
Proof.
  intro H. destruct i; cbn [compile] in H;
  try (unfold binary_op, binary_opq, binary_opl, binary_opw, binary_opb, shift_op, divide_op, binary_sd_op,
         push_pop, count_op, xchg, testq, testb, movq, movl, movw, movb in H);
  repeat match goal with H : context [grm_of_rmi ?b] |- _ => destruct b; cbn [grm_of_rmi] in H end;
  repeat match goal with H : context [match ?x with _ => _ end] |- _ => destruct x; try discriminate end;
  inversion H; subst; clear H; cbn [bound_names g1 g2 app In]; try tauto.
  intros [->|[]]. reflexivity.
Qed.
Lemma compiled_bound : forall body gs g y, compile_all body = Some gs -> In g gs -> In y (bound_names g) -> In y (defined body).
Proof.
  induction body as [|i body IH]; intros gs g y H Hg Hy; cbn [compile_all] in H; [injection H as <-; contradiction|].
  destruct (compile i) as [g0|] eqn:E; [|discriminate]. destruct (compile_all body) as [gs0|]; [|discriminate]. injection H as <-.
  unfold defined in *. cbn [flat_map]. rewrite in_app_iff. destruct Hg as [->|Hg].
  - left. rewrite (compile_bound i g y E Hy). left. reflexivity.
  - right. exact (IH gs0 g y eq_refl Hg Hy).
Qed.
(** Calls that emit code. *)
Lemma local_step n o p (B : label -> Prop) : emits o = true -> pid_of (place (n, o)) = Some p -> (forall l, binds o l -> B l) ->
  local (fun c => pid_of n = Some c) B p (step o).
Proof.
  intros He Hp HB. assert (HK : pid_of n = Some p -> forall c, pid_of n = Some c -> c = p) by (intros; congruence).
  destruct o as [[k|] c|bs|ev lenv r body|ev lenv r c|k| |l|k l|d| | | | |]; try discriminate He; cbn [step]; unfold place in Hp; cbn [fst snd] in Hp.
  - unfold nolabel, on_page. rewrite Hp. apply local_bind; [apply local_cop|intros; apply local_ret].
  - unfold nolabel. apply local_bind; [|intros; apply local_ret]. apply local_on_cur; [exact (HK Hp)|apply local_cop].
  - unfold nolabel. apply local_bind; [|intros; apply local_ret]. apply local_emit, (HK Hp).
  - destruct (compile_all body) as [gs|] eqn:E; [|apply local_fail]. apply local_bind; [|intros; apply local_ret]. apply local_exec_all; [exact (HK Hp)|].
    intros g y Hg Hy. apply HB. exists y. split; [exact (compiled_bound _ _ _ _ E Hg Hy)|reflexivity].
  - assert (H : local (fun c => pid_of n = Some c) B p (run_call ev lenv r c)).
    { apply local_call; [exact (HK Hp)|]. intros x ->. apply HB. reflexivity. }
    destruct c; try apply local_ret; unfold nolabel; (apply local_bind; [exact H|intros; apply local_ret]).
  - unfold nolabel. apply local_bind; [|intros; apply local_ret]. apply local_bind_label; [exact (HK Hp)|]. apply HB. reflexivity.
  - unfold nolabel, bind_label_with_page, on_page. apply local_bind; [|intros; apply local_ret]. rewrite Hp. intros s t V. refine (local_bind_label_on _ B p l _ s t V). apply HB. reflexivity.
Qed.
Lemma local_nowhere n o p B : emits o = true -> pid_of (place (n, o)) = None -> (exists c, pid_of n = Some c) -> local (fun c => pid_of n = Some c) B p (step o).
Proof.
  intros He Hp [c0 Hn]. destruct o as [[k|] c|bs|ev lenv r body|ev lenv r c|k| |l|k l|d| | | | |]; try discriminate He; unfold place in Hp; cbn [fst snd] in Hp; try congruence; cbn [step].
  - unfold nolabel, on_page. rewrite Hp. apply local_bind; [apply local_fail|intros; apply local_ret].
  - unfold nolabel, bind_label_with_page, on_page. apply local_bind; [|intros; apply local_ret]. rewrite Hp. intros s t V. apply (local_fail _ B p IndexOOB s t V).
Qed.
