(** What the frozen block does on the processor. *)
From Verif Require Import Base ModelMem ModelEnc ModelSyntax ModelMacro SpecX86 SpecAsm SpecTaken SpecState SpecHist SpecProg ProgOne ProgBlock ProgExec BlockTaken SpecMachine SpecCpu MachRun SpecScope ScopeFacts.
Local Notation length := List.length.
Local Open Scope list_scope.
Local Open Scope Z_scope.

Ltac split_operands :=
  repeat match goal with
  | x : mov_operand |- _ => destruct x
  | x : rm_operand |- _ => destruct x
  | x : rmi_operand |- _ => destruct x
  | x : ri_operand |- _ => destruct x
  | x : xm_operand |- _ => destruct x
  | x : dest |- _ => destruct x
  end.

Section Parts.
Variables vi vo : expr -> Z.
Lemma fz_regs i : regs_of (fz_inst vi vo i) = map (fz_reg vo) (regs_of i).
Proof. destruct i; split_operands; reflexivity. Qed.
Lemma fz_xmms i : xmms_of (fz_inst vi vo i) = map (fz_xmm vo) (xmms_of i).
Proof. destruct i; split_operands; reflexivity. Qed.
Lemma fz_mems i : mems_of (fz_inst vi vo i) = map (fz_mem vo) (mems_of i).
Proof. destruct i; split_operands; reflexivity. Qed.
Lemma fz_imms i : imm_exprs (fz_inst vi vo i) = map (fz_imm vi) (imm_exprs i).
Proof. destruct i; split_operands; reflexivity. Qed.
Lemma fz_literal i : Forall literal (stmt_exprs (fz_inst vi vo i)).
Proof.
  unfold stmt_exprs, addr_exprs. rewrite fz_regs, fz_xmms, fz_mems, fz_imms. rewrite !flat_map_concat_map, !map_map.
  rewrite !Forall_app. repeat split.
  - apply Forall_concat, Forall_map, Forall_forall. intros [n|e] _; cbn; repeat constructor. eexists; reflexivity.
  - apply Forall_map, Forall_forall. intros e _. eexists; reflexivity.
  - apply Forall_concat, Forall_map, Forall_forall. intros [b sc d] _. unfold mem_exprs, fz_mem. cbn [ia_base ia_scale ia_disp].
    rewrite !Forall_app. repeat split.
    + destruct b; cbn; repeat constructor. eexists; reflexivity.
    + destruct sc as [|k [n|e]]; cbn; repeat constructor. eexists; reflexivity.
    + destruct d; cbn; repeat constructor. eexists; reflexivity.
  - apply Forall_map, Forall_forall. intros e _. eexists; reflexivity.
Qed.
Lemma fz_is_instr i : is_instr (fz_inst vi vo i) = is_instr i.
Proof. destruct i; reflexivity. Qed.
Lemma fz_scales i : scales_written i -> scales_written (fz_inst vi vo i).
Proof.
  unfold scales_written. rewrite fz_mems. intro H. apply Forall_map. eapply Forall_impl; [|exact H]. intros [b sc d] K. cbn [fz_mem ia_scale] in *. destruct sc; exact K.
Qed.
Lemma fz_labels i : inst_labels (fz_inst vi vo i) = inst_labels i.
Proof.
  unfold inst_labels. rewrite fz_mems. f_equal; [|destruct i; try reflexivity; destruct d; reflexivity].
  induction (mems_of i) as [|[b sc d] l IH]; [reflexivity|]. cbn [map flat_map fz_mem ia_disp]. rewrite IH. destruct d; reflexivity.
Qed.
End Parts.

Section Values.
Variables v v' : expr -> Z.
Hypothesis V : forall n, v (ELit n) = n.
Hypothesis V' : forall n, v' (ELit n) = n.
Lemma fz_reg_no c : reg_no v' (fz_reg v c) = reg_no v c.
Proof. destruct c; cbn; auto. Qed.
Lemma fz_d_reg w c : d_reg v' w (fz_reg v c) = d_reg v w c.
Proof. unfold d_reg. rewrite fz_reg_no. reflexivity. Qed.
Lemma fz_d_xmm e : d_xmm v' (fz_xmm v e) = d_xmm v e.
Proof. unfold d_xmm, fz_xmm. rewrite V'. reflexivity. Qed.
Lemma fz_d_mem rel a : d_mem v' rel (fz_mem v a) = d_mem v rel a.
Proof.
  destruct a as [b sc d]. unfold d_mem, fz_mem. cbn [ia_base ia_scale ia_disp]. rewrite fz_reg_no.
  assert (D : d_disp v' rel (fz_disp v d) = d_disp v rel d) by (destruct d; cbn [d_disp fz_disp]; rewrite ?V'; reflexivity).
  rewrite D. destruct sc as [|k c]; [reflexivity|]. cbn [fz_scale]. rewrite fz_reg_no. reflexivity.
Qed.
Lemma fz_d_imm w e : d_imm v' w (fz_imm v e) = d_imm v w e.
Proof. unfold d_imm, fz_imm. rewrite V'. reflexivity. Qed.
Lemma fz_d_rm rel w o : d_rm v' rel w (fz_rm v o) = d_rm v rel w o.
Proof. destruct o; [apply fz_d_reg|apply fz_d_mem]. Qed.
Lemma fz_d_xm rel o : d_xm v' rel (fz_xm v o) = d_xm v rel o.
Proof. destruct o; [apply fz_d_xmm|apply fz_d_mem]. Qed.
Lemma fz_d_rmi rel w o : d_rmi v' rel w (fz_rmi v v o) = d_rmi v rel w o.
Proof. destruct o; [apply fz_d_imm|apply fz_d_reg|apply fz_d_mem]. Qed.
Lemma fz_d_ri w o : d_ri v' w (fz_ri v v o) = d_ri v w o.
Proof. destruct o; [apply fz_d_imm|apply fz_d_reg]. Qed.
Lemma fz_d_alu rel m w a b : d_alu v' rel m w (fz_rm v a) (fz_rmi v v b) = d_alu v rel m w a b.
Proof. unfold d_alu. rewrite fz_d_rm, fz_d_rmi. destruct a, b; reflexivity. Qed.
Lemma fz_d_shift rel o w a b : d_shift v' rel o w (fz_rm v a) (fz_ri v v b) = d_shift v rel o w a b.
Proof. unfold d_shift. destruct b; cbn [fz_ri]; rewrite fz_d_rm; unfold fz_imm; rewrite ?V', ?fz_reg_no; reflexivity. Qed.
Lemma fz_denote rel i : denote v' rel (fz_inst v v i) = denote v rel i.
Proof.
  destruct i; cbn [fz_inst denote]; rewrite ?fz_d_alu, ?fz_d_shift; unfold d_fp; rewrite ?fz_d_rm, ?fz_d_xm, ?fz_d_rmi, ?fz_d_ri, ?fz_d_reg, ?fz_d_xmm; try reflexivity;
  split_operands; cbn [fz_mov fz_rm fz_rmi fz_ri fz_xm fz_dest d_movq d_dest is_mem_rm is_mem_xm]; unfold d_fp; 
  rewrite ?fz_d_rm, ?fz_d_xm, ?fz_d_rmi, ?fz_d_ri, ?fz_d_reg, ?fz_d_xmm, ?fz_d_mem, ?fz_d_imm; unfold fz_imm; rewrite ?V'; try reflexivity.
Qed.
Lemma fz_taken i : taken v' (fz_inst v v i) = fz_inst v v (taken v i).
Proof.
  assert (R : forall c, taken_reg v' (fz_reg v c) = fz_reg v (taken_reg v c)) by (intro c; unfold taken_reg; rewrite fz_reg_no; reflexivity).
  assert (X : forall e, taken_xmm v' (fz_xmm v e) = fz_xmm v (taken_xmm v e)) by (intro c; unfold taken_xmm, fz_xmm; rewrite V, V'; reflexivity).
  assert (M : forall a, taken_mem v' (fz_mem v a) = fz_mem v (taken_mem v a)).
  { intros [b sc d]. unfold taken_mem, fz_mem. cbn [ia_base ia_scale ia_disp]. rewrite fz_reg_no. f_equal.
    - unfold taken_scale, taken_index. destruct sc as [|k c]; [reflexivity|]. cbn [fz_scale]. rewrite fz_reg_no. destruct (_ && _); reflexivity.
    - destruct d; cbn [taken_disp fz_disp]; rewrite ?V'; reflexivity. }
  assert (C : forall c, taken_index v' (fz_reg v c) = fz_reg v (taken_index v c)) by (intro c; unfold taken_index; rewrite fz_reg_no; reflexivity).
  destruct i; split_operands; cbn [fz_inst taken fz_mov fz_rm fz_rmi fz_ri fz_xm fz_dest taken_mov taken_rm taken_rmi taken_ri taken_count taken_xm taken_dest];
    rewrite ?R, ?X, ?M, ?C; reflexivity.
Qed.
Lemma fz_slip i : slip (fz_inst v v i) = slip i.
Proof. destruct i; try reflexivity. destruct b as [e|[b sc d]]; [reflexivity|]. destruct d; reflexivity. Qed.
Lemma fz_assembled rel i : assembled v' rel (fz_inst v v i) = assembled v rel i.
Proof.
  assert (G : denote v' rel (taken v' (fz_inst v v i)) = denote v rel (taken v i)) by (rewrite fz_taken; apply fz_denote).
  destruct i; try exact G. cbn [fz_inst assembled]. unfold taken_reg. rewrite fz_reg_no. f_equal.
  pose proof (fz_taken (IMovsd b b)) as T. cbn [fz_inst taken] in T. injection T as T. rewrite T. apply fz_d_xm.
Qed.
Lemma fz_linked rel i : as_linked v' rel (fz_inst v v i) = as_linked v rel i.
Proof. unfold as_linked. rewrite fz_slip. apply fz_assembled. Qed.
End Values.

(** Only the values matter. *)
Lemma fz_ext vi vo wi wo i : (forall e, In e (stmt_exprs i) -> vi e = wi e /\ vo e = wo e) -> fz_inst vi vo i = fz_inst wi wo i.
Proof.
  intro H. unfold stmt_exprs, addr_exprs, regs_of, xmms_of, mems_of in H.
  assert (R : forall c, (forall e, In e (reg_exprs c) -> vi e = wi e /\ vo e = wo e) -> fz_reg vo c = fz_reg wo c).
  { intros [n|e] K; [reflexivity|]. cbn. destruct (K e (or_introl eq_refl)) as [_ ->]. reflexivity. }
  assert (M : forall a, (forall e, In e (mem_exprs a) -> vi e = wi e /\ vo e = wo e) -> fz_mem vo a = fz_mem wo a).
  { intros [b sc d] K. unfold mem_exprs in K. cbn [ia_base ia_scale ia_disp] in K. unfold fz_mem. cbn [ia_base ia_scale ia_disp]. f_equal.
    - apply R. intros e He. apply K. apply in_or_app. auto.
    - destruct sc as [|k c]; [reflexivity|]. cbn [fz_scale]. rewrite R; [reflexivity|]. intros e He. apply K. rewrite !in_app_iff. auto.
    - destruct d as [d|n e|x]; try reflexivity. cbn [fz_disp]. destruct (K e) as [_ ->]; [rewrite !in_app_iff; cbn; auto|reflexivity]. }
  assert (I : forall e, vi e = wi e /\ vo e = wo e -> fz_imm vi e = fz_imm wi e) by (intros e [K _]; unfold fz_imm; rewrite K; reflexivity).
  assert (X : forall e, vi e = wi e /\ vo e = wo e -> fz_xmm vo e = fz_xmm wo e) by (intros e [_ K]; unfold fz_xmm; rewrite K; reflexivity).
  destruct i; split_operands; cbn [fz_inst fz_mov fz_rm fz_rmi fz_ri fz_xm fz_dest operands fst snd imm_exprs rm_regs rm_mems rmi_regs rmi_mems rmi_imms ri_regs ri_imms xm_xmms xm_mems mov_regs mov_xmms mov_mems mov_imms dest_imms flat_map app] in *;
  try reflexivity;
  repeat match goal with
  | |- fz_reg _ _ = fz_reg _ _ => apply R; intros e0 He0; apply H
  | |- fz_mem _ _ = fz_mem _ _ => apply M; intros e0 He0; apply H
  | |- fz_imm _ _ = fz_imm _ _ => apply I, H
  | |- fz_xmm _ _ = fz_xmm _ _ => apply X, H
  | |- @eq ?T _ _ => match T with inst => idtac | mov_operand => idtac | rm_operand => idtac | rmi_operand => idtac | ri_operand => idtac | xm_operand => idtac | dest => idtac end; f_equal
  end;
  rewrite ?app_nil_r, ?in_app_iff; cbn [In]; rewrite ?in_app_iff; cbn [In]; tauto.
Qed.

(** ** Blocks *)
Lemma eval_literal ev r e : literal e -> forall ev' r', eval ev' r' e = eval ev r e.
Proof. intros [v ->] ev' r'. reflexivity. Qed.
Lemma frozen_literal ev : forall body r, Forall (fun i => Forall literal (stmt_exprs i)) (frozen ev r body).
Proof. induction body as [|i b IH]; intro r; constructor; [apply fz_literal|apply IH]. Qed.
Lemma frozen_labels ev : forall body r, body_labels (frozen ev r body) = body_labels body.
Proof. unfold body_labels. induction body as [|i b IH]; intro r; cbn [frozen flat_map]; [reflexivity|]. rewrite IH. unfold frozen1. rewrite fz_labels. reflexivity. Qed.
Lemma frozen_defined ev : forall body r, defined (frozen ev r body) = defined body.
Proof. unfold defined. induction body as [|i b IH]; intro r; cbn [frozen flat_map]; [reflexivity|]. rewrite IH. destruct i; reflexivity. Qed.
Lemma frozen_length ev : forall body r, length (frozen ev r body) = length body.
Proof. induction body as [|i b IH]; intro r; cbn; [reflexivity|]. rewrite IH. reflexivity. Qed.
Lemma frozen_own ev lenv r body s ops : own_labels lenv body s ops -> own_labels lenv (frozen ev r body) s ops.
Proof. unfold own_labels. rewrite frozen_defined. auto. Qed.
Lemma frozen_regular ev ev' q : forall body r, typed ev r body -> Forall (regular ev' q) (frozen ev r body).
Proof.
  induction body as [|i b IH]; intros r T; constructor; [|apply IH, T]. destruct T as [T _]. split.
  - eapply Forall_impl; [|apply fz_literal]. intros e [v ->] q' _. reflexivity.
  - unfold frozen1. rewrite fz_is_instr. intro Hi. destruct (T Hi) as [U S]. split; [|apply fz_scales, S]. destruct i; try exact I. exact U.
Qed.
(** The program theorems of C48 for the frozen block. *)
Theorem scoped_cpu ev lenv r body s o s1 ops s4 target :
  reached s -> typed ev r body -> step (OAsm ev lenv r body) s = Ok o s1 -> forallb api ops = true -> run ops s1 = Some s4 ->
  (forall x, In x (body_labels body) -> linked ops s1 (lenv x) = Some (target x)) -> own_labels lenv body s ops ->
  let mean := as_linked (eval ev r) in let body' := frozen ev r body in
  exists marks, listing mean target s4 (cur s) marks body' /\ hd_error marks = Some (cursor s) /\ last marks 0 = cursor s1 /\
    (forall j x a, nth_error body' j = Some (ILabel x) -> linked ops s1 (lenv x) = Some a -> a = addr s4 (cur s) (nth j marks 0)) /\
    forall n k st, (k <= List.length body')%nat ->
      keeps_code (mem s4) (addr s4 (cur s) (cursor s)) (addr s4 (cur s) (cursor s1)) mean target (fun k => addr s4 (cur s) (nth k marks 0)) body' n k st ->
      same_cpu mean target (fun k => addr s4 (cur s) (nth k marks 0)) body' n k st.
Proof.
  intros R T Es Ha E HL Ho mean body'. rewrite (block_frozen ev ev lenv r r body s) in Es.
  apply (program_cpu_any ev lenv r body' s o s1 ops s4 target R (frozen_regular ev ev r body r T) Es Ha E); [|apply frozen_own, Ho].
  unfold body'. rewrite frozen_labels. exact HL.
Qed.
Theorem scoped_runs mstate sem ev lenv r body s o s1 ops s4 target :
  (forall x y next st, same_ins x y -> sem x next st = sem y next st) ->
  reached s -> typed ev r body -> step (OAsm ev lenv r body) s = Ok o s1 -> forallb api ops = true -> run ops s1 = Some s4 ->
  (forall x, In x (body_labels body) -> linked ops s1 (lenv x) = Some (target x)) -> own_labels lenv body s ops ->
  let mean := as_linked (eval ev r) in let body' := frozen ev r body in
  exists marks, listing mean target s4 (cur s) marks body' /\ hd_error marks = Some (cursor s) /\ last marks 0 = cursor s1 /\
    forall n k st, (k <= List.length body')%nat ->
      same_run mstate sem mean target (fun k => addr s4 (cur s) (nth k marks 0)) body' (mem s4) n k st.
Proof.
  intros HS R T Es Ha E HL Ho mean body'. rewrite (block_frozen ev ev lenv r r body s) in Es.
  apply (program_runs_any mstate sem ev lenv r body' s o s1 ops s4 target HS R (frozen_regular ev ev r body r T) Es Ha E); [|apply frozen_own, Ho].
  unfold body'. rewrite frozen_labels. exact HL.
Qed.
Theorem scoped_accepted ev lenv r body s :
  typed ev r body -> compile_all body <> None -> cursor s + 15 * Z.of_nat (List.length body) <= PAGE_SIZE ->
  (forall x, In x (body_labels body) \/ In x (defined body) -> (lenv x < List.length (labels s))%nat) ->
  ((exists s1, step (OAsm ev lenv r body) s = Ok None s1) <-> Forall (taken_as_ins (eval ev r)) (frozen ev r body)).
Proof.
  intros T C Hr Hl. rewrite (block_frozen ev ev lenv r r body s). apply block_total.
  - apply frozen_regular, T.
  - pose proof (compile_all_fz ev body r) as K. destruct (compile_all body); [|contradiction]. destruct (compile_all (frozen ev r body)); [discriminate|contradiction].
  - rewrite frozen_length. exact Hr.
  - rewrite frozen_labels, frozen_defined. exact Hl.
Qed.
(** Blocks that do not mention imm: every expression has its value in the variables at the start. *)
Lemma blind_frozen ev r : forall body q, same_but_imm r q -> Forall (fun i => Forall (imm_blind ev r) (stmt_exprs i)) body ->
  frozen ev q body = map (fz_inst (eval ev r) (eval ev r)) body.
Proof.
  induction body as [|i b IH]; intros q Hq H; [reflexivity|]. inversion H as [|? ? H1 H2]; subst. cbn [frozen map].
  assert (Ha : same_but_imm r (scope_after ev q i)) by (unfold scope_after; destruct (own_imm i); [apply same_set|]; exact Hq).
  rewrite (IH _ Ha H2). f_equal. unfold frozen1. apply fz_ext. intros e He. rewrite Forall_forall in H1. split; apply (H1 e He); assumption.
Qed.
Theorem frozen_blind ev r body : Forall (fun i => Forall (imm_blind ev r) (stmt_exprs i)) body ->
  frozen ev r body = map (fz_inst (eval ev r) (eval ev r)) body.
Proof. apply blind_frozen. intros x _. reflexivity. Qed.
Theorem frozen_means ev r ev' r' rel i : let v := eval ev r in
  denote (eval ev' r') rel (fz_inst v v i) = denote v rel i /\ as_linked (eval ev' r') rel (fz_inst v v i) = as_linked v rel i.
Proof. intro v. split; [apply fz_denote|apply fz_linked]; intro n; reflexivity. Qed.
