(** One instruction, from the call that assembles it to any later state: what its
    bytes are once its label references have been resolved. *)
From Verif Require Import Base ModelMem ModelEnc ModelSyntax ModelMacro SpecX86 SpecAsm SpecTaken Trace Emit EncDec Fidelity FidelityInst StateFid
  SpecState EncFacts SpecHist MemInv MemStep MemFinal MemFill MemHist MemRun MemSafe MemOut MemFacts MemLocal MemPlace MemMisc MemCode MemThm SpecProg.
Local Notation length := List.length.
Ltac Zify.zify_post_hook ::= idtac.

(** ** Meaning depends only on the values of the expressions and on the labels *)
Section Ext.
Variables (val val' : expr -> Z) (rel rel' : string -> Z).
Lemma reg_no_ext c : (forall e, In e (reg_exprs c) -> val' e = val e) -> reg_no val' c = reg_no val c.
Proof. destruct c; cbn [reg_no reg_exprs In]; auto. Qed.
Lemma d_reg_ext w c : (forall e, In e (reg_exprs c) -> val' e = val e) -> d_reg val' w c = d_reg val w c.
Proof. intro H. unfold d_reg. rewrite (reg_no_ext _ H). reflexivity. Qed.
Lemma d_xmm_ext e : val' e = val e -> d_xmm val' e = d_xmm val e.
Proof. intro H. unfold d_xmm. rewrite H. reflexivity. Qed.
Lemma d_mem_ext a : (forall e, In e (mem_exprs a) -> val' e = val e) -> (forall x, In x (label_of_disp (ia_disp a)) -> rel' x = rel x) ->
  d_mem val' rel' a = d_mem val rel a.
Proof.
  unfold mem_exprs. intros H K.
  assert (Hb : reg_no val' (ia_base a) = reg_no val (ia_base a)) by (apply reg_no_ext; intros; apply H, in_or_app; auto).
  assert (Hd : d_disp val' rel' (ia_disp a) = d_disp val rel (ia_disp a)).
  { destruct (ia_disp a) as [d|n e|x]; cbn [d_disp disp_exprs label_of_disp In] in *; [reflexivity| |rewrite (K x); auto].
    assert (E : val' e = val e) by (apply H; rewrite !in_app_iff; cbn; auto). rewrite E. reflexivity. }
  unfold d_mem. rewrite Hd. destruct (d_disp val rel (ia_disp a)); [|reflexivity]. cbn [obind]. rewrite Hb.
  destruct (ia_scale a) as [|k c]; [reflexivity|]. rewrite (reg_no_ext c); [reflexivity|]. intros; apply H; rewrite !in_app_iff; auto.
Qed.
Lemma d_imm_ext w e : val' e = val e -> d_imm val' w e = d_imm val w e.
Proof. intro H. unfold d_imm. rewrite H. reflexivity. Qed.

Definition vals (es : list expr) : Prop := forall e, In e es -> val' e = val e.
Definition rels (xs : list string) : Prop := forall x, In x xs -> rel' x = rel x.
Lemma vals_app a b : vals (a ++ b) <-> vals a /\ vals b.
Proof. unfold vals. split; [intro H; split; intros; apply H, in_or_app; auto|]. intros [H K] e He. apply in_app_or in He. destruct He; auto. Qed.
Lemma vals_cons a b : vals (a :: b) <-> val' a = val a /\ vals b.
Proof. unfold vals. split; [intro H; split; intros; apply H; cbn; auto|]. intros [H K] e [<-|He]; auto. Qed.
Lemma rels_app a b : rels (a ++ b) <-> rels a /\ rels b.
Proof. unfold rels. split; [intro H; split; intros; apply H, in_or_app; auto|]. intros [H K] e He. apply in_app_or in He. destruct He; auto. Qed.
Notation mlabels := (flat_map (fun a => label_of_disp (ia_disp a))).
Lemma d_rm_ext w o : vals (flat_map reg_exprs (rm_regs o)) -> vals (flat_map mem_exprs (rm_mems o)) -> rels (mlabels (rm_mems o)) ->
  d_rm val' rel' w o = d_rm val rel w o.
Proof.
  destruct o; cbn [rm_regs rm_mems flat_map mlabels d_rm]; rewrite ?app_nil_r; intros A B C; [apply d_reg_ext, A|apply d_mem_ext; assumption].
Qed.
Lemma d_xm_ext o : vals (xm_xmms o) -> vals (flat_map mem_exprs (xm_mems o)) -> rels (mlabels (xm_mems o)) ->
  d_xm val' rel' o = d_xm val rel o.
Proof.
  destruct o; cbn [xm_xmms xm_mems flat_map mlabels d_xm]; rewrite ?app_nil_r; intros A B C; [apply d_xmm_ext, A; left; reflexivity|apply d_mem_ext; assumption].
Qed.
Lemma d_rmi_ext w o : vals (flat_map reg_exprs (rmi_regs o)) -> vals (flat_map mem_exprs (rmi_mems o)) -> rels (mlabels (rmi_mems o)) -> vals (rmi_imms o) ->
  d_rmi val' rel' w o = d_rmi val rel w o.
Proof.
  destruct o; cbn [rmi_regs rmi_mems rmi_imms flat_map mlabels d_rmi]; rewrite ?app_nil_r; intros A B C D;
    [apply d_imm_ext, D; left; reflexivity|apply d_reg_ext, A|apply d_mem_ext; assumption].
Qed.
Lemma d_ri_ext w o : vals (flat_map reg_exprs (ri_regs o)) -> vals (ri_imms o) -> d_ri val' w o = d_ri val w o.
Proof.
  destruct o; cbn [ri_regs ri_imms flat_map d_ri]; rewrite ?app_nil_r; intros A D; [apply d_imm_ext, D; left; reflexivity|apply d_reg_ext, A].
Qed.
Lemma d_shift_ext o w a b : vals (flat_map reg_exprs (rm_regs a)) -> vals (flat_map mem_exprs (rm_mems a)) -> rels (mlabels (rm_mems a)) ->
  vals (flat_map reg_exprs (ri_regs b)) -> vals (ri_imms b) -> d_shift val' rel' o w a b = d_shift val rel o w a b.
Proof.
  intros A B C D E. unfold d_shift. rewrite (d_rm_ext w a A B C). destruct b as [e|c]; cbn [ri_imms ri_regs flat_map] in *; rewrite ?app_nil_r in D.
  - rewrite (E e) by (left; reflexivity). reflexivity.
  - rewrite (reg_no_ext c D). reflexivity.
Qed.
Lemma denote_ext i : vals (stmt_exprs i) -> rels (inst_labels i) -> denote val' rel' i = denote val rel i.
Proof.
  intros H K. unfold stmt_exprs, addr_exprs, inst_labels, regs_of, xmms_of, mems_of in *.
  destruct i; cbn [operands fst snd imm_exprs flat_map app] in *; rewrite ?flat_map_app in *;
    rewrite ?vals_app, ?rels_app, ?vals_cons in *; cbn [denote]; try reflexivity;
    unfold d_alu, d_fp; 
    try (rewrite ?d_rm_ext, ?d_xm_ext, ?d_rmi_ext, ?d_ri_ext, ?d_reg_ext, ?d_xmm_ext, ?d_shift_ext by (try assumption; tauto); reflexivity).
  all: unfold d_movq, d_dest;
    repeat match goal with |- context [match ?x with _ => _ end] => is_var x; destruct x end;
    cbn [mov_regs mov_xmms mov_mems mov_imms rmi_regs rmi_mems rmi_imms rm_regs rm_mems dest_imms flat_map fst snd app] in *; rewrite ?app_nil_r in *;
    rewrite ?vals_app, ?rels_app, ?vals_cons in *; try reflexivity;
    try (rewrite ?d_rm_ext, ?d_xm_ext, ?d_rmi_ext, ?d_ri_ext, ?d_reg_ext, ?d_mem_ext, ?d_imm_ext, ?d_xmm_ext, ?d_shift_ext by (try assumption; tauto); reflexivity).
  all: first [ rewrite (K ident) by (cbn; auto); reflexivity
             | destruct K as [_ K]; rewrite (K ident) by (cbn; auto); reflexivity
             | rewrite ?d_reg_ext, ?d_xm_ext, ?d_xmm_ext by (try assumption; tauto);
               match goal with H : context [val' ?x = val ?x] |- _ => assert (E : val' x = val x) by tauto; rewrite ?E end; reflexivity
             | rewrite ?d_reg_ext, ?d_xm_ext, ?d_xmm_ext by (try assumption; tauto); assert (E : val' i = val i) by tauto; rewrite E; reflexivity ].
Qed.
End Ext.
(** The same of the instruction as it is taken. *)
Section TakenExt.
Variables (ev : list tok -> env -> Z) (r r' : env) (rel rel' : string -> Z).
Notation val := (eval ev r).
Notation val' := (eval ev r').
Notation vals := (vals val val').
Lemma taken_reg_ext c : vals (reg_exprs c) -> taken_reg val' c = taken_reg val c.
Proof. intro H. unfold taken_reg. rewrite (reg_no_ext val val' c H). reflexivity. Qed.
Lemma taken_xmm_ext e : val' e = val e -> taken_xmm val' e = taken_xmm val e.
Proof. intro H. unfold taken_xmm. rewrite H. reflexivity. Qed.
Lemma taken_mem_ext a : vals (mem_exprs a) -> taken_mem val' a = taken_mem val a.
Proof.
  unfold mem_exprs. rewrite !vals_app. intros (H1 & H2 & H3). unfold taken_mem. rewrite (reg_no_ext val val' _ H1). cbv zeta. f_equal.
  - unfold taken_scale, taken_index. destruct (ia_scale a) as [|k c]; [reflexivity|]. rewrite (reg_no_ext val val' c H2). reflexivity.
  - destruct (ia_disp a) as [d|n e|x]; cbn [taken_disp disp_exprs] in *; [reflexivity| |reflexivity]. rewrite (H3 e) by (left; reflexivity). reflexivity.
Qed.
Lemma taken_rm_ext o : vals (flat_map reg_exprs (rm_regs o)) -> vals (flat_map mem_exprs (rm_mems o)) -> taken_rm val' o = taken_rm val o.
Proof. destruct o; cbn [rm_regs rm_mems flat_map taken_rm]; rewrite ?app_nil_r; intros A B; f_equal; [apply taken_reg_ext, A|apply taken_mem_ext, B]. Qed.
Lemma taken_rmi_ext o : vals (flat_map reg_exprs (rmi_regs o)) -> vals (flat_map mem_exprs (rmi_mems o)) -> taken_rmi val' o = taken_rmi val o.
Proof. destruct o; cbn [rmi_regs rmi_mems flat_map taken_rmi]; rewrite ?app_nil_r; intros A B; f_equal; [apply taken_reg_ext, A|apply taken_mem_ext, B]. Qed.
Lemma taken_xm_ext o : vals (xm_xmms o) -> vals (flat_map mem_exprs (xm_mems o)) -> taken_xm val' o = taken_xm val o.
Proof. destruct o; cbn [xm_xmms xm_mems flat_map taken_xm]; rewrite ?app_nil_r; intros A B; f_equal; [apply taken_xmm_ext, A; left; reflexivity|apply taken_mem_ext, B]. Qed.
Lemma taken_ri_ext o : vals (flat_map reg_exprs (ri_regs o)) -> taken_ri val' o = taken_ri val o.
Proof. destruct o; cbn [ri_regs flat_map taken_ri]; rewrite ?app_nil_r; intros A; f_equal. apply taken_reg_ext, A. Qed.
Lemma taken_count_ext o : vals (flat_map reg_exprs (ri_regs o)) -> taken_count val' o = taken_count val o.
Proof. destruct o; cbn [ri_regs flat_map taken_count]; rewrite ?app_nil_r; intros A; f_equal. unfold taken_index. rewrite (reg_no_ext val val' _ A). reflexivity. Qed.
Lemma taken_mov_ext o : vals (flat_map reg_exprs (mov_regs o)) -> vals (mov_xmms o) -> vals (flat_map mem_exprs (mov_mems o)) -> taken_mov val' o = taken_mov val o.
Proof.
  destruct o; cbn [mov_regs mov_xmms mov_mems flat_map taken_mov]; rewrite ?app_nil_r; intros A B C; f_equal;
    [apply taken_reg_ext, A|apply taken_xmm_ext, B; left; reflexivity|apply taken_mem_ext, C].
Qed.
Lemma taken_ext i : vals (addr_exprs i) -> taken val' i = taken val i.
Proof.
  intro H. unfold addr_exprs, regs_of, xmms_of, mems_of in H.
  destruct i; cbn [operands fst snd flat_map app] in H; repeat (progress rewrite ?flat_map_app, ?vals_app, ?vals_cons in H); cbn [taken]; try reflexivity;
  try (rewrite ?taken_rm_ext, ?taken_rmi_ext, ?taken_xm_ext, ?taken_ri_ext, ?taken_count_ext, ?taken_mov_ext, ?taken_reg_ext, ?taken_xmm_ext by tauto; reflexivity).
  all: destruct d; cbn [fst snd flat_map taken_dest] in *; rewrite ?app_nil_r in H; try reflexivity; rewrite taken_mem_ext by tauto; reflexivity.
Qed.
Notation lit e := (exists v, e = ELit v).
Definition lits (l : list expr) : Prop := forall e, In e l -> lit e.
Lemma taken_lits i : lits (addr_exprs (taken val i)).
Proof.
  unfold addr_exprs, regs_of, xmms_of, mems_of.
  assert (Hm : forall a, mem_exprs (taken_mem val a) = []).
  { intros [b sc d]. unfold taken_mem, mem_exprs, taken_scale, taken_index. cbn [ia_base ia_scale ia_disp reg_exprs app].
    destruct sc as [|k c]; [|destruct ((reg_no val c mod 256 =? 4) && _)]; destruct d; reflexivity. }
  assert (L1 : lits []) by (intros e []). 
  assert (L2 : forall v l, lits l -> lits (ELit v :: l)) by (intros v l H e [<-|He]; eauto).
  destruct i; cbn [taken operands fst snd];
  repeat match goal with x : rm_operand |- _ => destruct x | x : rmi_operand |- _ => destruct x | x : ri_operand |- _ => destruct x | x : xm_operand |- _ => destruct x
    | x : mov_operand |- _ => destruct x | x : dest |- _ => destruct x end;
  cbn [taken_rm taken_rmi taken_ri taken_count taken_xm taken_mov taken_dest rm_regs rm_mems rmi_regs rmi_mems ri_regs xm_xmms xm_mems mov_regs mov_xmms mov_mems fst snd flat_map app reg_exprs taken_reg taken_xmm];
  rewrite ?Hm; cbn [app]; unfold taken_xmm; auto.
Qed.
Lemma taken_imms i : imm_exprs (taken val i) = imm_exprs i.
Proof. destruct i; try reflexivity; cbn [taken imm_exprs]; 
  repeat match goal with x : rm_operand |- _ => destruct x | x : rmi_operand |- _ => destruct x | x : ri_operand |- _ => destruct x | x : xm_operand |- _ => destruct x
    | x : mov_operand |- _ => destruct x | x : dest |- _ => destruct x end; reflexivity.
Qed.
Lemma taken_labels i : inst_labels (taken val i) = inst_labels i.
Proof.
  assert (Hm : forall a, label_of_disp (ia_disp (taken_mem val a)) = label_of_disp (ia_disp a)) by (intros [b sc d]; destruct d; reflexivity).
  unfold inst_labels, mems_of. destruct i; cbn [taken operands fst snd]; try reflexivity;
  repeat match goal with x : rm_operand |- _ => destruct x | x : rmi_operand |- _ => destruct x | x : ri_operand |- _ => destruct x | x : xm_operand |- _ => destruct x
    | x : mov_operand |- _ => destruct x | x : dest |- _ => destruct x end;
  cbn [taken_rm taken_rmi taken_ri taken_count taken_xm taken_mov taken_dest rm_mems rmi_mems xm_mems mov_mems fst snd flat_map app];
  rewrite ?Hm; reflexivity.
Qed.
Lemma assembled_ext i : vals (stmt_exprs i) -> rels rel rel' (inst_labels i) -> assembled val' rel' i = assembled val rel i.
Proof.
  intros H K. assert (H1 : vals (addr_exprs i)) by (intros e He; apply H; unfold stmt_exprs; apply in_or_app; left; exact He).
  assert (G : denote val' rel' (taken val' i) = denote val rel (taken val i)).
  { rewrite (taken_ext i H1). apply denote_ext.
    - intros e He. unfold stmt_exprs in He. apply in_app_or in He. destruct He as [He|He].
      + destruct (taken_lits i e He) as [v ->]. reflexivity.
      + rewrite taken_imms in He. apply H. unfold stmt_exprs. apply in_or_app. right. exact He.
    - intros x Hx. rewrite taken_labels in Hx. apply K, Hx. }
  destruct i; try exact G. cbn [assembled].
  unfold addr_exprs, regs_of, xmms_of, mems_of in H1. cbn [operands fst snd flat_map] in H1. rewrite !vals_app in H1. destruct H1 as ((Ha & _) & Hb & Hm).
  rewrite (taken_reg_ext a Ha), (taken_xm_ext b Hb Hm).
  unfold d_two. rewrite (d_reg_ext val val' W32 (taken_reg val a)) by (intros e []).
  rewrite (d_xm_ext val val' rel rel' (taken_xm val b)); [reflexivity| | |].
  - destruct b as [e|m]; cbn [taken_xm xm_xmms]; intros e' He; [|elim He]. destruct He as [<-|[]]. reflexivity.
  - intros e He. pose proof (taken_lits (ICvttsd2siq a b) e) as L. destruct L as [v ->]; [|reflexivity].
    unfold addr_exprs, mems_of. cbn [taken operands fst snd]. rewrite !in_app_iff. right. right. exact He.
  - intros x Hx. apply K. rewrite <- taken_labels. unfold inst_labels, mems_of. cbn [taken operands fst snd]. apply in_or_app. left. exact Hx.
Qed.
End TakenExt.

(** ** Positions of label fields *)
Lemma field_refs_split p l t : forall its c, In t (field_refs p c its l) ->
  exists pre bw off post, its = pre ++ IRel bw l off :: post /\ t = Rel p off (c + items_len pre).
Proof.
  induction its as [|i its IH]; intros c H; [elim H|]. cbn [field_refs] in H. apply in_app_or in H. destruct H as [H|H].
  - destruct i as [b|v|v|v|bw x off]; try (elim H; fail). destruct (x =? l)%nat eqn:E; [|elim H]. destruct H as [<-|[]].
    apply Nat.eqb_eq in E. subst x. exists [], bw, off, its. split; [reflexivity|]. cbn. f_equal. lia.
  - destruct (IH _ H) as (pre & bw & off & post & -> & ->). exists (i :: pre), bw, off, post. split; [reflexivity|].
    unfold items_len. cbn [fold_right]. fold (items_len pre). f_equal. lia.
Qed.
Lemma field_refs_in p l bw off : forall pre c post, In (Rel p off (c + items_len pre)) (field_refs p c (pre ++ IRel bw l off :: post) l).
Proof.
  induction pre as [|i pre IH]; intros c post; cbn [app field_refs].
  - apply in_or_app. left. rewrite Nat.eqb_refl. left. cbn. f_equal. lia.
  - apply in_or_app. right. unfold items_len. cbn [fold_right]. fold (items_len pre). replace (c + (item_len i + items_len pre)) with (c + item_len i + items_len pre) by lia. apply IH.
Qed.
Lemma items_len_cons i l : items_len (i :: l) = item_len i + items_len l. Proof. reflexivity. Qed.
Lemma item_len_pos i : 0 < item_len i. Proof. destruct i; cbn; lia. Qed.
(** Two items of a list that overlap are the same. *)
Lemma overlap : forall pre pre2 (a b : item) post post2, pre ++ a :: post = pre2 ++ b :: post2 ->
  items_len pre < items_len pre2 + item_len b -> items_len pre2 < items_len pre + item_len a -> pre = pre2 /\ a = b /\ post = post2.
Proof.
  induction pre as [|x pre IH]; intros pre2 a b post post2 E H1 H2; destruct pre2 as [|y pre2]; cbn [app] in E; inversion E; subst.
  - auto.
  - rewrite items_len_cons in H2. pose proof (items_len_nonneg pre2). cbn in H2. lia.
  - rewrite items_len_cons in H1. pose proof (items_len_nonneg pre). cbn in H1. lia.
  - rewrite !items_len_cons in H1, H2. destruct (IH pre2 a b post post2) as (-> & -> & ->); auto; lia.
Qed.
Lemma rel_ok_at : forall pre bw l off post, rel_ok (pre ++ IRel bw l off :: post) -> off = 4 + items_len post.
Proof. induction pre as [|i pre IH]; intros bw l off post H; cbn [app rel_ok] in H; [apply H|]. apply (IH bw l off post). apply H. Qed.
Lemma rel_late_at its pre bw l off post : rel_late its -> its = pre ++ IRel bw l off :: post -> off = 4 + items_len post - 1.
Proof.
  intros (l0 & b & E & H) Hs. rewrite E in Hs. destruct post as [|x post] using rev_ind.
  - apply app_inj_tail in Hs. destruct Hs as [_ Hs]. discriminate Hs.
  - clear IHpost. rewrite app_comm_cons, app_assoc in Hs. apply app_inj_tail in Hs. destruct Hs as [-> <-].
    rewrite (rel_ok_at _ _ _ _ _ H), items_len_app. cbn. lia.
Qed.
Lemma flat_app f a b : flat f (a ++ b) = flat f a ++ flat f b. Proof. apply flat_map_app. Qed.

(** ** Links *)
Lemma linked_none : forall ops s l, never_linked ops s l -> linked ops s l = None.
Proof.
  induction ops as [|o ops IH]; intros s l H; [reflexivity|]. cbn [linked]. destruct (after o s) as [s1|] eqn:E; [|reflexivity].
  assert (K : linked ops s1 l = None).
  { apply IH. intros a b s' -> Er. apply (H (o :: a) b s'); [reflexivity|]. cbn [app run]. rewrite E. exact Er. }
  destruct (is_finalize o) eqn:Ef; [|exact K]. assert (Ho : o = OFinalize) by (destruct o; try discriminate; reflexivity). subst o.
  rewrite (H [] ops s1); [exact K|reflexivity|]. cbn [app run]. rewrite E. reflexivity.
Qed.
Lemma linked_at : forall a b s s1 s2 l x, run a s = Some s1 -> never_linked a s l -> after OFinalize s1 = Some s2 -> label_addr s2 l = Some x ->
  linked (a ++ OFinalize :: b) s l = Some x.
Proof.
  induction a as [|o a IH]; intros b s s1 s2 l x Er Hn Ef Hx.
  - inversion Er; subst. cbn [app linked]. rewrite Ef. cbn [is_finalize]. rewrite Hx. reflexivity.
  - cbn [app linked]. cbn [run] in Er. destruct (after o s) as [s0|] eqn:E; [|discriminate].
    assert (Hn' : never_linked a s0 l).
    { intros c d s' -> Er'. apply (Hn (o :: c) d s'); [reflexivity|]. cbn [app run]. rewrite E. exact Er'. }
    assert (K : (if is_finalize o then label_addr s0 l else None) = None).
    { destruct (is_finalize o) eqn:F; [|reflexivity]. assert (Ho : o = OFinalize) by (destruct o; try discriminate; reflexivity). subst o.
      apply (Hn [] a s0); [reflexivity|]. cbn [app run]. rewrite E. reflexivity. }
    rewrite K. eapply IH; eauto.
Qed.

(** A reference of a reached state, once linked. *)
Lemma ref_linked ops s s' l p off x a : reached s -> In (Rel p off x) (refs s l) -> forallb api ops = true -> run ops s = Some s' ->
  linked ops s l = Some a -> bytes s' p x 4 = le 4 (a - (addr s' p x + off)) /\ in_i32 (a - (addr s' p x + off)) = true.
Proof.
  intros R Ht Ha E Hl. pose proof (Inv_reached _ R) as I.
  destruct (ref_life _ _ _ _ _ I Ht Ha E) as [[_ H]|(u & v & s1 & s2 & y & -> & H2 & H3 & H4 & H5 & H6 & H7 & H8 & H9)].
  { rewrite (linked_none _ _ _ H) in Hl. discriminate. }
  rewrite (linked_at _ v _ _ _ _ _ H2 H4 H5 H6) in Hl. inversion Hl; subst y.
  rewrite forallb_app in Ha. apply andb_true_iff in Ha. destruct Ha as [Ha1 Ha2]. cbn [forallb] in Ha2.
  pose proof (Inv_run _ _ _ I Ha1 H2) as I1.
  destruct (finalize_links _ _ _ _ _ I1 H3 H5 H6) as (F1 & F2 & _). pose proof (Inv_step _ _ _ I1 (eq_refl : api OFinalize = true) H5) as I2.
  assert (B : addr s' p x = addr s2 p x) by (unfold addr, contents; rewrite (base_run _ _ _ I2 Ha2 H8); reflexivity).
  cbn [ref_value flen] in *. rewrite B. split; [|exact F2]. unfold field in H9. cbn [fpage fpos flen] in H9. change (Z.to_nat 4) with 4%nat in H9.
  rewrite H9. unfold field in F1. cbn [fpage fpos flen] in F1. exact F1.
Qed.

(** ** The bytes of one instruction *)
Section OneInst.
Variables (s s1 s4 : jit) (its : list item) (ops : list op) (A : label -> Z).
Notation p := (cur s).
Notation c := (counter (pages s (cur s))).
Hypothesis R : reached s.
Hypothesis R1 : reached s1.
Hypothesis Em : emitted its s s1.
Hypothesis Room : c + items_len its <= PAGE_SIZE.
Hypothesis Ha : forallb api ops = true.
Hypothesis E : run ops s1 = Some s4.
Hypothesis Hlink : forall pre bw l off post, its = pre ++ IRel bw l off :: post -> (l < length (labels s))%nat /\ linked ops s1 l = Some (A l).
Variable sl : Z.       (* how far the label fields are off *)
Hypothesis Hrel : forall pre bw l off post, its = pre ++ IRel bw l off :: post -> off = 4 + items_len post - sl.
Let next := addr s p (c + items_len its).

Lemma one_base : base s4 = base s.
Proof. rewrite (base_run _ _ _ (Inv_reached _ R1) Ha E). apply (em_base _ _ _ Em). Qed.
Lemma one_addr q x : addr s4 q x = addr s q x.
Proof. unfold addr, contents. rewrite one_base. reflexivity. Qed.
Lemma one_counter : counter (pages s1 p) = c + items_len its.
Proof. rewrite (em_page _ _ _ Em). reflexivity. Qed.
Lemma one_settled pre i post j : its = pre ++ i :: post -> match i with IRel _ _ _ => False | _ => True end ->
  c + items_len pre <= j < c + items_len pre + item_len i -> ~ pending s1 p j.
Proof.
  intros Hs Hi Hj (l & t & Ht & Hf & Hb). unfold refs in Ht. rewrite (em_labels _ _ _ Em), add_refs_nth in Ht.
  destruct (nth_error (labels s) l) as [inf|] eqn:El; cbn [option_map] in Ht; [|elim Ht]. cbn [targets] in Ht. apply in_app_or in Ht. destruct Ht as [Ht|Ht].
  - assert (Hin : In t (refs s l)) by (unfold refs; rewrite El; exact Ht). apply In_nth_error in Hin. destruct Hin as [k Hk].
    destruct (ri_ref _ (iv_r _ (Inv_reached _ R)) _ _ _ Hk) as (H1 & H2 & _). rewrite Hf in *. pose proof (items_len_nonneg pre). unfold cnt in *. lia.
  - destruct (field_refs_split _ _ _ _ _ Ht) as (pre2 & bw & off & post2 & Hs2 & ->). cbn [fpos flen] in Hb. rewrite Hs in Hs2.
    destruct (overlap _ _ _ _ _ _ Hs2) as (_ & -> & _); [cbn; lia|cbn; lia|exact Hi].
Qed.
Lemma one_read1 pre i post : its = pre ++ i :: post ->
  read (mem s1) (addr s p (c + items_len pre)) (length (item_bytes zeros i)) = item_bytes zeros i.
Proof.
  intro Hs. replace (addr s p (c + items_len pre)) with (addr s p c + Z.of_nat (length (flat zeros pre))) by (rewrite flat_len; unfold addr; lia).
  rewrite (read_ext _ (wr (mem s) (addr s p c) (flat zeros its))) by (intros; apply (em_mem _ _ _ Em)).
  rewrite Hs, flat_app. change (flat zeros (i :: post)) with (item_bytes zeros i ++ flat zeros post). apply read_wr_sub.
Qed.
Definition fill (l : label) : Z := A l - next + sl.
Lemma one_item pre i post : its = pre ++ i :: post ->
  read (mem s4) (addr s p (c + items_len pre)) (length (item_bytes fill i)) = item_bytes fill i.
Proof.
  intro Hs. pose proof (items_len_nonneg pre). pose proof (items_len_nonneg post). pose proof (item_len_pos i).
  pose proof (ri_cnt _ (iv_r _ (Inv_reached _ R)) p) as Hc.
  assert (Hlen : items_len its = items_len pre + item_len i + items_len post) by (rewrite Hs, items_len_app, items_len_cons; lia).
  assert (G : match i with IRel _ _ _ => False | _ => True end -> item_bytes fill i = item_bytes zeros i ->
     read (mem s4) (addr s p (c + items_len pre)) (length (item_bytes fill i)) = item_bytes fill i).
  { intros Hi ->. pose proof (item_bytes_len zeros i) as Hl.
    etransitivity; [|exact (one_read1 pre i post Hs)]. apply read_ext. intros x Hx. set (j := x - contents s p).
    assert (Hj : c + items_len pre <= j < c + items_len pre + item_len i) by (unfold j, addr in *; lia).
    destruct (Z.eq_dec (byte s4 p j) (byte s1 p j)) as [D|D].
    - unfold byte in D. rewrite one_addr in D. replace (addr s1 p j) with (addr s p j) in D by (unfold addr, contents; rewrite (em_base _ _ _ Em); reflexivity).
      replace (addr s p j) with x in D by (unfold j, addr; lia). exact D.
    - destruct (byte_changed ops s1 s4 p j (Inv_reached _ R1) Ha E ltac:(rewrite one_counter; unfold cnt in Hc; lia) D) as [P _]. elim (one_settled pre i post j Hs Hi Hj P). }
  destruct i as [b|v|v|v|bw l off]; try (apply G; [exact Logic.I|reflexivity]).
  destruct (Hlink _ _ _ _ _ Hs) as [Hl HL].
  assert (Hin : In (Rel p off (c + items_len pre)) (refs s1 l)).
  { unfold refs. rewrite (em_labels _ _ _ Em), add_refs_nth. destruct (nth_error (labels s) l) as [inf|] eqn:El; [|apply nth_error_None in El; lia].
    cbn [option_map targets]. apply in_or_app. right. rewrite Hs. apply field_refs_in. }
  destruct (ref_linked _ _ _ _ _ _ _ _ R1 Hin Ha E HL) as [B _]. cbn [item_bytes]. rewrite le_length.
  unfold bytes in B. rewrite one_addr in B. rewrite B. unfold fill. apply (f_equal (le 4)).
  rewrite (Hrel _ _ _ _ _ Hs). unfold next, addr. rewrite Hlen. cbn [item_len]. lia.
Qed.
Lemma one_bytes : bytes s4 p c (Z.to_nat (items_len its)) = flat fill its.
Proof.
  assert (G : forall post pre, its = pre ++ post -> read (mem s4) (addr s p (c + items_len pre)) (length (flat fill post)) = flat fill post).
  { induction post as [|i post IH]; intros pre Hs; [reflexivity|].
    change (flat fill (i :: post)) with (item_bytes fill i ++ flat fill post). rewrite app_length, read_app, (one_item pre i post Hs). f_equal.
    replace (addr s p (c + items_len pre) + Z.of_nat (length (item_bytes fill i))) with (addr s p (c + items_len (pre ++ [i])))
      by (rewrite item_bytes_len, items_len_app, items_len_cons; unfold addr; cbn; lia).
    apply IH. rewrite <- app_assoc. exact Hs. }
  specialize (G its [] eq_refl). cbn in G. rewrite Z.add_0_r in G. unfold bytes. rewrite one_addr.
  etransitivity; [|exact G]. f_equal. pose proof (flat_len fill its). lia.
Qed.
Lemma one_range pre bw l off post : its = pre ++ IRel bw l off :: post -> in_i32 (A l - next + sl) = true.
Proof.
  intro Hs. destruct (Hlink _ _ _ _ _ Hs) as [Hl HL].
  assert (Hin : In (Rel p off (c + items_len pre)) (refs s1 l)).
  { unfold refs. rewrite (em_labels _ _ _ Em), add_refs_nth. destruct (nth_error (labels s) l) as [inf|] eqn:El; [|apply nth_error_None in El; lia].
    cbn [option_map targets]. apply in_or_app. right. rewrite Hs. apply field_refs_in. }
  destruct (ref_linked _ _ _ _ _ _ _ _ R1 Hin Ha E HL) as [_ B]. rewrite <- B. f_equal. rewrite one_addr.
  rewrite (Hrel _ _ _ _ _ Hs). unfold next, addr. rewrite Hs, items_len_app, items_len_cons. cbn [item_len]. lia.
Qed.
End OneInst.
