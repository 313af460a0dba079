(** Calls do not depend on the numbers of labels. *)
From Verif Require Import Base ModelMem ModelEnc ModelSyntax ModelMacro SpecState SpecAsm SpecProg SpecHist SpecShare StateFid MemInv MemFill WhenFacts SpecRename.
Local Notation length := List.length.
Local Open Scope list_scope.
Local Open Scope Z_scope.

Section Rename.
Variable f : label -> label.
Hypothesis inj : forall a b, f a = f b -> a = b.
Definition ren_page (g : page) : page := mkPage (counter g) (map (entry f) (constants g)) (map (entry f) (data g)) (code_len g) (code_block_top g) (code_block g).
Definition known (n m : nat) (l : label) : Prop := (l < n)%nat /\ (f l < m)%nat.
Definition entry_known (n m : nat) (e : dtype * label) : Prop := known n m (snd e) /\ match fst e with DAbsAddress l => known n m l | _ => True end.
Record ren (n m : nat) (s1 s2 : jit) : Prop := mkRen {
  rn_base : base s1 = base s2;
  rn_cur : cur s1 = cur s2;
  rn_mem : forall x, mem s1 x = mem s2 x;
  rn_page : forall p, pages s2 p = ren_page (pages s1 p);
  rn_len1 : length (labels s1) = n;
  rn_len2 : length (labels s2) = m;
  rn_info : forall l, known n m l -> nth_error (labels s2) (f l) = nth_error (labels s1) l;
  rn_new1 : forall l, (l < n)%nat -> (m <= f l)%nat -> nth_error (labels s1) l = Some label_new;
  rn_new2 : forall j, (j < m)%nat -> (forall l, (l < n)%nat -> f l <> j) -> nth_error (labels s2) j = Some label_new;
  rn_wait : forall p, Forall (entry_known n m) (constants (pages s1 p)) /\ Forall (entry_known n m) (data (pages s1 p))
}.
Definition rel (n m : nat) {A} (m1 m2 : M A) : Prop := forall s1 s2, ren n m s1 s2 -> answer (m1 s1) = answer (m2 s2) /\ ren n m (outcome (m1 s1)) (outcome (m2 s2)).
Section Sizes.
Variables n m : nat.
Notation rel := (rel n m).
Lemma rel_ret {A} (a : A) : rel (ret a) (ret a). Proof. intros s1 s2 K. split; [reflexivity|exact K]. Qed.
Lemma rel_fail {A} e : rel (@fail A e) (fail e). Proof. intros s1 s2 K. split; [reflexivity|exact K]. Qed.
Lemma rel_bind {A B} (m1 m2 : M A) (k1 k2 : A -> M B) : rel m1 m2 -> (forall a, rel (k1 a) (k2 a)) -> rel (bind m1 k1) (bind m2 k2).
Proof.
  intros Hm Hk s1 s2 K. destruct (Hm s1 s2 K) as (Ha & Hs). unfold bind.
  destruct (m1 s1) as [a t1|e t1], (m2 s2) as [a2 t2|e2 t2]; cbn [answer outcome] in *; try discriminate.
  - injection Ha as <-. apply Hk, Hs.
  - injection Ha as <-. split; [reflexivity|exact Hs].
Qed.
Lemma rel_assert b : rel (assert b) (assert b). Proof. destruct b; [apply rel_ret|apply rel_fail]. Qed.
Lemma rel_forM {A} (g1 g2 : A -> M unit) : (forall x, rel (g1 x) (g2 x)) -> forall l, rel (forM l g1) (forM l g2).
Proof. intros H l. induction l as [|x l IH]; cbn [forM]; [apply rel_ret|]. apply rel_bind; [apply H|intros _; exact IH]. Qed.
Lemma rel_repeatM m1 m2 k : rel m1 m2 -> rel (repeatM k m1) (repeatM k m2).
Proof. intro H. induction k as [|k IH]; cbn [repeatM]; [apply rel_ret|]. apply rel_bind; [exact H|intros _; exact IH]. Qed.
Lemma rel_on_cur {A} (g1 g2 : pid -> M A) : (forall p, rel (g1 p) (g2 p)) -> rel (on_cur g1) (on_cur g2).
Proof. intros H s1 s2 K. unfold on_cur. rewrite (rn_cur _ _ _ _ K). apply H, K. Qed.
Lemma rel_on_page {A} k (g1 g2 : pid -> M A) : (forall p, rel (g1 p) (g2 p)) -> rel (on_page k g1) (on_page k g2).
Proof. intro H. unfold on_page. destruct (pid_of k); [apply H|apply rel_fail]. Qed.
Lemma rel_put p pos v : rel (put p pos v) (put p pos v).
Proof.
  intros s1 s2 K. unfold put. destruct (PAGE_SIZE <=? pos); cbn [answer outcome]; (split; [reflexivity|]); [exact K|].
  destruct K. constructor; auto. intro x. cbn [mem set_mem]. unfold upd, addr, contents. rewrite rn_base0. destruct (x =? _); [reflexivity|]. apply rn_mem0.
Qed.
Lemma rel_counter p : rel (get_counter p) (get_counter p).
Proof. intros s1 s2 K. unfold get_counter. cbn [answer outcome]. split; [|exact K]. rewrite (rn_page _ _ _ _ K p). reflexivity. Qed.
Lemma rel_set_page p g : (forall e, g (ren_page e) = ren_page (g e)) ->
  (forall e, Forall (entry_known n m) (constants e) /\ Forall (entry_known n m) (data e) -> Forall (entry_known n m) (constants (g e)) /\ Forall (entry_known n m) (data (g e))) ->
  rel (modify (set_page p g)) (modify (set_page p g)).
Proof.
  intros Hg Hw s1 s2 K. split; [reflexivity|]. destruct K. constructor; auto; intro q; cbn [pages set_page outcome modify].
  - rewrite rn_page0. destruct (pid_eqb q p); [apply Hg|reflexivity].
  - destruct (pid_eqb q p); [apply Hw|]; apply rn_wait0.
Qed.
Lemma rel_set_counter p c : rel (set_counter p c) (set_counter p c).
Proof. apply rel_set_page; [reflexivity|intros e H; exact H]. Qed.
Lemma rel_set_cur p : rel (modify (set_cur p)) (modify (set_cur p)).
Proof. intros s1 s2 K. split; [reflexivity|]. destruct K. constructor; auto. Qed.
Lemma rel_modify_label l g : known n m l -> rel (modify_label l g) (modify_label (f l) g).
Proof.
  intros [L1 L2] s1 s2 K. destruct K. unfold modify_label. rewrite rn_len3, rn_len4. rewrite !(proj2 (Nat.ltb_lt _ _)) by assumption.
  cbn [answer outcome]. split; [reflexivity|]. constructor; auto; cbn [labels set_labels]; try (rewrite upd_nth_len; assumption).
  - intros k Hk. rewrite !upd_nth_at. destruct (Nat.eqb_spec k l) as [->|N].
    + rewrite Nat.eqb_refl, rn_info0 by exact Hk. reflexivity.
    + destruct (Nat.eqb_spec (f k) (f l)) as [E|_]; [elim N; exact (inj _ _ E)|]. apply rn_info0, Hk.
  - intros k H1 H2. rewrite upd_nth_at. destruct (Nat.eqb_spec k l) as [->|N]; [lia|]. apply rn_new3; assumption.
  - intros j H1 H2. rewrite upd_nth_at. destruct (Nat.eqb_spec j (f l)) as [->|N]; [elim (H2 l L1); reflexivity|]. apply rn_new4; assumption.
Qed.
End Sizes.
End Rename.
Create HintDb rel.
#[export] Hint Resolve rel_ret rel_fail rel_put rel_counter rel_set_counter rel_set_cur rel_modify_label rel_assert : rel.
Ltac rel1 := first
  [ solve [eauto 3 with rel nocore] | apply rel_on_cur; intro | apply rel_on_page; intro | apply rel_forM; intro | apply rel_repeatM
  | apply rel_bind; [|intros ?]
  | match goal with |- rel _ _ _ (match ?x with _ => _ end) (match ?x with _ => _ end) => destruct x end ].
Ltac rels := repeat rel1.
Section Calls.
Variable f : label -> label.
Hypothesis inj : forall a b, f a = f b -> a = b.
Variables n m : nat.
Notation rel := (rel f n m).
Notation same c := (rel c c).
Lemma rel_emitb_on p v : same (emitb_on p v). Proof. unfold emitb_on. rels. Qed.
Lemma rel_emitw_on p v : same (emitw_on p v). Proof. unfold emitw_on. rels. Qed.
Lemma rel_emitl_on p v : same (emitl_on p v). Proof. unfold emitl_on. rels. Qed.
Hint Resolve rel_emitb_on rel_emitw_on rel_emitl_on : rel.
Lemma rel_emitq_on p v : same (emitq_on p v). Proof. unfold emitq_on. rels. Qed.
Hint Resolve rel_emitq_on : rel.
Lemma rel_emitb v : same (emitb v). Proof. unfold emitb. rels. Qed.
Lemma rel_emitw v : same (emitw v). Proof. unfold emitw. rels. Qed.
Lemma rel_emitl v : same (emitl v). Proof. unfold emitl. rels. Qed.
Lemma rel_emitq v : same (emitq v). Proof. unfold emitq. rels. Qed.
Hint Resolve rel_emitb rel_emitw rel_emitl rel_emitq : rel.
Lemma rel_emit bs : same (emit bs). Proof. unfold emit. rels. Qed.
Lemma rel_align4 p : same (align4_on p). Proof. unfold align4_on. rels. Qed.
Lemma rel_align8 p : same (align8_on p). Proof. unfold align8_on. rels. Qed.
Lemma rel_align16 p : same (align16_on p). Proof. unfold align16_on. rels. Qed.
Lemma rel_align_page p : same (align_page_on p). Proof. unfold align_page_on. rels. Qed.
Hint Resolve rel_emit rel_align4 rel_align8 rel_align16 rel_align_page : rel.
Lemma rel_cop c p : same (run_cop c p). Proof. destruct c; cbn [run_cop]; rels. Qed.
Lemma rel_bind_label_on p l : known f n m l -> rel (bind_label_on p l) (bind_label_on p (f l)). Proof. intro H. unfold bind_label_on. rels. Qed.
Lemma rel_save_reloc l off : known f n m l -> rel (save_reloc l off) (save_reloc (f l) off). Proof. intro H. unfold save_reloc. rels. Qed.
Lemma rel_save_abs p l : known f n m l -> rel (save_absolute_reloc p l) (save_absolute_reloc p (f l)). Proof. intro H. unfold save_absolute_reloc. rels. Qed.
Hint Resolve rel_cop rel_bind_label_on rel_save_reloc rel_save_abs : rel.
Lemma rel_resolve_constant id e : entry_known f n m e -> rel (resolve_constant_entry id e) (resolve_constant_entry id (entry f e)).
Proof. destruct e as [d l]. intros [H1 H2]. cbn [fst snd] in *. unfold resolve_constant_entry, entry. cbn [fst snd]. cbv zeta. destruct d; rels. Qed.
Lemma rel_resolve_datum e : entry_known f n m e -> rel (resolve_data_entry e) (resolve_data_entry (entry f e)).
Proof. destruct e as [d l]. intros [H1 H2]. cbn [fst snd] in *. unfold resolve_data_entry, entry. cbn [fst snd]. cbv zeta. destruct d; rels. Qed.
Lemma rel_entries (g : dtype * label -> M unit) l : (forall e, entry_known f n m e -> rel (g e) (g (entry f e))) -> Forall (entry_known f n m) l -> rel (forM l g) (forM (map (entry f) l) g).
Proof. intros Hg H. induction H as [|x l Hx _ IH]; cbn [map forM]; [rels|]. apply rel_bind; [apply Hg, Hx|intros _; exact IH]. Qed.
Lemma rel_resolve_constants : same resolve_constants.
Proof.
  unfold resolve_constants. apply rel_forM. intro p. unfold resolve_constants_of. intros s1 s2 K. unfold bind at 1 3, ModelMem.get.
  refine (rel_bind f n m _ _ _ _ _ _ s1 s2 K).
  - apply rel_set_page; [reflexivity|]. intros e [_ H]. split; [constructor|exact H].
  - intros _. rewrite (rn_page _ _ _ _ _ K p). cbn [constants ren_page]. apply rel_entries; [apply rel_resolve_constant|apply (rn_wait _ _ _ _ _ K)].
Qed.
Lemma rel_resolve_data : same resolve_data.
Proof.
  unfold resolve_data. apply rel_forM. intro p. unfold resolve_data_of. intros s1 s2 K. unfold bind at 1 3, ModelMem.get.
  refine (rel_bind f n m _ _ _ _ _ _ s1 s2 K).
  - apply rel_set_page; [reflexivity|]. intros e [H _]. split; [exact H|constructor].
  - intros _. rewrite (rn_page _ _ _ _ _ K p). cbn [data ren_page]. apply rel_entries; [apply rel_resolve_datum|apply (rn_wait _ _ _ _ _ K)].
Qed.
(** The encoder and generated code. *)
Definition ren_disp (d : disp) : disp := match d with DLabel l => DLabel (f l) | _ => d end.
Definition ren_mode (x : mode) : mode := match x with MInd sc d => MInd sc (ren_disp d) | MReg => MReg end.
Definition ren_rm (r : rm) : rm := mkRm (rm_base r) (ren_mode (rm_mode r)).
Definition disp_known (d : disp) : Prop := match d with DLabel l => known f n m l | _ => True end.
Definition mode_known (x : mode) : Prop := match x with MInd _ d => disp_known d | MReg => True end.
Lemma rel_rex_fn k a b c d : rel (rex_fn k a b c d) (rex_fn k a b c (ren_mode d)).
Proof. destruct d as [|sc [|v|v|l]], k; cbn [rex_fn ren_mode ren_disp]; unfold rexw, rex_none, rex_none_byte, rex; cbn [mode_is_reg]; rels. Qed.
Lemma rel_modrm a b c : rel (modrm a b c) (modrm a (ren_mode b) c).
Proof. destruct b as [|sc [|v|v|l]]; cbn [ren_mode ren_disp]; unfold modrm; cbv zeta; rels. Qed.
Lemma rel_sib a b c : same (sib a b c). Proof. unfold sib. rels. Qed.
Lemma rel_disp_imm d i : disp_known d -> rel (emit_disp_imm d i) (emit_disp_imm (ren_disp d) i).
Proof. intro H. unfold emit_disp_imm. destruct d; cbn [ren_disp disp_known] in *; rels. Qed.
Hint Resolve rel_rex_fn rel_modrm rel_sib rel_disp_imm : rel.
Lemma rel_encode op rx mm r i : mode_known (rm_mode r) -> rel (encode op rx mm r i) (encode op rx mm (ren_rm r) i).
Proof.
  intro H. destruct r as [b x]. cbn [rm_mode] in H.
  pose proof (rel_rex_fn rx) as HX. pose proof (rel_modrm mm) as HM.
  unfold encode. cbv zeta. unfold ren_rm. cbn [rm_base rm_mode].
  destruct x as [|[|k idx] [|v|v|l]]; cbn [mode_known disp_known] in H;
  cbn [ren_mode ren_disp mode_is_reg is_indirect_no_disp mode_scale mode_disp negb andb rip_ind_from rm_base rm_mode scale_index];
  repeat first [ rel1 | apply HX | apply HM | apply (rel_disp_imm (DLabel l)); exact H
               | match goal with
                 | |- rel (rex_fn ?a ?b ?c ?d (MInd ?sc (DLabel l))) _ => apply (HX b c d (MInd sc (DLabel l)))
                 | |- rel (modrm ?a (MInd ?sc (DLabel l)) ?c) _ => apply (HM (MInd sc (DLabel l)) c)
                 end ].
Qed.
Variable ev : list tok -> env -> Z.
Variable lenv : string -> label.
Let lenv2 (x : string) : label := f (lenv x).
Lemma run_rm_ren r x : run_rm ev lenv2 r x = ren_rm (run_rm ev lenv r x).
Proof.
  destruct x as [g|a]; [reflexivity|]. cbn [run_rm]. unfold rm_ind, ren_rm. cbn [rm_base rm_mode ren_mode]. f_equal. f_equal.
  destruct (ia_disp a) as [d|neg e|l]; cbn [run_disp]; unfold from_disp; repeat match goal with |- context [if ?b then _ else _] => destruct b end; reflexivity.
Qed.
Lemma run_rm_known r x : (forall y, In y (rm_names x) -> known f n m (lenv y)) -> mode_known (rm_mode (run_rm ev lenv r x)).
Proof.
  destruct x as [g|a]; [intro; exact I|]. cbn [rm_names run_rm rm_ind rm_mode mode_known]. intro H.
  destruct (ia_disp a) as [d|neg e|l]; cbn [run_disp label_of_disp] in *; unfold from_disp; repeat match goal with |- context [if ?b then _ else _] => destruct b end; cbn [disp_known]; try exact I.
  apply H. left. reflexivity.
Qed.
Lemma rel_call r c : (forall y, In y (enc_names c) -> known f n m (lenv y)) -> rel (run_call ev lenv r c) (run_call ev lenv2 r c).
Proof.
  intro H. assert (HR : forall x, enc_names c = rm_names x -> mode_known (rm_mode (run_rm ev lenv r x))) by (intros x E; apply run_rm_known; rewrite <- E; exact H).
  destruct c; cbn [enc_names] in H, HR; cbn [run_call]; rewrite ?run_rm_ren;
  unfold bind_label, enc_o, enc_oi, enc_oi_byte, enc_rexw_o, enc_mi, enc_rexw_mi, enc_mi_byte, enc_mr, enc_mr_byte, enc_rexw_mr, enc_m_byte, enc_d,
    enc_digit, enc_digit_imm, enc_digit_imm_byte, enc_rexw_digit, op_with_rd, rexw, rex_none, rex_none_byte, rex;
  try (apply rel_encode, HR; reflexivity);
  try (assert (Hy : known f n m (lenv ident)) by (apply H; left; reflexivity); unfold lenv2; rels; fail).
  all: try (rels; fail).
  assert (E1 : rm_is_rax (ren_rm (run_rm ev lenv r r0)) = rm_is_rax (run_rm ev lenv r r0)) by (unfold rm_is_rax, ren_rm; destruct (run_rm ev lenv r r0) as [b [|sc d]]; reflexivity).
  assert (E2 : rm_is_reg (ren_rm (run_rm ev lenv r r0)) = rm_is_reg (run_rm ev lenv r r0)) by (unfold rm_is_reg, ren_rm; destruct (run_rm ev lenv r r0) as [b [|sc d]]; reflexivity).
  rewrite E1, E2. clear E1 E2. destruct (rm_is_rax _); [apply rel_bind; [rels|intros _; apply (rel_disp_imm DispNone); exact I]|].
  destruct (rm_is_reg _); apply rel_encode, HR; reflexivity.
Qed.
Lemma rel_exec : forall g r, (forall y, In y (gcode_labels g) -> known f n m (lenv y)) -> rel (exec ev lenv r g) (exec ev lenv2 r g).
Proof.
  induction g as [|c k IH|e k IH|c t1 IHt e1 IHe k IH|]; intros r H; cbn [exec gcode_labels] in *.
  - rels.
  - apply rel_bind; [apply rel_call; intros y Hy; apply H, in_or_app; left; exact Hy|intros _; apply IH; intros y Hy; apply H, in_or_app; right; exact Hy].
  - apply IH, H.
  - apply rel_bind; [|intros _; apply IH; intros y Hy; apply H; rewrite !in_app_iff; auto]. destruct (run_cond ev r c) as [b r'].
    destruct b; [apply IHt|apply IHe]; intros y Hy; apply H; rewrite !in_app_iff; auto.
  - rels.
Qed.
Lemma rel_exec_all : forall gs r, (forall g y, In g gs -> In y (gcode_labels g) -> known f n m (lenv y)) -> rel (exec_all ev lenv r gs) (exec_all ev lenv2 r gs).
Proof.
  induction gs as [|g gs IH]; intros r H; cbn [exec_all]; [rels|].
  apply rel_bind; [apply rel_exec; intros y Hy; apply (H g); [left; reflexivity|exact Hy]|]. intro r'. apply IH. intros g' y Hg Hy. apply (H g'); [right; exact Hg|exact Hy].
Qed.
End Calls.
