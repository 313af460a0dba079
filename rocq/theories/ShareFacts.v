(** No call of the assembler depends on what is in memory. *)
From Verif Require Import Base ModelMem ModelEnc ModelSyntax ModelMacro SpecState SpecHist SpecShare.
Local Notation length := List.length.
Local Open Scope list_scope.
Local Open Scope Z_scope.

Definition knows (s : jit) := (base s, cur s, pages s, labels s).
Definition overlay (s1 s2 o1 o2 : jit) : Prop := forall x, (mem o1 x = mem s1 x /\ mem o2 x = mem s2 x) \/ mem o1 x = mem o2 x.
Definition obl {A} (m : M A) : Prop := forall s1 s2, knows s1 = knows s2 ->
  answer (m s1) = answer (m s2) /\ knows (outcome (m s1)) = knows (outcome (m s2)) /\ overlay s1 s2 (outcome (m s1)) (outcome (m s2)).
Lemma overlay_refl s1 s2 : overlay s1 s2 s1 s2. Proof. intro x. left. auto. Qed.
Lemma overlay_mem s1 s2 o1 o2 : mem o1 = mem s1 -> mem o2 = mem s2 -> overlay s1 s2 o1 o2.
Proof. intros E F x. left. rewrite E, F. auto. Qed.
Lemma overlay_trans s1 s2 t1 t2 o1 o2 : overlay s1 s2 t1 t2 -> overlay t1 t2 o1 o2 -> overlay s1 s2 o1 o2.
Proof. intros H K x. destruct (K x) as [[E F]|E]; [|right; exact E]. destruct (H x) as [[E' F']|E']; [left|right]; rewrite E, F; auto. Qed.
Lemma obl_ret {A} (a : A) : obl (ret a). Proof. intros s1 s2 K. repeat split; [exact K|apply overlay_refl]. Qed.
Lemma obl_fail {A} e : obl (@fail A e). Proof. intros s1 s2 K. repeat split; [exact K|apply overlay_refl]. Qed.
Lemma obl_bind {A B} (m : M A) (k : A -> M B) : obl m -> (forall a, obl (k a)) -> obl (bind m k).
Proof.
  intros Hm Hk s1 s2 K. destruct (Hm s1 s2 K) as (Ha & Hs & Ho). unfold bind.
  destruct (m s1) as [a t1|e t1], (m s2) as [a2 t2|e2 t2]; cbn [answer outcome] in *; try discriminate.
  - injection Ha as <-. destruct (Hk a t1 t2 Hs) as (A1 & A2 & A3). repeat split; auto. eapply overlay_trans; eassumption.
  - injection Ha as <-. repeat split; auto.
Qed.
Lemma obl_get {A} (k : jit -> M A) : (forall s1 s2, knows s1 = knows s2 -> k s1 = k s2) -> (forall s, obl (k s)) -> obl (bind ModelMem.get k).
Proof. intros E H s1 s2 K. unfold bind, ModelMem.get. rewrite (E s1 s2 K). apply H, K. Qed.
Lemma obl_modify f : (forall s1 s2, knows s1 = knows s2 -> knows (f s1) = knows (f s2)) -> (forall s, mem (f s) = mem s) -> obl (modify f).
Proof. intros E F s1 s2 K. repeat split; [apply E, K|apply overlay_mem; apply F]. Qed.
Lemma obl_assert b : obl (assert b). Proof. destruct b; [apply obl_ret|apply obl_fail]. Qed.
Lemma obl_forM {A} (f : A -> M unit) : (forall x, obl (f x)) -> forall l, obl (forM l f).
Proof. intros H l. induction l as [|x l IH]; cbn [forM]; [apply obl_ret|]. apply obl_bind; [apply H|intros _; exact IH]. Qed.
Lemma obl_repeatM m n : obl m -> obl (repeatM n m).
Proof. intro H. induction n as [|n IH]; cbn [repeatM]; [apply obl_ret|]. apply obl_bind; [exact H|intros _; exact IH]. Qed.
Ltac known K := let A := fresh in let B := fresh in let C := fresh in let D := fresh in
  unfold knows in K; injection K as A B C D; unfold knows; cbn [base cur pages labels set_page set_cur set_labels]; unfold addr, contents; rewrite ?A, ?B, ?C, ?D.
Lemma obl_on_cur {A} (f : pid -> M A) : (forall p, obl (f p)) -> obl (on_cur f).
Proof. intros H s1 s2 K. unfold on_cur. assert (E : cur s1 = cur s2) by (known K; reflexivity). rewrite E. apply H, K. Qed.
Lemma obl_on_page {A} n (f : pid -> M A) : (forall p, obl (f p)) -> obl (on_page n f).
Proof. intro H. unfold on_page. destruct (pid_of n); [apply H|apply obl_fail]. Qed.
Lemma obl_put p pos v : obl (put p pos v).
Proof.
  intros s1 s2 K. unfold put. destruct (PAGE_SIZE <=? pos); cbn [answer outcome]; repeat split; auto using overlay_refl.
  intro x. cbn [mem set_mem]. unfold upd. assert (E : addr s1 p pos = addr s2 p pos) by (known K; reflexivity). rewrite E.
  destruct (x =? addr s2 p pos); auto.
Qed.
Lemma obl_counter p : obl (get_counter p).
Proof. intros s1 s2 K. unfold get_counter. cbn [answer outcome]. repeat split; auto using overlay_refl. known K. reflexivity. Qed.
Lemma obl_set_page p f : obl (modify (set_page p f)).
Proof. apply obl_modify; [|reflexivity]. intros s1 s2 K. known K. reflexivity. Qed.
Lemma obl_set_counter p c : obl (set_counter p c). Proof. apply obl_set_page. Qed.
Lemma obl_set_cur p : obl (modify (set_cur p)).
Proof. apply obl_modify; [|reflexivity]. intros s1 s2 K. known K. reflexivity. Qed.
Lemma obl_set_labels ls : obl (modify (set_labels ls)).
Proof. apply obl_modify; [|reflexivity]. intros s1 s2 K. known K. reflexivity. Qed.
Lemma obl_modify_label l f : obl (modify_label l f).
Proof.
  intros s1 s2 K. unfold modify_label. assert (E : labels s1 = labels s2) by (known K; reflexivity). rewrite E.
  destruct (l <? _)%nat; cbn [answer outcome]; repeat split; auto using overlay_refl; [known K; reflexivity|apply overlay_mem; reflexivity].
Qed.
Lemma obl_new_label : obl new_label.
Proof.
  intros s1 s2 K. unfold new_label. cbn [answer outcome]. repeat split; [known K; reflexivity|known K; reflexivity|apply overlay_mem; reflexivity].
Qed.
Create HintDb obl.
#[export] Hint Resolve obl_ret obl_fail obl_put obl_counter obl_set_page obl_set_counter obl_set_cur obl_set_labels obl_modify_label obl_new_label obl_assert : obl.
Ltac obl1 := first
  [ solve [eauto 2 with obl nocore] | apply obl_on_cur; intro | apply obl_on_page; intro | apply obl_forM; intro | apply obl_repeatM
  | apply obl_bind; [|intros ?]
  | match goal with |- obl (match ?x with _ => _ end) => destruct x end | match goal with |- obl (if ?x then _ else _) => destruct x end ].
Ltac obls := repeat obl1.
Lemma obl_emitb_on p v : obl (emitb_on p v). Proof. unfold emitb_on. obls. Qed.
Lemma obl_emitw_on p v : obl (emitw_on p v). Proof. unfold emitw_on. obls. Qed.
Lemma obl_emitl_on p v : obl (emitl_on p v). Proof. unfold emitl_on. obls. Qed.
#[export] Hint Resolve obl_emitb_on obl_emitw_on obl_emitl_on : obl.
Lemma obl_emitq_on p v : obl (emitq_on p v). Proof. unfold emitq_on. obls. Qed.
#[export] Hint Resolve obl_emitq_on : obl.
Lemma obl_emitb v : obl (emitb v). Proof. unfold emitb. obls. Qed.
Lemma obl_emitw v : obl (emitw v). Proof. unfold emitw. obls. Qed.
Lemma obl_emitl v : obl (emitl v). Proof. unfold emitl. obls. Qed.
Lemma obl_emitq v : obl (emitq v). Proof. unfold emitq. obls. Qed.
#[export] Hint Resolve obl_emitb obl_emitw obl_emitl obl_emitq : obl.
Lemma obl_emit bs : obl (emit bs). Proof. unfold emit. obls. Qed.
Lemma obl_align4 p : obl (align4_on p). Proof. unfold align4_on. obls. Qed.
Lemma obl_align8 p : obl (align8_on p). Proof. unfold align8_on. obls. Qed.
Lemma obl_align16 p : obl (align16_on p). Proof. unfold align16_on. obls. Qed.
Lemma obl_align_page p : obl (align_page_on p). Proof. unfold align_page_on. obls. Qed.
Lemma obl_write32 p a v : obl (write32 p a v). Proof. unfold write32. cbv zeta. obls. Qed.
Lemma obl_write64 p a v : obl (write64 p a v). Proof. unfold write64. obls. Qed.
#[export] Hint Resolve obl_emit obl_align4 obl_align8 obl_align16 obl_align_page obl_write32 obl_write64 : obl.
Lemma obl_cop c p : obl (run_cop c p). Proof. destruct c; cbn [run_cop]; obls. Qed.
Lemma obl_bind_label_on p l : obl (bind_label_on p l). Proof. unfold bind_label_on. obls. Qed.
Lemma obl_save_reloc l off : obl (save_reloc l off). Proof. unfold save_reloc. obls. Qed.
Lemma obl_save_abs p l : obl (save_absolute_reloc p l). Proof. unfold save_absolute_reloc. obls. Qed.
#[export] Hint Resolve obl_cop obl_bind_label_on obl_save_reloc obl_save_abs : obl.
Lemma obl_create d : obl (create d).
Proof.
  destruct d; cbn [create]; unfold const_f64, const_i64, const_i32, constant, abs_address, const_align8, data_i64, data_i32, data_bytes, push_constant, push_data; obls.
Qed.
(** finalize *)
Lemma obl_fill_target src t : obl (fill_target src t).
Proof.
  destruct t; cbn [fill_target]; [|obls]. apply obl_get; [|intro s; cbv zeta; obls].
  intros s1 s2 K. known K. reflexivity.
Qed.
#[export] Hint Resolve obl_fill_target : obl.
Lemma obl_fill_labels : forall reloc acc, obl (fill_labels reloc acc).
Proof.
  induction reloc as [|i r IH]; intro acc; cbn [fill_labels]; [obls|]. destruct (loc i) as [[p pos]|]; [|apply IH].
  apply obl_get; [|intro s; apply obl_bind; [obls|intros _; apply IH]].
  intros s1 s2 K. known K. reflexivity.
Qed.
Lemma obl_fill_relocs : obl fill_relocs.
Proof.
  unfold fill_relocs. apply obl_get; [intros s1 s2 K; known K; reflexivity|]. intro s. obls. apply obl_fill_labels.
Qed.
Lemma obl_resolve_constant id e : obl (resolve_constant_entry id e). Proof. unfold resolve_constant_entry. cbv zeta. obls. Qed.
Lemma obl_resolve_datum e : obl (resolve_data_entry e). Proof. unfold resolve_data_entry. cbv zeta. obls. Qed.
#[export] Hint Resolve obl_resolve_constant obl_resolve_datum obl_fill_relocs : obl.
Lemma obl_resolve_constants : obl resolve_constants.
Proof. unfold resolve_constants. apply obl_forM. intro p. unfold resolve_constants_of. apply obl_get; [intros s1 s2 K; known K; reflexivity|]. intro s. obls. Qed.
Lemma obl_resolve_data : obl resolve_data.
Proof. unfold resolve_data. apply obl_forM. intro p. unfold resolve_data_of. apply obl_get; [intros s1 s2 K; known K; reflexivity|]. intro s. obls. Qed.
Lemma obl_close p : obl (close_block_on p).
Proof.
  intros s1 s2 K. unfold close_block_on. assert (E : pages s1 = pages s2) by (known K; reflexivity). rewrite E.
  destruct (set_last_end _ _) as [bs|]; cbn [answer outcome]; repeat split; auto using overlay_refl; [known K; reflexivity|apply overlay_mem; reflexivity].
Qed.
#[export] Hint Resolve obl_resolve_constants obl_resolve_data obl_close : obl.
Lemma obl_finalize : obl finalize. Proof. unfold finalize. obls. Qed.
(** Labels and patches. *)
Lemma obl_label_pos l : obl (get_label_pos l).
Proof.
  intros s1 s2 K. unfold get_label_pos. assert (E : labels s1 = labels s2) by (known K; reflexivity). rewrite E.
  destruct (nth_error _ _) as [i|]; [destruct (loc i)|]; cbn [answer outcome]; repeat split; auto using overlay_refl.
Qed.
Lemma obl_codeptr a : obl (codeptr a). Proof. unfold codeptr. obls. Qed.
#[export] Hint Resolve obl_label_pos obl_codeptr : obl.
Lemma obl_label_address l : obl (get_label_address l).
Proof.
  unfold get_label_address. apply obl_bind; [obls|]. intros x. apply obl_get; [|intro s; obls].
  intros s1 s2 K. known K. reflexivity.
Qed.
Lemma obl_raw_write a v : obl (raw_write4 a v).
Proof.
  intros s1 s2 K. unfold raw_write4, modify. cbn [answer outcome]. repeat split; [exact K|]. intro x. cbn [mem set_mem]. unfold upd.
  repeat match goal with |- context [if ?c then _ else _] => destruct c; auto end.
Qed.
#[export] Hint Resolve obl_label_address obl_raw_write obl_finalize obl_create : obl.
Lemma obl_patch_address a d : obl (apply_jmp_patch_address a d). Proof. unfold apply_jmp_patch_address. cbv zeta. obls. Qed.
#[export] Hint Resolve obl_patch_address : obl.
Lemma obl_patch p d : obl (apply_jmp_patch p d). Proof. unfold apply_jmp_patch. obls. Qed.
Lemma obl_current_address : obl get_current_address.
Proof.
  unfold get_current_address. apply obl_get; [|intro s; obls]. intros s1 s2 K. known K. reflexivity.
Qed.
(** The encoder and generated code. *)
Lemma obl_rex_fn k a b c d : obl (rex_fn k a b c d).
Proof. destruct k; cbn [rex_fn]; unfold rexw, rex_none, rex_none_byte, rex; obls. Qed.
Lemma obl_modrm a b c : obl (modrm a b c). Proof. unfold modrm. cbv zeta. obls. Qed.
Lemma obl_sib a b c : obl (sib a b c). Proof. unfold sib. obls. Qed.
Lemma obl_disp_imm d i : obl (emit_disp_imm d i). Proof. unfold emit_disp_imm. obls. Qed.
#[export] Hint Resolve obl_rex_fn obl_modrm obl_sib obl_disp_imm : obl.
Lemma obl_encode op rx mm r i : obl (encode op rx mm r i).
Proof. unfold encode. cbv zeta. obls. Qed.
#[export] Hint Resolve obl_encode : obl.
Section Calls.
Variable ev : list tok -> env -> Z.
Variable lenv : string -> label.
Lemma obl_call r c : obl (run_call ev lenv r c).
Proof.
  destruct c; cbn [run_call]; unfold bind_label, enc_o, enc_oi, enc_oi_byte, enc_rexw_o, enc_mi, enc_rexw_mi, enc_mi_byte, enc_mr, enc_mr_byte, enc_rexw_mr, enc_m_byte, enc_d,
    enc_digit, enc_digit_imm, enc_digit_imm_byte, enc_rexw_digit, op_with_rd, rexw, rex_none, rex_none_byte, rex; obls.
Qed.
Lemma obl_exec : forall g r, obl (exec ev lenv r g).
Proof.
  induction g as [|c k IH|e k IH|c t1 IHt e1 IHe k IH|]; intro r; pose proof obl_call; cbn [exec]; obls.
Qed.
Lemma obl_exec_all : forall gs r, obl (exec_all ev lenv r gs).
Proof. induction gs as [|g gs IH]; intro r; cbn [exec_all]; [obls|]. apply obl_bind; [apply obl_exec|]. intro r'. apply IH. Qed.
End Calls.
#[export] Hint Resolve obl_call obl_exec_all obl_patch : obl.
Lemma obl_step o : obl (step o).
Proof. destruct o; cbn [step]; unfold nolabel; obls. Qed.
