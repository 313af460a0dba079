(** No call of the assembler depends on where its memory is. *)
From Verif Require Import Base ModelMem ModelEnc ModelSyntax ModelMacro SpecState SpecHist SpecShare.
Local Notation length := List.length.
Local Open Scope list_scope.
Local Open Scope Z_scope.

Definition knowing (s : jit) := (cur s, pages s, labels s).
Definition bases (s1 s2 o1 o2 : jit) : Prop := base o1 = base s1 /\ base o2 = base s2.
Definition over (s1 s2 o1 o2 : jit) : Prop := forall k,
  (bases s1 s2 o1 o2 /\ mem o1 (base s1 + k) = mem s1 (base s1 + k) /\ mem o2 (base s2 + k) = mem s2 (base s2 + k)) \/
  (bases s1 s2 o1 o2 /\ mem o1 (base s1 + k) = mem o2 (base s2 + k)).
Lemma over_bases s1 s2 o1 o2 : over s1 s2 o1 o2 -> bases s1 s2 o1 o2. Proof. intro H. destruct (H 0) as [[B _]|[B _]]; exact B. Qed.
Definition mob {A} (m : M A) : Prop := forall s1 s2, knowing s1 = knowing s2 ->
  answer (m s1) = answer (m s2) /\ knowing (outcome (m s1)) = knowing (outcome (m s2)) /\ over s1 s2 (outcome (m s1)) (outcome (m s2)).
Lemma over_refl s1 s2 : over s1 s2 s1 s2. Proof. intro x. left. repeat split. Qed.
Lemma over_mem s1 s2 o1 o2 : base o1 = base s1 -> base o2 = base s2 -> mem o1 = mem s1 -> mem o2 = mem s2 -> over s1 s2 o1 o2.
Proof. intros B C E F x. left. rewrite E, F. repeat split; assumption. Qed.
Lemma over_trans s1 s2 t1 t2 o1 o2 : over s1 s2 t1 t2 -> over t1 t2 o1 o2 -> over s1 s2 o1 o2.
Proof.
  intros H K. destruct (over_bases _ _ _ _ H) as [B1 B2]. destruct (over_bases _ _ _ _ K) as [C1 C2]. assert (B : bases s1 s2 o1 o2) by (split; congruence).
  intro x. specialize (K x). rewrite B1, B2 in K.
  destruct K as [[_ [E F]]|[_ E]]; [|right; auto]. destruct (H x) as [[_ [E' F']]|[_ E']]; [left|right]; rewrite E, F; auto.
Qed.
Lemma mob_ret {A} (a : A) : mob (ret a). Proof. intros s1 s2 K. repeat split; [exact K|apply over_refl]. Qed.
Lemma mob_fail {A} e : mob (@fail A e). Proof. intros s1 s2 K. repeat split; [exact K|apply over_refl]. Qed.
Lemma mob_bind {A B} (m : M A) (k : A -> M B) : mob m -> (forall a, mob (k a)) -> mob (bind m k).
Proof.
  intros Hm Hk s1 s2 K. destruct (Hm s1 s2 K) as (Ha & Hs & Ho). unfold bind.
  destruct (m s1) as [a t1|e t1], (m s2) as [a2 t2|e2 t2]; cbn [answer outcome] in *; try discriminate.
  - injection Ha as <-. destruct (Hk a t1 t2 Hs) as (A1 & A2 & A3). repeat split; auto. eapply over_trans; eassumption.
  - injection Ha as <-. repeat split; auto.
Qed.
Lemma mob_get {A} (k : jit -> M A) : (forall s1 s2, knowing s1 = knowing s2 -> k s1 = k s2) -> (forall s, mob (k s)) -> mob (bind ModelMem.get k).
Proof. intros E H s1 s2 K. unfold bind, ModelMem.get. rewrite (E s1 s2 K). apply H, K. Qed.
Lemma mob_modify f : (forall s1 s2, knowing s1 = knowing s2 -> knowing (f s1) = knowing (f s2)) -> (forall s, mem (f s) = mem s) -> (forall s, base (f s) = base s) -> mob (modify f).
Proof. intros E F G s1 s2 K. repeat split; [apply E, K|]. cbn [outcome modify]. intro x. left. rewrite !F. repeat split; apply G. Qed.
Lemma mob_assert b : mob (assert b). Proof. destruct b; [apply mob_ret|apply mob_fail]. Qed.
Lemma mob_forM {A} (f : A -> M unit) : (forall x, mob (f x)) -> forall l, mob (forM l f).
Proof. intros H l. induction l as [|x l IH]; cbn [forM]; [apply mob_ret|]. apply mob_bind; [apply H|intros _; exact IH]. Qed.
Lemma mob_repeatM m n : mob m -> mob (repeatM n m).
Proof. intro H. induction n as [|n IH]; cbn [repeatM]; [apply mob_ret|]. apply mob_bind; [exact H|intros _; exact IH]. Qed.
Ltac known K := let A := fresh in let B := fresh in let C := fresh in
  unfold knowing in K; injection K as A B C; unfold knowing; cbn [cur pages labels set_page set_cur set_labels]; rewrite ?A, ?B, ?C.
Lemma mob_on_cur {A} (f : pid -> M A) : (forall p, mob (f p)) -> mob (on_cur f).
Proof. intros H s1 s2 K. unfold on_cur. assert (E : cur s1 = cur s2) by (known K; reflexivity). rewrite E. apply H, K. Qed.
Lemma mob_on_page {A} n (f : pid -> M A) : (forall p, mob (f p)) -> mob (on_page n f).
Proof. intro H. unfold on_page. destruct (pid_of n); [apply H|apply mob_fail]. Qed.
Lemma mob_put p pos v : mob (put p pos v).
Proof.
  intros s1 s2 K. unfold put. destruct (PAGE_SIZE <=? pos); cbn [answer outcome]; repeat split; auto using over_refl.
  intro x. cbn [mem set_mem]. unfold upd, addr, contents. destruct (Z.eq_dec x (pidx p * PAGE_SIZE + pos)) as [->|N].
  - right. split; [split; reflexivity|]. rewrite !(proj2 (Z.eqb_eq _ _)) by lia. reflexivity.
  - left. split; [split; reflexivity|]. rewrite !(proj2 (Z.eqb_neq _ _)) by lia. auto.
Qed.
Lemma mob_counter p : mob (get_counter p).
Proof. intros s1 s2 K. unfold get_counter. cbn [answer outcome]. repeat split; auto using over_refl. known K. reflexivity. Qed.
Lemma mob_set_page p f : mob (modify (set_page p f)).
Proof. apply mob_modify; [|reflexivity|reflexivity]. intros s1 s2 K. known K. reflexivity. Qed.
Lemma mob_set_counter p c : mob (set_counter p c). Proof. apply mob_set_page. Qed.
Lemma mob_set_cur p : mob (modify (set_cur p)).
Proof. apply mob_modify; [|reflexivity|reflexivity]. intros s1 s2 K. known K. reflexivity. Qed.
Lemma mob_set_labels ls : mob (modify (set_labels ls)).
Proof. apply mob_modify; [|reflexivity|reflexivity]. intros s1 s2 K. known K. reflexivity. Qed.
Lemma mob_modify_label l f : mob (modify_label l f).
Proof.
  intros s1 s2 K. unfold modify_label. assert (E : labels s1 = labels s2) by (known K; reflexivity). rewrite E.
  destruct (l <? _)%nat; cbn [answer outcome]; repeat split; auto using over_refl; [known K; reflexivity|apply over_mem; reflexivity].
Qed.
Lemma mob_new_label : mob new_label.
Proof.
  intros s1 s2 K. unfold new_label. cbn [answer outcome]. repeat split; [known K; reflexivity|known K; reflexivity|apply over_mem; reflexivity].
Qed.
Create HintDb mob.
#[export] Hint Resolve mob_ret mob_fail mob_put mob_counter mob_set_page mob_set_counter mob_set_cur mob_set_labels mob_modify_label mob_new_label mob_assert : mob.
Ltac mob1 := first
  [ solve [eauto 2 with mob nocore] | apply mob_on_cur; intro | apply mob_on_page; intro | apply mob_forM; intro | apply mob_repeatM
  | apply mob_bind; [|intros ?]
  | match goal with |- mob (match ?x with _ => _ end) => destruct x end | match goal with |- mob (if ?x then _ else _) => destruct x end ].
Ltac mobs := repeat mob1.
Lemma mob_emitb_on p v : mob (emitb_on p v). Proof. unfold emitb_on. mobs. Qed.
Lemma mob_emitw_on p v : mob (emitw_on p v). Proof. unfold emitw_on. mobs. Qed.
Lemma mob_emitl_on p v : mob (emitl_on p v). Proof. unfold emitl_on. mobs. Qed.
#[export] Hint Resolve mob_emitb_on mob_emitw_on mob_emitl_on : mob.
Lemma mob_emitq_on p v : mob (emitq_on p v). Proof. unfold emitq_on. mobs. Qed.
#[export] Hint Resolve mob_emitq_on : mob.
Lemma mob_emitb v : mob (emitb v). Proof. unfold emitb. mobs. Qed.
Lemma mob_emitw v : mob (emitw v). Proof. unfold emitw. mobs. Qed.
Lemma mob_emitl v : mob (emitl v). Proof. unfold emitl. mobs. Qed.
Lemma mob_emitq v : mob (emitq v). Proof. unfold emitq. mobs. Qed.
#[export] Hint Resolve mob_emitb mob_emitw mob_emitl mob_emitq : mob.
Lemma mob_emit bs : mob (emit bs). Proof. unfold emit. mobs. Qed.
Lemma mob_align4 p : mob (align4_on p). Proof. unfold align4_on. mobs. Qed.
Lemma mob_align8 p : mob (align8_on p). Proof. unfold align8_on. mobs. Qed.
Lemma mob_align16 p : mob (align16_on p). Proof. unfold align16_on. mobs. Qed.
Lemma mob_align_page p : mob (align_page_on p). Proof. unfold align_page_on. mobs. Qed.
Lemma mob_write32 p a v : mob (write32 p a v). Proof. unfold write32. cbv zeta. mobs. Qed.
Lemma mob_write64 p a v : mob (write64 p a v). Proof. unfold write64. mobs. Qed.
#[export] Hint Resolve mob_emit mob_align4 mob_align8 mob_align16 mob_align_page mob_write32 mob_write64 : mob.
Lemma mob_cop c p : mob (run_cop c p). Proof. destruct c; cbn [run_cop]; mobs. Qed.
Lemma mob_bind_label_on p l : mob (bind_label_on p l). Proof. unfold bind_label_on. mobs. Qed.
Lemma mob_save_reloc l off : mob (save_reloc l off). Proof. unfold save_reloc. mobs. Qed.
Lemma mob_save_abs p l : mob (save_absolute_reloc p l). Proof. unfold save_absolute_reloc. mobs. Qed.
#[export] Hint Resolve mob_cop mob_bind_label_on mob_save_reloc mob_save_abs : mob.
Lemma mob_create d : mob (create d).
Proof.
  destruct d; cbn [create]; unfold const_f64, const_i64, const_i32, constant, abs_address, const_align8, data_i64, data_i32, data_bytes, push_constant, push_data; mobs.
Qed.
Lemma mob_resolve_constant id e : mob (resolve_constant_entry id e). Proof. unfold resolve_constant_entry. cbv zeta. mobs. Qed.
Lemma mob_resolve_datum e : mob (resolve_data_entry e). Proof. unfold resolve_data_entry. cbv zeta. mobs. Qed.
#[export] Hint Resolve mob_resolve_constant mob_resolve_datum : mob.
Lemma mob_resolve_constants : mob resolve_constants.
Proof. unfold resolve_constants. apply mob_forM. intro p. unfold resolve_constants_of. apply mob_get; [intros s1 s2 K; known K; reflexivity|]. intro s. mobs. Qed.
Lemma mob_resolve_data : mob resolve_data.
Proof. unfold resolve_data. apply mob_forM. intro p. unfold resolve_data_of. apply mob_get; [intros s1 s2 K; known K; reflexivity|]. intro s. mobs. Qed.
#[export] Hint Resolve mob_create : mob.
(** The encoder and generated code. *)
Lemma mob_rex_fn k a b c d : mob (rex_fn k a b c d).
Proof. destruct k; cbn [rex_fn]; unfold rexw, rex_none, rex_none_byte, rex; mobs. Qed.
Lemma mob_modrm a b c : mob (modrm a b c). Proof. unfold modrm. cbv zeta. mobs. Qed.
Lemma mob_sib a b c : mob (sib a b c). Proof. unfold sib. mobs. Qed.
Lemma mob_disp_imm d i : mob (emit_disp_imm d i). Proof. unfold emit_disp_imm. mobs. Qed.
#[export] Hint Resolve mob_rex_fn mob_modrm mob_sib mob_disp_imm : mob.
Lemma mob_encode op rx mm r i : mob (encode op rx mm r i).
Proof. unfold encode. cbv zeta. mobs. Qed.
#[export] Hint Resolve mob_encode : mob.
Section Calls.
Variable ev : list tok -> env -> Z.
Variable lenv : string -> label.
Lemma mob_call r c : mob (run_call ev lenv r c).
Proof.
  destruct c; cbn [run_call]; unfold bind_label, enc_o, enc_oi, enc_oi_byte, enc_rexw_o, enc_mi, enc_rexw_mi, enc_mi_byte, enc_mr, enc_mr_byte, enc_rexw_mr, enc_m_byte, enc_d,
    enc_digit, enc_digit_imm, enc_digit_imm_byte, enc_rexw_digit, op_with_rd, rexw, rex_none, rex_none_byte, rex; mobs.
Qed.
Lemma mob_exec : forall g r, mob (exec ev lenv r g).
Proof.
  induction g as [|c k IH|e k IH|c t1 IHt e1 IHe k IH|]; intro r; pose proof mob_call; cbn [exec]; mobs.
Qed.
Lemma mob_exec_all : forall gs r, mob (exec_all ev lenv r gs).
Proof. induction gs as [|g gs IH]; intro r; cbn [exec_all]; [mobs|]. apply mob_bind; [apply mob_exec|]. intro r'. apply IH. Qed.
End Calls.
#[export] Hint Resolve mob_call mob_exec_all : mob.
Lemma mob_step o : api o = true -> is_finalize o = false -> mob (step o).
Proof. intros Ha Hf. destruct o; try discriminate Ha; try discriminate Hf; cbn [step]; unfold nolabel, bind_label, bind_label_with_page; mobs. Qed.
