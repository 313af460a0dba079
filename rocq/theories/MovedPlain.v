(** A session that does not create abs_address constants records no absolute reference. *)
From Verif Require Import Base ModelMem ModelEnc ModelSyntax ModelMacro SpecState SpecHist SpecShare MemPlace MemHist SpecMoved.
Local Notation length := List.length.
Local Open Scope list_scope.
Local Open Scope Z_scope.

Definition addressless (d : dtype) : bool := match d with DAbsAddress _ => false | _ => true end.
Definition relative (t : target) : Prop := match t with Rel _ _ _ => True | Abs _ _ => False end.
Definition page_ok (e : page) : Prop := Forall (fun c => addressless (fst c) = true) (constants e) /\ Forall (fun c => addressless (fst c) = true) (data e).
Record plain (s : jit) : Prop := mkPlain { pl_page : forall p, page_ok (pages s p); pl_refs : Forall (fun i => Forall relative (targets i)) (labels s) }.
Definition kp {A} (m : M A) : Prop := forall s, plain s -> plain (outcome (m s)).
Lemma kp_ret {A} (a : A) : kp (ret a). Proof. intros s H. exact H. Qed.
Lemma kp_fail {A} e : kp (@fail A e). Proof. intros s H. exact H. Qed.
Lemma kp_bind {A B} (m : M A) (k : A -> M B) : kp m -> (forall a, kp (k a)) -> kp (bind m k).
Proof. intros Hm Hk s H. unfold bind. specialize (Hm s H). destruct (m s) as [a t|e t]; cbn [outcome] in *; [apply Hk|]; exact Hm. Qed.
Lemma kp_assert b : kp (assert b). Proof. destruct b; [apply kp_ret|apply kp_fail]. Qed.
Lemma kp_forM {A} (f : A -> M unit) : (forall x, kp (f x)) -> forall l, kp (forM l f).
Proof. intros H l. induction l as [|x l IH]; cbn [forM]; [apply kp_ret|]. apply kp_bind; [apply H|intros _; exact IH]. Qed.
Lemma kp_repeatM m n : kp m -> kp (repeatM n m).
Proof. intro H. induction n as [|n IH]; cbn [repeatM]; [apply kp_ret|]. apply kp_bind; [exact H|intros _; exact IH]. Qed.
Lemma kp_on_cur {A} (f : pid -> M A) : (forall p, kp (f p)) -> kp (on_cur f). Proof. intros H s. apply H. Qed.
Lemma kp_on_page {A} n (f : pid -> M A) : (forall p, kp (f p)) -> kp (on_page n f).
Proof. intro H. unfold on_page. destruct (pid_of n); [apply H|apply kp_fail]. Qed.
Lemma kp_put p pos v : kp (put p pos v).
Proof. intros s [H1 H2]. unfold put. destruct (_ <=? _); constructor; assumption. Qed.
Lemma kp_counter p : kp (get_counter p). Proof. intros s H. exact H. Qed.
Lemma kp_set_page p f : (forall e, page_ok e -> page_ok (f e)) -> kp (modify (set_page p f)).
Proof.
  intros H s [H1 H2]. cbn [outcome modify]. constructor; [|exact H2]. intro q. cbn [pages set_page]. destruct (pid_eqb _ _); [apply H|]; apply H1.
Qed.
Lemma kp_set_counter p c : kp (set_counter p c). Proof. apply kp_set_page. intros e H. exact H. Qed.
Lemma kp_set_cur p : kp (modify (set_cur p)). Proof. intros s [H1 H2]. constructor; assumption. Qed.
Lemma kp_modify_label l f : (forall i, Forall relative (targets i) -> Forall relative (targets (f i))) -> kp (modify_label l f).
Proof.
  intros H s [H1 H2]. unfold modify_label. destruct (l <? _)%nat; cbn [outcome]; constructor; try assumption. cbn [labels set_labels].
  revert l. induction H2 as [|i r Hi Hr IH]; intro l; [destruct l; constructor|]. destruct l as [|l]; [exact (Forall_cons _ (H _ Hi) Hr)|exact (Forall_cons _ Hi (IH l))].
Qed.
Lemma kp_new_label : kp new_label.
Proof. intros s [H1 H2]. unfold new_label. cbn [outcome]. constructor; [exact H1|]. cbn [labels set_labels]. apply Forall_app. split; [exact H2|]. repeat constructor. Qed.
Create HintDb kp.
#[export] Hint Resolve kp_ret kp_fail kp_put kp_counter kp_set_counter kp_set_cur kp_new_label kp_assert : kp.
Ltac plain1 := first
  [ solve [eauto 2 with kp nocore] | apply kp_on_cur; intro | apply kp_on_page; intro | apply kp_forM; intro | apply kp_repeatM
  | apply kp_bind; [|intros ?]
  | match goal with |- kp (match ?x with _ => _ end) => destruct x end | match goal with |- kp (if ?x then _ else _) => destruct x end
  | apply kp_set_page; intros ? H; exact H
  | apply kp_modify_label; intros ? H; solve [exact H | apply Forall_app; split; [exact H|]; repeat constructor] ].
Ltac plains := repeat plain1.
Lemma kp_emitb_on p v : kp (emitb_on p v). Proof. unfold emitb_on. plains. Qed.
Lemma kp_emitw_on p v : kp (emitw_on p v). Proof. unfold emitw_on. plains. Qed.
Lemma kp_emitl_on p v : kp (emitl_on p v). Proof. unfold emitl_on. plains. Qed.
#[export] Hint Resolve kp_emitb_on kp_emitw_on kp_emitl_on : kp.
Lemma kp_emitq_on p v : kp (emitq_on p v). Proof. unfold emitq_on. plains. Qed.
#[export] Hint Resolve kp_emitq_on : kp.
Lemma kp_emitb v : kp (emitb v). Proof. unfold emitb. plains. Qed.
Lemma kp_emitw v : kp (emitw v). Proof. unfold emitw. plains. Qed.
Lemma kp_emitl v : kp (emitl v). Proof. unfold emitl. plains. Qed.
Lemma kp_emitq v : kp (emitq v). Proof. unfold emitq. plains. Qed.
#[export] Hint Resolve kp_emitb kp_emitw kp_emitl kp_emitq : kp.
Lemma kp_emit bs : kp (emit bs). Proof. unfold emit. plains. Qed.
Lemma kp_align4 p : kp (align4_on p). Proof. unfold align4_on. plains. Qed.
Lemma kp_align8 p : kp (align8_on p). Proof. unfold align8_on. plains. Qed.
Lemma kp_align16 p : kp (align16_on p). Proof. unfold align16_on. plains. Qed.
Lemma kp_align_page p : kp (align_page_on p). Proof. unfold align_page_on. plains. Qed.
Lemma kp_write32 p a v : kp (write32 p a v). Proof. unfold write32. cbv zeta. plains. Qed.
Lemma kp_write64 p a v : kp (write64 p a v). Proof. unfold write64. plains. Qed.
#[export] Hint Resolve kp_emit kp_align4 kp_align8 kp_align16 kp_align_page kp_write32 kp_write64 : kp.
Lemma kp_cop c p : kp (run_cop c p). Proof. destruct c; cbn [run_cop]; plains. Qed.
Lemma kp_bind_label_on p l : kp (bind_label_on p l). Proof. unfold bind_label_on. plains. Qed.
Lemma kp_save_reloc l off : kp (save_reloc l off). Proof. unfold save_reloc. plains. Qed.
#[export] Hint Resolve kp_cop kp_bind_label_on kp_save_reloc : kp.
Lemma kp_push_constant c : addressless c = true -> kp (push_constant c).
Proof. intro H. unfold push_constant. apply kp_bind; [apply kp_new_label|]. intro l. apply kp_bind; [|intros _; plains]. apply kp_on_cur. intro p. apply kp_set_page. intros e [Hc Hd]. cbn. split; [|exact Hd]. apply Forall_app. split; [exact Hc|]. constructor; [exact H|constructor]. Qed.
Lemma kp_push_data c : addressless c = true -> kp (push_data c).
Proof. intro H. unfold push_data. apply kp_bind; [apply kp_new_label|]. intro l. apply kp_bind; [|intros _; plains]. apply kp_on_cur. intro p. apply kp_set_page. intros e [Hc Hd]. cbn. split; [exact Hc|]. apply Forall_app. split; [exact Hd|]. constructor; [exact H|constructor]. Qed.
Lemma kp_create d : is_abs d = false -> kp (create d).
Proof.
  intro H. destruct d; try discriminate H; cbn [create]; unfold const_f64, const_i64, const_i32, constant, const_align8, data_i64, data_i32, data_bytes;
  try (apply kp_push_constant; reflexivity); apply kp_push_data; reflexivity.
Qed.
Lemma kp_resolve_constant id e : addressless (fst e) = true -> kp (resolve_constant_entry id e).
Proof. intro H. destruct e as [d l]. unfold resolve_constant_entry. cbn [fst snd] in *. cbv zeta. destruct d; try discriminate H; plains. Qed.
Lemma kp_resolve_datum e : addressless (fst e) = true -> kp (resolve_data_entry e).
Proof. intro H. destruct e as [d l]. unfold resolve_data_entry. cbn [fst snd] in *. cbv zeta. destruct d; try discriminate H; plains. Qed.
Lemma kp_forall {A} (f : A -> M unit) l : Forall (fun x => kp (f x)) l -> kp (forM l f).
Proof. intro H. induction H as [|x l Hx _ IH]; cbn [forM]; [apply kp_ret|]. apply kp_bind; [exact Hx|intros _; exact IH]. Qed.
Lemma kp_resolve_constants : kp resolve_constants.
Proof.
  unfold resolve_constants. apply kp_forM. intro p. unfold resolve_constants_of. intros s Hs. unfold bind at 1, ModelMem.get.
  refine (kp_bind _ _ _ _ s Hs).
  - apply kp_set_page. intros e [_ Hd]. split; [constructor|exact Hd].
  - intros _. apply kp_forall. eapply Forall_impl; [|exact (proj1 (pl_page _ Hs p))]. intros e He. apply kp_resolve_constant, He.
Qed.
Lemma kp_resolve_data : kp resolve_data.
Proof.
  unfold resolve_data. apply kp_forM. intro p. unfold resolve_data_of. intros s Hs. unfold bind at 1, ModelMem.get.
  refine (kp_bind _ _ _ _ s Hs).
  - apply kp_set_page. intros e [Hc _]. split; [exact Hc|constructor].
  - intros _. apply kp_forall. eapply Forall_impl; [|exact (proj2 (pl_page _ Hs p))]. intros e He. apply kp_resolve_datum, He.
Qed.
Lemma kp_place : kp place_all.
Proof. unfold place_all. apply kp_bind; [apply kp_resolve_constants|intros _; apply kp_resolve_data]. Qed.
(** The encoder and generated code. *)
Lemma kp_rex_fn k a b c d : kp (rex_fn k a b c d).
Proof. destruct k; cbn [rex_fn]; unfold rexw, rex_none, rex_none_byte, rex; plains. Qed.
Lemma kp_modrm a b c : kp (modrm a b c). Proof. unfold modrm. cbv zeta. plains. Qed.
Lemma kp_sib a b c : kp (sib a b c). Proof. unfold sib. plains. Qed.
Lemma kp_disp_imm d i : kp (emit_disp_imm d i). Proof. unfold emit_disp_imm. plains. Qed.
#[export] Hint Resolve kp_rex_fn kp_modrm kp_sib kp_disp_imm : kp.
Lemma kp_encode op rx mm r i : kp (encode op rx mm r i).
Proof. unfold encode. cbv zeta. plains. Qed.
#[export] Hint Resolve kp_encode : kp.
Section Calls.
Variable ev : list tok -> env -> Z.
Variable lenv : string -> label.
Lemma kp_call r c : kp (run_call ev lenv r c).
Proof.
  destruct c; cbn [run_call]; unfold bind_label, enc_o, enc_oi, enc_oi_byte, enc_rexw_o, enc_mi, enc_rexw_mi, enc_mi_byte, enc_mr, enc_mr_byte, enc_rexw_mr, enc_m_byte, enc_d,
    enc_digit, enc_digit_imm, enc_digit_imm_byte, enc_rexw_digit, op_with_rd, rexw, rex_none, rex_none_byte, rex; plains.
Qed.
Lemma kp_exec : forall g r, kp (exec ev lenv r g).
Proof.
  induction g as [|c k IH|e k IH|c t1 IHt e1 IHe k IH|]; intro r; pose proof kp_call; cbn [exec]; plains.
Qed.
Lemma kp_exec_all : forall gs r, kp (exec_all ev lenv r gs).
Proof. induction gs as [|g gs IH]; intro r; cbn [exec_all]; [plains|]. apply kp_bind; [apply kp_exec|]. intro r'. apply IH. Qed.
End Calls.
#[export] Hint Resolve kp_call kp_exec_all : kp.
Lemma kp_step o : api o = true -> is_finalize o = false -> unaddressed o = true -> kp (step o).
Proof.
  intros Ha Hf Hu. destruct o; try discriminate Ha; try discriminate Hf; cbn [step]; unfold nolabel, bind_label, bind_label_with_page; try (plains; fail).
  cbn [unaddressed] in Hu. pose proof (kp_create d) as H. destruct (is_abs d); [discriminate|]. specialize (H eq_refl). plains.
Qed.
