(** Calls do not depend on which references have been filled. *)
From Verif Require Import Base ModelMem ModelEnc ModelSyntax ModelMacro SpecState SpecHist SpecShare MemInv MemFill.
Local Notation length := List.length.
Local Open Scope list_scope.
Local Open Scope Z_scope.

Definition shape (g : page) := (counter g, constants g, data g).
Section Done.
(** The references that are filled in the second state and not in the first. *)
Variable D : label -> list target.
Record sim (s1 s2 : jit) : Prop := mkSim {
  sm_base : base s1 = base s2;
  sm_cur : cur s1 = cur s2;
  sm_page : forall p, shape (pages s1 p) = shape (pages s2 p);
  sm_len : length (labels s1) = length (labels s2);
  sm_loc : forall l, loc_of s1 l = loc_of s2 l;
  sm_refs : forall l, refs s1 l = D l ++ refs s2 l;
  sm_mem : forall x, (forall l t, In t (D l) -> ~ at_field s2 t x) -> mem s1 x = mem s2 x
}.
Definition obs {A} (m : M A) : Prop := forall s1 s2, sim s1 s2 -> answer (m s1) = answer (m s2) /\ sim (outcome (m s1)) (outcome (m s2)).
Lemma obs_ret {A} (a : A) : obs (ret a). Proof. intros s1 s2 K. split; [reflexivity|exact K]. Qed.
Lemma obs_fail {A} e : obs (@fail A e). Proof. intros s1 s2 K. split; [reflexivity|exact K]. Qed.
Lemma obs_bind {A B} (m : M A) (k : A -> M B) : obs m -> (forall a, obs (k a)) -> obs (bind m k).
Proof.
  intros Hm Hk s1 s2 K. destruct (Hm s1 s2 K) as (Ha & Hs). unfold bind.
  destruct (m s1) as [a t1|e t1], (m s2) as [a2 t2|e2 t2]; cbn [answer outcome] in *; try discriminate.
  - injection Ha as <-. apply Hk, Hs.
  - injection Ha as <-. split; [reflexivity|exact Hs].
Qed.
Lemma obs_assert b : obs (assert b). Proof. destruct b; [apply obs_ret|apply obs_fail]. Qed.
Lemma obs_forM {A} (f : A -> M unit) : (forall x, obs (f x)) -> forall l, obs (forM l f).
Proof. intros H l. induction l as [|x l IH]; cbn [forM]; [apply obs_ret|]. apply obs_bind; [apply H|intros _; exact IH]. Qed.
Lemma obs_repeatM m n : obs m -> obs (repeatM n m).
Proof. intro H. induction n as [|n IH]; cbn [repeatM]; [apply obs_ret|]. apply obs_bind; [exact H|intros _; exact IH]. Qed.
Lemma obs_on_cur {A} (f : pid -> M A) : (forall p, obs (f p)) -> obs (on_cur f).
Proof. intros H s1 s2 K. unfold on_cur. rewrite (sm_cur _ _ K). apply H, K. Qed.
Lemma obs_on_page {A} n (f : pid -> M A) : (forall p, obs (f p)) -> obs (on_page n f).
Proof. intro H. unfold on_page. destruct (pid_of n); [apply H|apply obs_fail]. Qed.
Lemma at_field_base s s' t x : base s' = base s -> at_field s' t x <-> at_field s t x.
Proof. intro E. unfold at_field, faddr, addr, contents. rewrite E. reflexivity. Qed.
Lemma obs_put p pos v : obs (put p pos v).
Proof.
  intros s1 s2 K. unfold put. destruct (PAGE_SIZE <=? pos); cbn [answer outcome]; (split; [reflexivity|]); [exact K|].
  destruct K as [K1 K2 K3 K4 K5 K6 K7]. constructor; auto. intros x H. cbn [mem set_mem]. unfold upd, addr, contents. rewrite K1.
  destruct (x =? _); [reflexivity|]. apply K7. exact H.
Qed.
Lemma obs_counter p : obs (get_counter p).
Proof. intros s1 s2 K. unfold get_counter. cbn [answer outcome]. split; [|exact K]. pose proof (sm_page _ _ K p) as H. unfold shape in H. congruence. Qed.
Lemma sim_set_page p f s1 s2 : (forall g h, shape g = shape h -> shape (f g) = shape (f h)) -> sim s1 s2 -> sim (set_page p f s1) (set_page p f s2).
Proof.
  intros Hf [K1 K2 K3 K4 K5 K6 K7]. constructor; auto. intro q. cbn [pages set_page]. destruct (pid_eqb q p); [apply Hf|]; apply K3.
Qed.
Lemma obs_set_page p f : (forall g h, shape g = shape h -> shape (f g) = shape (f h)) -> obs (modify (set_page p f)).
Proof. intros Hf s1 s2 K. split; [reflexivity|]. apply sim_set_page; assumption. Qed.
Lemma obs_set_counter p c : obs (set_counter p c).
Proof. apply obs_set_page. unfold shape, with_counter. cbn. congruence. Qed.
Lemma obs_set_cur p : obs (modify (set_cur p)).
Proof. intros s1 s2 K. split; [reflexivity|]. destruct K as [K1 K2 K3 K4 K5 K6 K7]. constructor; auto. Qed.
Lemma sim_labels s1 s2 t1 t2 : sim s1 s2 -> length t1 = length t2 -> 
  (forall l, loc_of (set_labels t1 s1) l = loc_of (set_labels t2 s2) l) -> (forall l, refs (set_labels t1 s1) l = D l ++ refs (set_labels t2 s2) l) ->
  sim (set_labels t1 s1) (set_labels t2 s2).
Proof. intros [K1 K2 K3 K4 K5 K6 K7] H1 H2 H3. constructor; auto. Qed.
Lemma upd_nth_at {A} (f : A -> A) : forall n l k, nth_error (upd_nth n f l) k = if Nat.eqb k n then option_map f (nth_error l k) else nth_error l k.
Proof. 
  induction n as [|n IH]; intros [|x l] [|k]; cbn [upd_nth nth_error Nat.eqb option_map]; try reflexivity.
  - destruct (Nat.eqb k n); reflexivity.
  - apply (IH l k).
Qed.
Lemma upd_nth_len {A} (f : A -> A) : forall n l, length (upd_nth n f l) = length l.
Proof. induction n as [|n IH]; intros [|x l]; cbn [upd_nth length]; try reflexivity. f_equal. apply (IH l). Qed.
Lemma obs_with_loc l x : obs (modify_label l (with_loc x)).
Proof.
  intros s1 s2 K. unfold modify_label. rewrite (sm_len _ _ K). destruct (l <? _)%nat; cbn [answer outcome]; (split; [reflexivity|]); [|exact K].
  apply sim_labels; [exact K|rewrite !upd_nth_len; apply (sm_len _ _ K)| |]; intro k;
    pose proof (sm_loc _ _ K k) as HL; pose proof (sm_refs _ _ K k) as HR; pose proof (sm_len _ _ K) as HN; unfold loc_of, refs in *; cbn [labels set_labels]; rewrite !upd_nth_at.
  - destruct (Nat.eqb k l); [|exact HL].
    destruct (nth_error (labels s1) k) eqn:E1, (nth_error (labels s2) k) eqn:E2; cbn [option_map]; try reflexivity.
    + apply nth_error_None in E2. assert (nth_error (labels s1) k <> None) as F by congruence. apply nth_error_Some in F. lia.
    + apply nth_error_None in E1. assert (nth_error (labels s2) k <> None) as F by congruence. apply nth_error_Some in F. lia.
  - destruct (Nat.eqb k l); [|exact HR].
    destruct (nth_error (labels s1) k) eqn:E1, (nth_error (labels s2) k) eqn:E2; cbn [option_map]; exact HR.
Qed.
Lemma obs_add_target l t : obs (modify_label l (add_target t)).
Proof.
  intros s1 s2 K. unfold modify_label. rewrite (sm_len _ _ K). destruct (l <? _)%nat; cbn [answer outcome]; (split; [reflexivity|]); [|exact K].
  apply sim_labels; [exact K|rewrite !upd_nth_len; apply (sm_len _ _ K)| |]; intro k;
    pose proof (sm_loc _ _ K k) as HL; pose proof (sm_refs _ _ K k) as HR; pose proof (sm_len _ _ K) as HN; unfold loc_of, refs in *; cbn [labels set_labels]; rewrite !upd_nth_at.
  - destruct (Nat.eqb k l); [|exact HL].
    destruct (nth_error (labels s1) k) eqn:E1, (nth_error (labels s2) k) eqn:E2; cbn [option_map]; exact HL.
  - destruct (Nat.eqb k l); [|exact HR].
    destruct (nth_error (labels s1) k) eqn:E1, (nth_error (labels s2) k) eqn:E2; cbn [option_map].
    + cbn [targets add_target]. rewrite HR, app_assoc. reflexivity.
    + apply nth_error_None in E2. assert (nth_error (labels s1) k <> None) as F by congruence. apply nth_error_Some in F. lia.
    + apply nth_error_None in E1. assert (nth_error (labels s2) k <> None) as F by congruence. apply nth_error_Some in F. lia.
    + exact HR.
Qed.
Lemma fresh_loc s l : loc_of (set_labels (labels s ++ [label_new]) s) l = loc_of s l.
Proof.
  unfold loc_of. cbn [labels set_labels]. destruct (Nat.lt_ge_cases l (length (labels s))) as [H|H]; [rewrite nth_error_app1 by exact H; reflexivity|].
  rewrite nth_error_app2 by exact H. rewrite (proj2 (nth_error_None _ _) H). destruct (l - length (labels s))%nat as [|[|n]]; reflexivity.
Qed.
Lemma fresh_refs s l : refs (set_labels (labels s ++ [label_new]) s) l = refs s l.
Proof.
  unfold refs. cbn [labels set_labels]. destruct (Nat.lt_ge_cases l (length (labels s))) as [H|H]; [rewrite nth_error_app1 by exact H; reflexivity|].
  rewrite nth_error_app2 by exact H. rewrite (proj2 (nth_error_None _ _) H). destruct (l - length (labels s))%nat as [|[|n]]; reflexivity.
Qed.
Lemma obs_new_label : obs new_label.
Proof.
  intros s1 s2 K. unfold new_label. cbn [answer outcome]. split; [rewrite (sm_len _ _ K); reflexivity|].
  apply sim_labels; [exact K|rewrite !app_length, (sm_len _ _ K); reflexivity| |]; intro l.
  - rewrite !fresh_loc. apply (sm_loc _ _ K).
  - rewrite !fresh_refs. apply (sm_refs _ _ K).
Qed.
End Done.
Create HintDb obs.
#[export] Hint Resolve obs_ret obs_fail obs_put obs_counter obs_set_counter obs_set_cur obs_with_loc obs_add_target obs_new_label obs_assert : obs.
Ltac obs1 := first
  [ solve [eauto 2 with obs nocore] | apply obs_on_cur; intro | apply obs_on_page; intro | apply obs_forM; intro | apply obs_repeatM
  | apply obs_bind; [|intros ?]
  | match goal with |- obs _ (match ?x with _ => _ end) => destruct x end | match goal with |- obs _ (if ?x then _ else _) => destruct x end
  | solve [apply obs_set_page; unfold shape; intros ? ? HH; cbn; congruence] ].
Ltac obss := repeat obs1.
Section Calls.
Variable D : label -> list target.
Notation obs := (obs D).
Lemma obs_emitb_on p v : obs (emitb_on p v). Proof. unfold emitb_on. obss. Qed.
Lemma obs_emitw_on p v : obs (emitw_on p v). Proof. unfold emitw_on. obss. Qed.
Lemma obs_emitl_on p v : obs (emitl_on p v). Proof. unfold emitl_on. obss. Qed.
Hint Resolve obs_emitb_on obs_emitw_on obs_emitl_on : obs.
Lemma obs_emitq_on p v : obs (emitq_on p v). Proof. unfold emitq_on. obss. Qed.
Hint Resolve obs_emitq_on : obs.
Lemma obs_emitb v : obs (emitb v). Proof. unfold emitb. obss. Qed.
Lemma obs_emitw v : obs (emitw v). Proof. unfold emitw. obss. Qed.
Lemma obs_emitl v : obs (emitl v). Proof. unfold emitl. obss. Qed.
Lemma obs_emitq v : obs (emitq v). Proof. unfold emitq. obss. Qed.
Hint Resolve obs_emitb obs_emitw obs_emitl obs_emitq : obs.
Lemma obs_emit bs : obs (emit bs). Proof. unfold emit. obss. Qed.
Lemma obs_align4 p : obs (align4_on p). Proof. unfold align4_on. obss. Qed.
Lemma obs_align8 p : obs (align8_on p). Proof. unfold align8_on. obss. Qed.
Lemma obs_align16 p : obs (align16_on p). Proof. unfold align16_on. obss. Qed.
Lemma obs_align_page p : obs (align_page_on p). Proof. unfold align_page_on. obss. Qed.
Hint Resolve obs_emit obs_align4 obs_align8 obs_align16 obs_align_page : obs.
Lemma obs_cop c p : obs (run_cop c p). Proof. destruct c; cbn [run_cop]; obss. Qed.
Lemma obs_bind_label_on p l : obs (bind_label_on p l). Proof. unfold bind_label_on. obss. Qed.
Lemma obs_save_reloc l off : obs (save_reloc l off). Proof. unfold save_reloc. obss. Qed.
Lemma obs_save_abs p l : obs (save_absolute_reloc p l). Proof. unfold save_absolute_reloc. obss. Qed.
Hint Resolve obs_cop obs_bind_label_on obs_save_reloc obs_save_abs : obs.
Lemma obs_create d : obs (create d).
Proof.
  destruct d; cbn [create]; unfold const_f64, const_i64, const_i32, constant, abs_address, const_align8, data_i64, data_i32, data_bytes, push_constant, push_data; obss.
Qed.
Lemma obs_resolve_constant id e : obs (resolve_constant_entry id e). Proof. unfold resolve_constant_entry. cbv zeta. obss. Qed.
Lemma obs_resolve_datum e : obs (resolve_data_entry e). Proof. unfold resolve_data_entry. cbv zeta. obss. Qed.
Hint Resolve obs_resolve_constant obs_resolve_datum obs_create : obs.
Lemma obs_get_shape {A} p (k : page -> M A) : (forall g h, shape g = shape h -> k g = k h) -> (forall g, obs (k g)) -> obs (bind ModelMem.get (fun s => k (pages s p))).
Proof. intros E H s1 s2 K. unfold bind, ModelMem.get. rewrite (E _ _ (sm_page _ _ _ K p)). apply H, K. Qed.
Lemma obs_resolve_constants : obs resolve_constants.
Proof.
  unfold resolve_constants. apply obs_forM. intro p. unfold resolve_constants_of.
  apply (obs_get_shape p (fun g => modify (set_page p (with_constants [])) ;; forM (constants g) (resolve_constant_entry p))).
  - unfold shape. intros g h H. assert (E : constants g = constants h) by congruence. rewrite E. reflexivity.
  - intro g. obss.
Qed.
Lemma obs_resolve_data : obs resolve_data.
Proof.
  unfold resolve_data. apply obs_forM. intro p. unfold resolve_data_of.
  apply (obs_get_shape p (fun g => modify (set_page p (with_data [])) ;; forM (data g) resolve_data_entry)).
  - unfold shape. intros g h H. assert (E : data g = data h) by congruence. rewrite E. reflexivity.
  - intro g. obss.
Qed.
(** The encoder and generated code. *)
Lemma obs_rex_fn k a b c d : obs (rex_fn k a b c d).
Proof. destruct k; cbn [rex_fn]; unfold rexw, rex_none, rex_none_byte, rex; obss. Qed.
Lemma obs_modrm a b c : obs (modrm a b c). Proof. unfold modrm. cbv zeta. obss. Qed.
Lemma obs_sib a b c : obs (sib a b c). Proof. unfold sib. obss. Qed.
Lemma obs_disp_imm d i : obs (emit_disp_imm d i). Proof. unfold emit_disp_imm. obss. Qed.
Hint Resolve obs_rex_fn obs_modrm obs_sib obs_disp_imm : obs.
Lemma obs_encode op rx mm r i : obs (encode op rx mm r i).
Proof. unfold encode. cbv zeta. obss. Qed.
Hint Resolve obs_encode : obs.
Variable ev : list tok -> env -> Z.
Variable lenv : string -> label.
Lemma obs_call r c : obs (run_call ev lenv r c).
Proof.
  destruct c; cbn [run_call]; unfold bind_label, enc_o, enc_oi, enc_oi_byte, enc_rexw_o, enc_mi, enc_rexw_mi, enc_mi_byte, enc_mr, enc_mr_byte, enc_rexw_mr, enc_m_byte, enc_d,
    enc_digit, enc_digit_imm, enc_digit_imm_byte, enc_rexw_digit, op_with_rd, rexw, rex_none, rex_none_byte, rex; obss.
Qed.
Lemma obs_exec : forall g r, obs (exec ev lenv r g).
Proof.
  induction g as [|c k IH|e k IH|c t1 IHt e1 IHe k IH|]; intro r; pose proof obs_call; cbn [exec]; obss.
Qed.
Lemma obs_exec_all : forall gs r, obs (exec_all ev lenv r gs).
Proof. induction gs as [|g gs IH]; intro r; cbn [exec_all]; [obss|]. apply obs_bind; [apply obs_exec|]. intro r'. apply IH. Qed.
End Calls.
#[export] Hint Resolve obs_emit obs_cop obs_bind_label_on obs_create obs_call obs_exec_all : obs.
Lemma obs_step D o : api o = true -> is_finalize o = false -> obs D (step o).
Proof. intros Ha Hf. destruct o; try discriminate Ha; try discriminate Hf; cbn [step]; unfold nolabel, bind_label, bind_label_with_page; obss. Qed.
