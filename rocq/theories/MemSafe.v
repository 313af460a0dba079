(** What holds whatever the calls are and however they end. *)
From Verif Require Import Base ModelMem ModelEnc ModelSyntax ModelMacro Trace Emit StateFid SpecState SpecHist MemInv MemStep MemFinal MemFill MemHist MemRun.
Local Notation length := List.length.

(** ** Bounds that survive panics *)
Definition target_w (t : target) : Prop := 0 <= fpos t <= PAGE_SIZE /\ off_ok t.
Definition info_w (i : label_info) : Prop :=
  (forall p x, loc i = Some (p, x) -> 0 <= x <= PAGE_SIZE) /\ Forall target_w (targets i).
Definition outside (b x : Z) : Prop := x < b \/ b + 3 * PAGE_SIZE <= x.
(** No encoder call fails with a relocation overflow. *)
Definition okp (t : trace) : Prop := snd t <> Some RelocOverflow.
Lemma okp_tseq a b : okp a -> okp b -> okp (tseq a b).
Proof. unfold okp, tseq. destruct a as [x [e|]], b as [y f]; cbn [fst snd]; intros Ha Hb; assumption. Qed.
Lemma okp_assert c : okp (tassert c).
Proof. destruct c; discriminate. Qed.
Lemma okp_di d i : okp (t_disp_imm d i).
Proof. unfold t_disp_imm. apply okp_tseq; [destruct d|destruct i]; discriminate. Qed.
Lemma okp_rex k a b c d : okp (t_rex_fn k a b c d).
Proof. unfold t_rex_fn. destruct k; unfold t_rexw, t_rex_none, t_rex_none_byte, t_rex; repeat match goal with |- context [if ?x then _ else _] => destruct x end; discriminate. Qed.
Lemma okp_modrm a b c : okp (t_modrm a b c). Proof. discriminate. Qed.
Lemma okp_sib a b c : okp (t_sib a b c).
Proof. unfold t_sib. repeat (apply okp_tseq; [apply okp_assert|]). discriminate. Qed.
Lemma okp_bytes bs : okp (tbytes bs). Proof. discriminate. Qed.
Opaque tseq tret tfail t_disp_imm t_modrm t_rex_fn t_sib tbytes.
Lemma okp_encode op rk mm r i : okp (t_encode op rk mm r i).
Proof.
  assert (N5 : okp tret) by discriminate.
  assert (N6 : okp (tfail Unimplemented)) by discriminate.
  unfold t_encode. apply okp_tseq; [apply okp_assert|].
  destruct r as [b [|[|k x] [|d|d|l]]]; cbn [rm_base rm_mode mode_disp mode_scale scale_index rip_ind_from mode_is_reg negb andb is_indirect_no_disp] in *;
  repeat match goal with |- context [if ?b then _ else _] => destruct b end;
  repeat first [ simple apply okp_tseq | simple apply okp_rex | simple apply okp_modrm | simple apply okp_sib | simple apply okp_bytes
    | simple apply N5 | simple apply N6 | simple apply okp_di ].
Qed.
Transparent tseq tret tfail t_disp_imm t_modrm t_rex_fn t_sib tbytes.
Section Calls.
Variables (ev : list tok -> env -> Z) (lenv : string -> label).
Lemma okp_call r c t : t_call ev lenv r c = Some t -> okp t.
Proof.
  assert (Hf : forall o g, okp (titem (IB (Z.lor o g)))) by discriminate.
  destruct c; cbn [t_call]; intros H; inversion H; subst; clear H; try (match goal with |- okp (t_encode _ _ _ _ _) => apply okp_encode end); try discriminate.
  - apply okp_tseq; [apply okp_assert|]. apply okp_tseq; [apply (okp_rex RexNone)|discriminate].
  - apply okp_tseq; [apply okp_assert|]. apply okp_tseq; [apply (okp_rex RexNone)|discriminate].
  - apply okp_tseq; [apply okp_assert|]. apply okp_tseq; [apply (okp_rex RexByte)|discriminate].
  - apply okp_tseq; [apply okp_assert|]. apply okp_tseq; [apply (okp_rex REXW)|discriminate].
  - unfold t_enc_digit_imm_byte. destruct (rm_is_rax _); [|destruct (rm_is_reg _); apply okp_encode].
    apply okp_tseq; [discriminate|]. apply okp_di.
Qed.
Lemma okp_exec g : forall r t, t_exec ev lenv r g = Some t -> okp t.
Proof.
  induction g as [|c k IH|e k IH|c t1 IHt e1 IHe k IH|]; intros r t H.
  - inversion H. discriminate.
  - assert (Hgen : match t_call ev lenv r c, t_exec ev lenv r k with Some a, Some b => Some (tseq a b) | _, _ => None end = Some t -> okp t).
    { intros E. destruct (t_call ev lenv r c) as [a|] eqn:Ea; [|discriminate]. destruct (t_exec ev lenv r k) as [b|] eqn:Eb; [|discriminate].
      inversion E; subst. apply okp_tseq; [eapply okp_call; exact Ea|eapply IH; exact Eb]. }
    destruct c; try (apply Hgen; exact H). clear Hgen. cbn [t_exec] in H.
    destruct k as [|c2 k2| | |]; try discriminate. destruct c2; try discriminate.
    destruct v; try discriminate.
    destruct (t_exec ev lenv r k2) as [b|] eqn:Eb; [|discriminate]. inversion H; subst.
    assert (IH' : okp (tseq (titem (IL 0)) b)). { apply (IH r). cbn [t_exec t_call]. rewrite Eb. reflexivity. }
    exact IH'.
  - cbn [t_exec] in *. eapply IH; eassumption.
  - cbn [t_exec] in *. destruct (run_cond ev r c) as [bb r'].
    destruct (if bb then t_exec ev lenv r' t1 else t_exec ev lenv r e1) as [a|] eqn:Ea; [|discriminate].
    destruct (t_exec ev lenv r k) as [b|] eqn:Eb; [|discriminate]. inversion H; subst.
    apply okp_tseq; [destruct bb; [eapply IHt|eapply IHe]|eapply IH]; eassumption.
  - inversion H. discriminate.
Qed.
End Calls.
Section Weak.
Variables (strict : bool) (b : Z) (m0 : Z -> Z).
Record W (s : jit) : Prop := mkW {
  w_base : base s = b;
  w_cnt : cnt_ok s;
  w_labels : Forall info_w (labels s);
  w_mem : strict = true -> forall x, outside b x -> mem s x = m0 x
}.
Definition safe {A} (m : M A) : Prop := forall s, W s ->
  match m s with Ok _ s' => W s' | Panic e s' => W s' /\ e <> RelocOverflow end.
Lemma safe_ret {A} (a : A) : safe (ret a). Proof. intros s H. exact H. Qed.
Lemma safe_fail {A} e : e <> RelocOverflow -> safe (@fail A e). Proof. intros He s H. split; assumption. Qed.
Lemma safe_bind {A B} (m : M A) (k : A -> M B) : safe m -> (forall a, safe (k a)) -> safe (bind m k).
Proof. intros Hm Hk s H. specialize (Hm s H). unfold bind. destruct (m s) as [a s1|e s1]; [apply Hk; exact Hm|exact Hm]. Qed.
Lemma safe_meq {A} (m n : M A) : m ≈ n -> safe n -> safe m.
Proof. intros E H s K. rewrite E. apply H, K. Qed.
Lemma safe_forM {A} (f : A -> M unit) : forall l, (forall x, In x l -> safe (f x)) -> safe (forM l f).
Proof.
  induction l as [|x l IH]; intro H; [apply safe_ret|]. cbn [forM]. apply safe_bind; [apply H; left; reflexivity|].
  intros _. apply IH. intros y Hy. apply H. right. exact Hy.
Qed.
Lemma safe_on_cur {A} (f : pid -> M A) : (forall p, safe (f p)) -> safe (on_cur f).
Proof. intros H s K. apply (H (cur s) s K). Qed.
Lemma safe_on_page {A} n (f : pid -> M A) : (forall p, safe (f p)) -> safe (on_page n f).
Proof. intro H. unfold on_page. destruct (pid_of n); [apply H|apply safe_fail; discriminate]. Qed.
Lemma W_framed p s s' : W s -> framed p s s' -> Forall info_w (labels s') -> W s'.
Proof.
  intros [B C L Mm] [F1 F2 F3 F4 F5 F6 F7] HL. constructor.
  - congruence.
  - intro q. destruct (pid_dec q p) as [->|Hq]; unfold cnt; [specialize (C p); unfold cnt in C; lia|]. rewrite (F6 q Hq). apply C.
  - exact HL.
  - intros Hs x Hx. rewrite F7; [apply Mm; assumption|]. specialize (C p). unfold outside, addr, contents, cnt, PAGE_SIZE in *. destruct p; cbn [pidx] in *; lia.
Qed.
Lemma safe_appends p bs m : appends p bs m -> safe m.
Proof.
  intros A s K. specialize (A s). destruct ((_ <=? _) || _) eqn:E in A.
  - destruct A as (s' & -> & A). eapply (W_framed p); [exact K|eapply framed_adv; [exact A|]|rewrite (adv_labels _ _ _ _ A); apply K].
    apply orb_true_iff in E. destruct E as [E|E]; [left; lia|right; destruct bs; [reflexivity|discriminate]].
  - destruct A as (s' & -> & F & L). split; [|discriminate]. eapply W_framed; eauto. rewrite L. apply K.
Qed.
Lemma W_set_cnt p c s : W s -> 0 <= c <= PAGE_SIZE -> W (set_cnt p c s).
Proof.
  intros [B C L Mm] Hc. constructor; auto. intro q. rewrite cnt_set_cnt. destruct (pid_eqb q p); [exact Hc|apply C].
Qed.
Lemma safe_align (m : M unit) p a : (forall s, m s = Ok tt (set_cnt p (align_up a (cnt s p)) s)) -> In a [1; 4; 8; 16; 4096] -> safe m.
Proof.
  intros E Ha s K. rewrite E. apply W_set_cnt; [exact K|]. pose proof (w_cnt _ K p) as Hc. split.
  - pose proof (align_up_spec a (cnt s p) ltac:(cbn in Ha; lia)). lia.
  - apply align_up_max; [exact Ha|apply Hc].
Qed.
Lemma safe_cop c p : safe (run_cop c p).
Proof.
  destruct c; cbn [run_cop].
  - eapply safe_appends, emitb_on_appends.
  - eapply safe_appends, emitw_on_appends.
  - eapply safe_appends, emitl_on_appends.
  - eapply safe_appends, emitq_on_appends.
  - eapply (safe_align _ p 4); [intro; apply align4_eq|cbn; auto].
  - eapply (safe_align _ p 8); [intro; apply align8_eq|cbn; auto].
  - eapply (safe_align _ p 16); [intro; apply align16_eq|cbn; auto].
  - eapply (safe_align _ p 4096); [intro; apply align_page_eq|cbn; auto 6].
Qed.
Lemma Forall_upd_nth {A} (P : A -> Prop) f n : forall l, (forall x, P x -> P (f x)) -> Forall P l -> Forall P (upd_nth n f l).
Proof.
  intros l Hf H. revert n. induction H as [|x l Hx H IH]; intro n; [destruct n; constructor|].
  destruct n; cbn; constructor; auto. apply IH.
Qed.
Lemma safe_modify_label l (f : jit -> label_info -> label_info) : (forall s i, W s -> info_w i -> info_w (f s i)) ->
  safe (fun s => modify_label l (f s) s).
Proof.
  intros Hf s K. unfold modify_label. destruct (l <? _)%nat; [|split; [exact K|discriminate]].
  pose proof K as [B C L Mm]. constructor; auto. cbn [labels set_labels]. apply Forall_upd_nth; auto.
Qed.
Lemma safe_bind_label p l : safe (bind_label_on p l).
Proof.
  apply (safe_modify_label l (fun s => with_loc (Some (p, counter (pages s p))))). intros s i K [_ H2]. split; [|exact H2].
  cbn [loc with_loc]. intros q x Hx. inversion Hx; subst. apply (w_cnt _ K q).
Qed.
Lemma safe_save_reloc l off : 0 <= off <= 255 -> safe (save_reloc l off).
Proof.
  intro Ho. apply (safe_modify_label l (fun s => add_target (Rel (cur s) off (counter (pages s (cur s)))))).
  intros s i K [H1 H2]. split; [exact H1|]. cbn [targets add_target]. apply Forall_app. split; [exact H2|].
  repeat constructor; cbn [fpos]; try apply (w_cnt _ K (cur s)); cbn; lia.
Qed.
Lemma safe_save_abs p l : safe (save_absolute_reloc p l).
Proof.
  apply (safe_modify_label l (fun s => add_target (Abs p (counter (pages s p))))).
  intros s i K [H1 H2]. split; [exact H1|]. cbn [targets add_target]. apply Forall_app. split; [exact H2|].
  repeat constructor; cbn [fpos]; apply (w_cnt _ K p).
Qed.
Lemma safe_emit bs : safe (emit bs).
Proof. intros s K. rewrite emit_meq. eapply safe_appends; [apply emit_on_appends|exact K]. Qed.
Lemma safe_item i : item_off_ok i -> safe (emit_item i).
Proof.
  intro Ho. destruct i as [v|v|v|v|bw l off]; cbn [emit_item].
  - apply safe_on_cur. intro p. apply (safe_cop (CEmitb v)).
  - apply safe_on_cur. intro p. apply (safe_cop (CEmitw v)).
  - apply safe_on_cur. intro p. apply (safe_cop (CEmitl v)).
  - apply safe_on_cur. intro p. apply (safe_cop (CEmitq v)).
  - apply safe_bind; [apply safe_save_reloc; exact Ho|]. intros _. destruct bw; [apply safe_emit|].
    apply safe_on_cur. intro p. apply (safe_cop (CEmitl 0)).
Qed.
Lemma safe_trace t : offs t -> okp t -> safe (run_trace t).
Proof.
  intros Ho He. unfold run_trace. apply safe_bind.
  - apply safe_forM. intros i Hi. apply safe_item. unfold offs in Ho. rewrite Forall_forall in Ho. apply Ho, Hi.
  - intros _. unfold okp in He. destruct (snd t); [apply safe_fail; congruence|apply safe_ret].
Qed.

(** Generated code and public encoder calls. *)
Lemma safe_call ev lenv r c : match c with GSaveReloc _ _ => False | _ => True end -> safe (run_call ev lenv r c).
Proof.
  intro Hc.
  assert (Hgen : forall t, t_call ev lenv r c = Some t -> safe (run_call ev lenv r c)).
  { intros t Ht. eapply safe_meq; [exact (acts_call ev lenv r c t Ht)|]. apply safe_trace; [eapply offs_call|eapply okp_call]; exact Ht. }
  destruct c; try contradiction; try (eapply Hgen; reflexivity). cbn [run_call]. apply safe_on_cur. intro p. apply safe_bind_label.
Qed.
Lemma safe_inst ev lenv r i g : compile i = Some g -> safe (exec ev lenv r g).
Proof.
  intro Hc.
  assert (Hgen : match i with ILabel _ => False | _ => True end -> safe (exec ev lenv r g)).
  { intro Hi. destruct (compile_has_trace ev lenv i g r Hc Hi) as [t Ht]. intros s K. rewrite (exec_run _ _ _ _ _ s Ht).
    assert (St := safe_trace t (offs_exec ev lenv g r t Ht (compile_offs _ _ Hc)) (okp_exec ev lenv g r t Ht) s K).
    destruct (run_trace t s); exact St. }
  destruct i; try (apply Hgen; exact I). inversion Hc; subst g. cbn [exec run_call g1].
  apply safe_bind; [apply safe_on_cur; intro p; apply safe_bind_label|intros _; apply safe_ret].
Qed.
Lemma safe_block ev lenv : forall body gs r, compile_all body = Some gs -> safe (exec_all ev lenv r gs).
Proof.
  induction body as [|i body IH]; intros gs r Hc.
  - inversion Hc; subst. apply safe_ret.
  - cbn [compile_all] in Hc. destruct (compile i) as [g|] eqn:Ei; [|discriminate]. destruct (compile_all body) as [gs'|]; [|discriminate].
    inversion Hc; subst. cbn [exec_all]. apply safe_bind; [eapply safe_inst; exact Ei|]. intro r'. apply IH. reflexivity.
Qed.
(** Writes at a position. *)
Lemma safe_put p pos v : 0 <= pos -> safe (put p pos v).
Proof.
  intros Hp s [B C L Mm]. unfold put. destruct (PAGE_SIZE <=? pos) eqn:E; [split; [constructor; assumption|discriminate]|].
  constructor; auto. cbn [mem set_mem]. intros Hs x Hx. unfold upd. destruct (x =? addr s p pos) eqn:Ex; [|apply Mm; assumption].
  exfalso. unfold outside, addr, contents, PAGE_SIZE in *. rewrite B in *. destruct p; cbn [pidx] in *; lia.
Qed.
Lemma safe_write32 p pos v : 0 <= pos -> safe (write32 p pos v).
Proof. intro H. unfold write32. repeat (apply safe_bind; [apply safe_put; lia|intros _]). apply safe_put; lia. Qed.
Lemma safe_write64 p pos v : 0 <= pos -> safe (write64 p pos v).
Proof. intro H. unfold write64. repeat (apply safe_bind; [apply safe_put; lia|intros _]). apply safe_put; lia. Qed.
Lemma safe_fill_target src t : b <= src <= b + 3 * PAGE_SIZE -> target_w t -> safe (fill_target src t).
Proof.
  intros Hs [Hp Ho]. destruct t as [p off pos|p pos]; cbn [fill_target fpos off_ok] in *; [|apply safe_write64; lia].
  intros s K. unfold bind, ModelMem.get.
  assert (Hd : in_i32 (src - (contents s p + pos + off)) = true).
  { pose proof (w_base _ K) as Hb. unfold in_i32, contents, PAGE_SIZE in *. rewrite Hb. destruct p; cbn [pidx]; lia. }
  cbv zeta. rewrite Hd. apply safe_write32; [lia|exact K].
Qed.
Lemma safe_fill_labels : forall reloc acc, Forall info_w reloc -> Forall info_w acc -> forall s, W s ->
  match fill_labels reloc acc s with Ok ls s' => W s' /\ Forall info_w ls | Panic e s' => W s' /\ e <> RelocOverflow end.
Proof.
  induction reloc as [|i r IH]; intros acc Hr Ha s K; cbn [fill_labels].
  - split; [exact K|apply Forall_rev, Ha].
  - inversion Hr as [|? ? Hi Hr']; subst. destruct Hi as [Hl Ht]. destruct (loc i) as [[p pos]|] eqn:El.
    + specialize (Hl p pos eq_refl). unfold bind at 1, ModelMem.get.
      assert (Sf : safe (forM (targets i) (fill_target (contents s p + pos)))).
      { apply safe_forM. intros t Hin. apply safe_fill_target; [|rewrite Forall_forall in Ht; apply Ht, Hin].
        pose proof (w_base _ K) as Hb. unfold contents, PAGE_SIZE in *. rewrite Hb. destruct p; cbn [pidx]; lia. }
      specialize (Sf s K). unfold bind. destruct (forM (targets i) (fill_target (contents s p + pos)) s) as [[] s1|e s1]; [|exact Sf].
      apply IH; [exact Hr'| |exact Sf]. constructor; [|exact Ha]. split; [|constructor]. cbn [loc].
      intros q x Hx. inversion Hx; subst. exact Hl.
    + apply IH; [exact Hr'| |exact K]. constructor; [|exact Ha]. split; [rewrite El; discriminate|exact Ht].
Qed.
Lemma W_set_labels ls s : W s -> Forall info_w ls -> W (set_labels ls s).
Proof. intros [B C L Mm] H. constructor; auto. Qed.
Lemma safe_fill : safe fill_relocs.
Proof.
  intros s K. unfold fill_relocs. unfold bind at 1, ModelMem.get. unfold bind at 1, modify.
  assert (K' : W (set_labels [] s)) by (apply W_set_labels; [exact K|constructor]).
  assert (F := safe_fill_labels (labels s) [] (w_labels _ K) ltac:(constructor) _ K'). unfold bind.
  destruct (fill_labels (labels s) [] (set_labels [] s)) as [ls s1|e s1]; [|exact F]. destruct F as [F1 F2]. apply W_set_labels; assumption.
Qed.
Lemma W_page p f s : W s -> (forall g, counter (f g) = counter g) -> W (set_page p f s).
Proof.
  intros [B C L Mm] H. constructor; auto. intro q. specialize (C q). unfold cnt in *. cbn [pages set_page].
  destruct (pid_eqb q p); [rewrite H|]; exact C.
Qed.
Lemma safe_page p f : (forall g, counter (f g) = counter g) -> safe (modify (set_page p f)).
Proof. intros H s K. apply W_page; assumption. Qed.
Lemma safe_repeat m : safe m -> forall n, safe (repeatM n m).
Proof. intros H n. induction n; cbn [repeatM]; [apply safe_ret|]. apply safe_bind; [exact H|intros _; exact IHn]. Qed.
Lemma safe_entry p e : safe (resolve_constant_entry p e).
Proof.
  unfold resolve_constant_entry. cbv zeta. destruct (fst e).
  - apply safe_bind; [apply (safe_cop CAlign16)|intros _]. apply safe_bind; [apply safe_bind_label|intros _]. apply (safe_cop (CEmitq v)).
  - apply safe_bind; [apply (safe_cop CAlign4)|intros _]. apply safe_bind; [apply safe_bind_label|intros _]. apply (safe_cop (CEmitl v)).
  - apply safe_bind; [apply (safe_cop CAlign16)|intros _]. apply safe_bind; [apply safe_bind_label|intros _]. apply safe_repeat, (safe_cop (CEmitb 0)).
  - apply safe_bind; [apply (safe_cop CAlign8)|intros _]. apply safe_bind; [apply safe_bind_label|intros _].
    apply safe_bind; [apply safe_save_abs|intros _]. apply (safe_cop (CEmitq 0)).
  - apply safe_bind; [apply (safe_cop CAlign8)|intros _]. apply safe_bind_label.
Qed.
Lemma safe_data_entry e : safe (resolve_data_entry e).
Proof. intros s. rewrite data_entry_eq. apply safe_entry. Qed.
Lemma safe_get_bind {A} (k : jit -> M A) : (forall s0, safe (k s0)) -> safe (s <- ModelMem.get ;; k s).
Proof. intros H s K. apply (H s s K). Qed.
Lemma safe_finalize : safe finalize.
Proof.
  unfold finalize. apply safe_bind; [apply safe_forM; intros p _; apply safe_page; reflexivity|intros _].
  apply safe_bind.
  { apply safe_forM. intros p _. apply safe_get_bind. intro s0. apply safe_bind; [apply safe_page; reflexivity|intros _].
    apply safe_forM. intros e _. apply safe_entry. }
  intros _. apply safe_bind.
  { apply safe_forM. intros p _. apply safe_get_bind. intro s0. apply safe_bind; [apply safe_page; reflexivity|intros _].
    apply safe_forM. intros e _. apply safe_data_entry. }
  intros _. apply safe_bind.
  { apply safe_forM. intros p _ s K. unfold close_block_on. destruct (set_last_end _ _); [apply W_page; [exact K|reflexivity]|split; [exact K|discriminate]]. }
  intros _. apply safe_bind; [apply safe_fill|intros _].
  apply safe_forM. intros p _. apply safe_page. reflexivity.
Qed.
Lemma safe_nolabel m : safe m -> safe (nolabel m).
Proof. intro H. apply safe_bind; [exact H|intros _; apply safe_ret]. Qed.
(** Calls that write only through the page abstraction. *)

Lemma u8_range off : 0 <= u8 off <= 255.
Proof. unfold u8. pose proof (Z.mod_pos_bound off 256). lia. Qed.
Lemma safe_label_address l : safe (get_label_address l).
Proof.
  unfold get_label_address. apply safe_bind.
  - intros s K. unfold get_label_pos. destruct (nth_error (labels s) l); [|split; [exact K|discriminate]]. destruct (loc l0); [exact K|split; [exact K|discriminate]].
  - intro x. apply safe_get_bind. intro s0. unfold codeptr. destruct (_ =? 0); [apply safe_fail; discriminate|apply safe_ret].
Qed.
Lemma safe_patch_address a d : strict = false -> safe (apply_jmp_patch_address a d).
Proof.
  intro Hs. unfold apply_jmp_patch_address. apply safe_bind; [apply safe_label_address|]. intros x s [B C L Mm]. constructor; auto. congruence.
Qed.
Lemma safe_step o : (strict = true -> is_patch o = false) -> safe (step o).
Proof.
  intro Hp. destruct o; cbn [step].
  - destruct n as [n|]; apply safe_nolabel; [apply safe_on_page|apply safe_on_cur]; intro p; apply safe_cop.
  - apply safe_nolabel, safe_emit.
  - destruct (compile_all body) as [gs|] eqn:Ec; [|apply safe_fail; discriminate]. apply safe_bind; [eapply safe_block; exact Ec|intros _; apply safe_ret].
  - destruct c; try (apply safe_nolabel, safe_call; exact I). apply safe_ret.
  - apply safe_nolabel. unfold select_page, assert. apply safe_bind; [destruct (n <? 2); [apply safe_ret|apply safe_fail; discriminate]|intros _].
    destruct (pid_of n); [|apply safe_fail; discriminate]. intros s [B C L Mm]. constructor; auto.
  - intros s K. cbn. apply W_set_labels; [exact K|]. apply Forall_app. split; [apply K|]. repeat constructor; discriminate.
  - apply safe_nolabel. apply safe_on_cur. intro p. apply safe_bind_label.
  - apply safe_nolabel. intro s. apply (safe_on_page n (fun p => bind_label_on p l)). intro p. apply safe_bind_label.
  - intros s K. unfold bind. rewrite create_eq. cbn [ret]. unfold created. apply W_page; [|intro g; destruct (is_data d); reflexivity].
    apply W_set_labels; [exact K|]. apply Forall_app. split; [apply K|]. repeat constructor; discriminate.
  - apply safe_nolabel, safe_finalize.
  - apply safe_nolabel, safe_save_reloc, u8_range.
  - destruct strict eqn:Es; [discriminate (Hp eq_refl)|]. apply safe_nolabel. apply safe_bind; [apply safe_label_address|]. intro a. apply safe_patch_address; exact Es.
  - destruct strict eqn:Es; [discriminate (Hp eq_refl)|]. apply safe_nolabel. apply safe_patch_address; exact Es.
  - apply safe_nolabel. unfold poke. apply safe_on_cur. intro p. apply safe_put. unfold u64. pose proof (Z.mod_pos_bound pos (2^64)). lia.
Qed.
Lemma safe_run_any : forall ops s, (strict = true -> forallb (fun o => negb (is_patch o)) ops = true) -> W s -> W (run_any ops s).
Proof.
  induction ops as [|o r IH]; intros s Hp K; [exact K|]. cbn [run_any].
  apply IH.
  - intro Hs. specialize (Hp Hs). cbn [forallb] in Hp. apply andb_true_iff in Hp. apply Hp.
  - assert (S := safe_step o). specialize (S ltac:(intro Hs; specialize (Hp Hs); cbn [forallb] in Hp; apply andb_true_iff in Hp; destruct (is_patch o); [discriminate (proj1 Hp)|reflexivity]) s K).
    destruct (step o s); tauto.
Qed.
End Weak.
Lemma W_new strict b m : W strict b m (jit_new b m).
Proof. constructor; cbn; auto. intro p. unfold cnt, PAGE_SIZE. cbn. lia. Qed.
