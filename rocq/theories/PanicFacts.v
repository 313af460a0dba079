(** What calls leave alone, however they end (C51). *)
From Verif Require Import Base ModelMem ModelEnc ModelSyntax ModelMacro Trace Emit StateFid SpecState SpecHist MemInv MemStep MemFinal MemFill MemHist MemRun MemSafe MemLocal SpecPanic.
Local Notation length := List.length.
Local Open Scope Z_scope.

(** ** A property kept by every primitive is kept by every call *)
Section Closed.
Variable K : jit -> Prop.
Definition keep {A} (m : M A) : Prop := forall s, K s -> K (outcome (m s)).
Hypothesis K_cnt : forall s, K s -> cnt_ok s.
Hypothesis K_framed : forall p s s', K s -> framed p s s' -> labels s' = labels s -> K s'.
Hypothesis K_set_cnt : forall p c s, K s -> cnt s p <= c <= PAGE_SIZE -> K (set_cnt p c s).
Hypothesis K_loc : forall p l s, K s -> (l < length (labels s))%nat -> K (set_labels (upd_nth l (with_loc (Some (p, cnt s p))) (labels s)) s).
Hypothesis K_ref : forall t l s, K s -> (l < length (labels s))%nat -> fpos t = cnt s (fpage t) -> K (set_labels (upd_nth l (add_target t) (labels s)) s).
Lemma keep_ret {A} (a : A) : keep (ret a). Proof. intros s H. exact H. Qed.
Lemma keep_fail {A} e : keep (@fail A e). Proof. intros s H. exact H. Qed.
Lemma keep_bind {A B} (m : M A) (k : A -> M B) : keep m -> (forall a, keep (k a)) -> keep (bind m k).
Proof. intros Hm Hk s H. specialize (Hm s H). unfold bind. destruct (m s) as [a s1|e s1]; [apply Hk; exact Hm|exact Hm]. Qed.
Lemma keep_meq {A} (m n : M A) : m ≈ n -> keep n -> keep m.
Proof. intros E H s Ks. rewrite E. apply H, Ks. Qed.
Lemma keep_forM {A} (f : A -> M unit) : forall l, (forall x, keep (f x)) -> keep (forM l f).
Proof.
  induction l as [|x l IH]; intro H; [apply keep_ret|]. cbn [forM]. apply keep_bind; [apply H|]. intros _. apply IH. exact H.
Qed.
Lemma keep_on_cur {A} (f : pid -> M A) : (forall p, keep (f p)) -> keep (on_cur f).
Proof. intros H s Ks. apply (H (cur s) s Ks). Qed.
Lemma keep_on_page {A} n (f : pid -> M A) : (forall p, keep (f p)) -> keep (on_page n f).
Proof. intro H. unfold on_page. destruct (pid_of n); [apply H|apply keep_fail]. Qed.
Lemma keep_appends p bs m : appends p bs m -> keep m.
Proof.
  clear K_loc K_ref K_cnt K_set_cnt.
  intros A s Ks. specialize (A s). destruct ((_ <=? _) || _) eqn:E in A.
  - destruct A as (s' & -> & A). eapply (K_framed p); [exact Ks|eapply framed_adv; [exact A|]|exact (adv_labels _ _ _ _ A)].
    apply orb_true_iff in E. destruct E as [E|E]; [left; lia|right; destruct bs; [reflexivity|discriminate]].
  - destruct A as (s' & -> & F & L). eapply K_framed; eauto.
Qed.
Lemma keep_align (m : M unit) p a : (forall s, m s = Ok tt (set_cnt p (align_up a (cnt s p)) s)) -> In a [1; 4; 8; 16; 4096] -> keep m.
Proof.
  clear K_loc K_ref.
  intros E Ha s Ks. rewrite E. apply K_set_cnt; [exact Ks|]. pose proof (K_cnt _ Ks p) as Hc. split.
  - pose proof (align_up_spec a (cnt s p) ltac:(cbn in Ha; lia)). lia.
  - apply align_up_max; [exact Ha|apply Hc].
Qed.
Lemma keep_cop c p : keep (run_cop c p).
Proof.
  destruct c; cbn [run_cop].
  - eapply keep_appends, emitb_on_appends.
  - eapply keep_appends, emitw_on_appends.
  - eapply keep_appends, emitl_on_appends.
  - eapply keep_appends, emitq_on_appends.
  - eapply (keep_align _ p 4); [intro; apply align4_eq|cbn; auto].
  - eapply (keep_align _ p 8); [intro; apply align8_eq|cbn; auto].
  - eapply (keep_align _ p 16); [intro; apply align16_eq|cbn; auto].
  - eapply (keep_align _ p 4096); [intro; apply align_page_eq|cbn; auto 6].
Qed.
Lemma keep_bind_label p l : keep (bind_label_on p l).
Proof.
  clear K_ref K_cnt K_set_cnt K_framed.
  intros s Ks. unfold bind_label_on, bind, get_counter, modify_label. destruct (l <? _)%nat eqn:E; [|exact Ks].
  apply Nat.ltb_lt in E. apply K_loc; assumption.
Qed.
Lemma keep_save_reloc l off : keep (save_reloc l off).
Proof.
  intros s Ks. unfold save_reloc, on_cur, bind, get_counter, modify_label. destruct (l <? _)%nat eqn:E; [|exact Ks].
  apply Nat.ltb_lt in E. apply K_ref; [exact Ks|exact E|reflexivity].
Qed.
Lemma keep_save_abs p l : keep (save_absolute_reloc p l).
Proof.
  intros s Ks. unfold save_absolute_reloc, bind, get_counter, modify_label. destruct (l <? _)%nat eqn:E; [|exact Ks].
  apply Nat.ltb_lt in E. apply K_ref; [exact Ks|exact E|reflexivity].
Qed.
Lemma keep_emit bs : keep (emit bs).
Proof. intros s Ks. rewrite emit_meq. eapply keep_appends; [apply emit_on_appends|exact Ks]. Qed.
Lemma keep_item i : keep (emit_item i).
Proof.
  destruct i as [v|v|v|v|bw l off]; cbn [emit_item].
  - apply keep_on_cur. intro p. apply (keep_cop (CEmitb v)).
  - apply keep_on_cur. intro p. apply (keep_cop (CEmitw v)).
  - apply keep_on_cur. intro p. apply (keep_cop (CEmitl v)).
  - apply keep_on_cur. intro p. apply (keep_cop (CEmitq v)).
  - apply keep_bind; [apply keep_save_reloc|]. intros _. destruct bw; [apply keep_emit|].
    apply keep_on_cur. intro p. apply (keep_cop (CEmitl 0)).
Qed.
Lemma keep_trace t : keep (run_trace t).
Proof.
  unfold run_trace. apply keep_bind; [apply keep_forM; intros i; apply keep_item|].
  intros _. destruct (snd t); [apply keep_fail|apply keep_ret].
Qed.
Lemma keep_call ev lenv r c : match c with GSaveReloc _ _ => False | _ => True end -> keep (run_call ev lenv r c).
Proof.
  intro Hc.
  assert (Hgen : forall t, t_call ev lenv r c = Some t -> keep (run_call ev lenv r c)).
  { intros t Ht. eapply keep_meq; [exact (acts_call ev lenv r c t Ht)|]. apply keep_trace. }
  destruct c; try contradiction; try (eapply Hgen; reflexivity). cbn [run_call]. apply keep_on_cur. intro p. apply keep_bind_label.
Qed.
Lemma keep_inst ev lenv r i g : compile i = Some g -> keep (exec ev lenv r g).
Proof.
  intro Hc.
  assert (Hgen : match i with ILabel _ => False | _ => True end -> keep (exec ev lenv r g)).
  { intro Hi. destruct (compile_has_trace ev lenv i g r Hc Hi) as [t Ht]. intros s Ks. rewrite (exec_run _ _ _ _ _ s Ht).
    assert (St := keep_trace t s Ks). destruct (run_trace t s); exact St. }
  destruct i; try (apply Hgen; exact I). inversion Hc; subst g. cbn [exec run_call g1].
  apply keep_bind; [apply keep_on_cur; intro p; apply keep_bind_label|intros _; apply keep_ret].
Qed.
Lemma keep_block ev lenv : forall body gs r, compile_all body = Some gs -> keep (exec_all ev lenv r gs).
Proof.
  induction body as [|i body IH]; intros gs r Hc.
  - inversion Hc; subst. apply keep_ret.
  - cbn [compile_all] in Hc. destruct (compile i) as [g|] eqn:Ei; [|discriminate]. destruct (compile_all body) as [gs'|]; [|discriminate].
    inversion Hc; subst. cbn [exec_all]. apply keep_bind; [eapply keep_inst; exact Ei|]. intro r'. apply IH. reflexivity.
Qed.
Lemma keep_nolabel m : keep m -> keep (nolabel m).
Proof. intro H. apply keep_bind; [exact H|intros _; apply keep_ret]. Qed.
Lemma keep_repeat m : keep m -> forall n, keep (repeatM n m).
Proof. intros H n. induction n; cbn [repeatM]; [apply keep_ret|]. apply keep_bind; [exact H|intros _; exact IHn]. Qed.
Lemma keep_entry p e : keep (resolve_constant_entry p e).
Proof.
  unfold resolve_constant_entry. cbv zeta. destruct (fst e).
  - apply keep_bind; [apply (keep_cop CAlign16)|intros _]. apply keep_bind; [apply keep_bind_label|intros _]. apply (keep_cop (CEmitq v)).
  - apply keep_bind; [apply (keep_cop CAlign4)|intros _]. apply keep_bind; [apply keep_bind_label|intros _]. apply (keep_cop (CEmitl v)).
  - apply keep_bind; [apply (keep_cop CAlign16)|intros _]. apply keep_bind; [apply keep_bind_label|intros _]. apply keep_repeat, (keep_cop (CEmitb 0)).
  - apply keep_bind; [apply (keep_cop CAlign8)|intros _]. apply keep_bind; [apply keep_bind_label|intros _].
    apply keep_bind; [apply keep_save_abs|intros _]. apply (keep_cop (CEmitq 0)).
  - apply keep_bind; [apply (keep_cop CAlign8)|intros _]. apply keep_bind_label.
Qed.
Lemma keep_data_entry e : keep (resolve_data_entry e).
Proof. intros s. rewrite data_entry_eq. apply keep_entry. Qed.

Section Ops.
Hypothesis K_cur : forall p s, K s -> K (set_cur p s).
Hypothesis K_new : forall s, K s -> K (set_labels (labels s ++ [label_new]) s).
Hypothesis K_created : forall d s, K s -> K (created d s).
Lemma keep_step o : is_over o = false -> is_finalize o = false -> keep (step o).
Proof.
  intros Ho Hf. destruct o; cbn [step]; try discriminate.
  - destruct n as [n|]; apply keep_nolabel; [apply keep_on_page|apply keep_on_cur]; intro p; apply keep_cop.
  - apply keep_nolabel, keep_emit.
  - destruct (compile_all body) as [gs|] eqn:Ec; [|apply keep_fail]. apply keep_bind; [eapply keep_block; exact Ec|intros _; apply keep_ret].
  - destruct c; try (apply keep_nolabel, keep_call; exact I). apply keep_ret.
  - apply keep_nolabel. unfold select_page, assert. apply keep_bind; [destruct (n <? 2); [apply keep_ret|apply keep_fail]|intros _].
    destruct (pid_of n); [|apply keep_fail]. intros s Ks. apply K_cur, Ks.
  - intros s Ks. apply K_new, Ks.
  - apply keep_nolabel. apply keep_on_cur. intro p. apply keep_bind_label.
  - apply keep_nolabel. intro s. apply (keep_on_page n (fun p => bind_label_on p l)). intro p. apply keep_bind_label.
  - intros s Ks. unfold bind. rewrite create_eq. cbn [ret outcome]. apply K_created, Ks.
  - apply keep_nolabel, keep_save_reloc.
Qed.
End Ops.
End Closed.

(** ** Every call but finalize and those that overwrite code *)
Lemma byte_framed p s s' q x : framed p s s' -> cnt_ok s -> 0 <= x < cnt s q -> byte s' q x = byte s q x.
Proof.
  intros F C Hx. unfold byte, addr, contents. rewrite (fr_base _ _ _ F). apply (fr_mem _ _ _ F).
  pose proof (C p). pose proof (C q). unfold addr, contents, cnt, PAGE_SIZE in *. destruct p, q; cbn [pidx]; lia.
Qed.
Lemma cnt_framed p s s' q : framed p s s' -> cnt s q <= cnt s' q.
Proof.
  intros F. unfold cnt. destruct (pid_dec q p) as [->|Hq]; [apply (fr_counter _ _ _ F)|]. rewrite (fr_others _ _ _ F q Hq). lia.
Qed.
Lemma cnt_ok_framed p s s' : framed p s s' -> cnt_ok s -> cnt_ok s'.
Proof.
  intros F C q. pose proof (C q). pose proof (cnt_framed p s s' q F). pose proof (fr_bound _ _ _ F). unfold cnt in *.
  destruct (pid_dec q p) as [->|Hq]; [lia|]. rewrite (fr_others _ _ _ F q Hq) in *. lia.
Qed.
Lemma page_framed {A} p s s' q (f : page -> A) : framed p s s' -> (forall c g, f (with_counter c g) = f g) -> f (pages s' q) = f (pages s q).
Proof.
  intros F H. destruct (pid_dec q p) as [->|Hq]; [rewrite (fr_page _ _ _ F), H; reflexivity|]. rewrite (fr_others _ _ _ F q Hq). reflexivity.
Qed.
Lemma refs_labels s s' l : labels s' = labels s -> refs s' l = refs s l. Proof. unfold refs. intros ->. reflexivity. Qed.
Lemma loc_labels s s' l : labels s' = labels s -> loc_of s' l = loc_of s l. Proof. unfold loc_of. intros ->. reflexivity. Qed.
Lemma refs_upd_ref s l t k : refs (set_labels (upd_nth l (add_target t) (labels s)) s) k = refs s k \/
  refs (set_labels (upd_nth l (add_target t) (labels s)) s) k = refs s k ++ [t].
Proof.
  unfold refs. cbn [labels set_labels]. rewrite upd_nth_nth. destruct (k =? l)%nat; [|left; reflexivity].
  destruct (nth_error (labels s) k); [right; reflexivity|left; reflexivity].
Qed.
Lemma loc_upd_ref s l t k : loc_of (set_labels (upd_nth l (add_target t) (labels s)) s) k = loc_of s k.
Proof. unfold loc_of. cbn [labels set_labels]. rewrite upd_nth_nth. destruct (k =? l)%nat; [|reflexivity]. destruct (nth_error (labels s) k); reflexivity. Qed.
Lemma refs_upd_locs s l x k : refs (set_labels (upd_nth l (with_loc x) (labels s)) s) k = refs s k.
Proof. unfold refs. cbn [labels set_labels]. rewrite upd_nth_nth. destruct (k =? l)%nat; [|reflexivity]. destruct (nth_error (labels s) k); reflexivity. Qed.
Lemma loc_upd_locs s l p x k : loc_of s k <> None -> loc_of (set_labels (upd_nth l (with_loc (Some (p, x))) (labels s)) s) k <> None.
Proof.
  unfold loc_of. cbn [labels set_labels]. rewrite upd_nth_nth. destruct (k =? l)%nat; [|tauto]. destruct (nth_error (labels s) k); [discriminate|tauto].
Qed.
Lemma refs_app s i k : refs (set_labels (labels s ++ [label_new]) i) k = refs s k.
Proof.
  unfold refs. cbn [labels set_labels]. destruct (Nat.lt_ge_cases k (length (labels s))) as [H|H]; [rewrite nth_error_app1 by exact H; reflexivity|].
  rewrite nth_error_app2 by exact H. rewrite (proj2 (nth_error_None (labels s) k)) by exact H.
  destruct (k - length (labels s))%nat as [|[|n]]; reflexivity.
Qed.
Lemma loc_app s i k : loc_of (set_labels (labels s ++ [label_new]) i) k = loc_of s k.
Proof.
  unfold loc_of. cbn [labels set_labels]. destruct (Nat.lt_ge_cases k (length (labels s))) as [H|H]; [rewrite nth_error_app1 by exact H; reflexivity|].
  rewrite nth_error_app2 by exact H. rewrite (proj2 (nth_error_None (labels s) k)) by exact H.
  destruct (k - length (labels s))%nat as [|[|n]]; reflexivity.
Qed.
Lemma bound_loc s l : label_addr s l <> None <-> loc_of s l <> None.
Proof. unfold label_addr. destruct (loc_of s l) as [[p x]|]; split; congruence. Qed.

Record K1 (s0 s : jit) : Prop := mkK1 {
  k1_cnt : cnt_ok s;
  k1_base : base s = base s0;
  k1_cur : forall p, cnt s0 p <= cnt s p;
  k1_mem : forall p x, 0 <= x < cnt s0 p -> byte s p x = byte s0 p x;
  k1_len : (length (labels s0) <= length (labels s))%nat;
  k1_loc : forall l, loc_of s0 l <> None -> loc_of s l <> None;
  k1_refs : forall l t, In t (refs s0 l) -> In t (refs s l);
  k1_consts : forall p e, In e (constants (pages s0 p)) -> In e (constants (pages s p));
  k1_data : forall p e, In e (data (pages s0 p)) -> In e (data (pages s p));
  k1_blocks : forall p, code_block (pages s p) = code_block (pages s0 p) /\
    code_block_top (pages s p) = code_block_top (pages s0 p) /\ code_len (pages s p) = code_len (pages s0 p)
}.
Lemma K1_refl s : cnt_ok s -> K1 s s.
Proof. intro C. constructor; auto; lia. Qed.
Lemma K1_step s0 o : is_over o = false -> is_finalize o = false -> keep (K1 s0) (step o).
Proof.
  intros Ho Hf. apply keep_step; auto; clear o Ho Hf.
  - intros s []. assumption.
  - intros p s s' [C B Q Mm L Lo R Co D Bl] F HL. constructor.
    + eapply cnt_ok_framed; eassumption.
    + rewrite (fr_base _ _ _ F). exact B.
    + intro q. specialize (Q q). pose proof (cnt_framed p s s' q F). lia.
    + intros q x Hx. specialize (Q q). rewrite (byte_framed p s s' q x F C) by lia. apply Mm, Hx.
    + rewrite HL. exact L.
    + intros l H. rewrite (loc_labels s s' l HL). apply Lo, H.
    + intros l t H. rewrite (refs_labels s s' l HL). apply R, H.
    + intros q e H. rewrite (page_framed p s s' q constants F) by reflexivity. apply Co, H.
    + intros q e H. rewrite (page_framed p s s' q data F) by reflexivity. apply D, H.
    + intros q. rewrite (page_framed p s s' q code_block F), (page_framed p s s' q code_block_top F), (page_framed p s s' q code_len F) by reflexivity. apply Bl.
  - intros p c s [C B Q Mm L Lo R Co D Bl] Hc. constructor; auto.
    + intro q. rewrite cnt_set_cnt. specialize (C q). destruct (pid_eqb q p) eqn:E; [apply pid_eqb_eq in E; subst; lia|exact C].
    + intro q. rewrite cnt_set_cnt. specialize (Q q). destruct (pid_eqb q p) eqn:E; [apply pid_eqb_eq in E; subst; lia|exact Q].
    + intros q e H. cbn [pages set_cnt set_page]. destruct (pid_eqb q p); apply Co, H.
    + intros q e H. cbn [pages set_cnt set_page]. destruct (pid_eqb q p); apply D, H.
    + intros q. cbn [pages set_cnt set_page]. destruct (pid_eqb q p); apply Bl.
  - intros p l s [C B Q Mm L Lo R Co D Bl] Hl. constructor; auto.
    + cbn [labels set_labels]. rewrite upd_nth_length. exact L.
    + intros k H. apply loc_upd_locs, Lo, H.
    + intros k t H. rewrite refs_upd_locs. apply R, H.
  - intros t l s [C B Q Mm L Lo R Co D Bl] Hl Ht. constructor; auto.
    + cbn [labels set_labels]. rewrite upd_nth_length. exact L.
    + intros k H. rewrite loc_upd_ref. apply Lo, H.
    + intros k u H. destruct (refs_upd_ref s l t k) as [->| ->]; [apply R, H|apply in_or_app; left; apply R, H].
  - intros p s [C B Q Mm L Lo R Co D Bl]. constructor; auto.
  - intros s [C B Q Mm L Lo R Co D Bl]. constructor; auto.
    + cbn [labels set_labels]. rewrite app_length. lia.
    + intros k H. rewrite loc_app. apply Lo, H.
    + intros k t H. rewrite refs_app. apply R, H.
  - intros d s [C B Q Mm L Lo R Co D Bl]. unfold created.
    assert (Hp : forall q, cnt (set_page (cur s) (fun g => if is_data d then with_data (data g ++ [(dtype_of d, length (labels s))]) g
        else with_constants (constants g ++ [(dtype_of d, length (labels s))]) g) (set_labels (labels s ++ [label_new]) s)) q = cnt s q).
    { intro q. unfold cnt. cbn [pages set_page set_labels]. destruct (pid_eqb q (cur s)); [destruct (is_data d)|]; reflexivity. }
    constructor; auto.
    + intro q. rewrite Hp. apply C.
    + intro q. rewrite Hp. apply Q.
    + cbn [labels set_page set_labels]. rewrite app_length. lia.
    + intros k H. rewrite (loc_labels (set_labels (labels s ++ [label_new]) s)) by reflexivity. rewrite loc_app. apply Lo, H.
    + intros k t H. rewrite (refs_labels (set_labels (labels s ++ [label_new]) s)) by reflexivity. rewrite refs_app. apply R, H.
    + intros q e H. cbn [pages set_page set_labels]. destruct (pid_eqb q (cur s)); [destruct (is_data d)|]; cbn [constants with_data with_constants]; try (apply Co, H). apply in_or_app. left. apply Co, H.
    + intros q e H. cbn [pages set_page set_labels]. destruct (pid_eqb q (cur s)); [destruct (is_data d)|]; cbn [data with_data with_constants]; try (apply D, H). apply in_or_app. left. apply D, H.
    + intros q. cbn [pages set_page set_labels]. destruct (pid_eqb q (cur s)); [destruct (is_data d)|]; cbn [code_block code_block_top code_len with_data with_constants]; apply Bl.
Qed.

(** ** finalize *)
Section Final.
Variable s0 : jit.
(** What holds while constants are placed, and what holds between two of them. *)
Record K2 (s : jit) : Prop := mkK2 {
  k2_cnt : cnt_ok s;
  k2_base : base s = base s0;
  k2_cur : forall p, cnt s0 p <= cnt s p;
  k2_mem : forall p x, 0 <= x < cnt s0 p -> byte s p x = byte s0 p x;
  k2_len : length (labels s) = length (labels s0);
  k2_loc : forall l, loc_of s0 l <> None -> loc_of s l <> None
}.
Definition K3 (s : jit) : Prop := K2 s /\
  forall l t, In t (refs s l) -> In t (refs s0 l) \/ (cnt s0 (fpage t) <= fpos t /\ fpos t + flen t <= cnt s (fpage t)).
Definition keep2 {A} (m : M A) : Prop := forall s, K3 s -> match m s with Ok _ s' => K3 s' | Panic _ s' => K2 s' end.
Lemma keep2_of {A} (m : M A) : keep K3 m -> keep2 m.
Proof. intros H s Ks. specialize (H s Ks). destruct (m s); [exact H|apply H]. Qed.
Lemma keep2_bind {A B} (m : M A) (k : A -> M B) : keep2 m -> (forall a, keep2 (k a)) -> keep2 (bind m k).
Proof. intros Hm Hk s H. specialize (Hm s H). unfold bind. destruct (m s) as [a s1|e s1]; [apply Hk; exact Hm|exact Hm]. Qed.
Lemma keep2_ret {A} (a : A) : keep2 (ret a). Proof. intros s H. exact H. Qed.
Lemma keep2_forM {A} (f : A -> M unit) : forall l, (forall x, keep2 (f x)) -> keep2 (forM l f).
Proof.
  induction l as [|x l IH]; intro H; [apply keep2_ret|]. cbn [forM]. apply keep2_bind; [apply H|]. intros _. apply IH. exact H.
Qed.
Lemma K2_framed p s s' : K2 s -> framed p s s' -> labels s' = labels s -> K2 s'.
Proof.
  intros [C B Q Mm L Lo] F HL. constructor.
  - eapply cnt_ok_framed; eassumption.
  - rewrite (fr_base _ _ _ F). exact B.
  - intro q. specialize (Q q). pose proof (cnt_framed p s s' q F). lia.
  - intros q x Hx. specialize (Q q). rewrite (byte_framed p s s' q x F C) by lia. apply Mm, Hx.
  - rewrite HL. exact L.
  - intros l H. rewrite (loc_labels s s' l HL). apply Lo, H.
Qed.
Lemma K3_framed p s s' : K3 s -> framed p s s' -> labels s' = labels s -> K3 s'.
Proof.
  intros [K R] F HL. split; [eapply K2_framed; eassumption|]. intros l t H. rewrite (refs_labels s s' l HL) in H.
  destruct (R l t H) as [H1|H1]; [left; exact H1|right]. pose proof (cnt_framed p s s' (fpage t) F). lia.
Qed.
Lemma K2_set_cnt p c s : K2 s -> cnt s p <= c <= PAGE_SIZE -> K2 (set_cnt p c s).
Proof.
  intros [C B Q Mm L Lo] Hc. constructor; auto.
  - intro q. rewrite cnt_set_cnt. specialize (C q). destruct (pid_eqb q p) eqn:E; [apply pid_eqb_eq in E; subst; lia|exact C].
  - intro q. rewrite cnt_set_cnt. specialize (Q q). destruct (pid_eqb q p) eqn:E; [apply pid_eqb_eq in E; subst; lia|exact Q].
Qed.
Lemma K3_set_cnt p c s : K3 s -> cnt s p <= c <= PAGE_SIZE -> K3 (set_cnt p c s).
Proof.
  intros [K R] Hc. split; [apply K2_set_cnt; assumption|]. intros l t H. destruct (R l t H) as [H1|H1]; [left; exact H1|right].
  rewrite cnt_set_cnt. destruct (pid_eqb (fpage t) p) eqn:E; [apply pid_eqb_eq in E; rewrite E in *; lia|exact H1].
Qed.
Lemma K2_loc p l s x : K2 s -> K2 (set_labels (upd_nth l (with_loc (Some (p, x))) (labels s)) s).
Proof.
  intros [C B Q Mm L Lo]. constructor; auto.
  - cbn [labels set_labels]. rewrite upd_nth_length. exact L.
  - intros k H. apply loc_upd_locs, Lo, H.
Qed.
Lemma K3_loc p l s : K3 s -> (l < length (labels s))%nat -> K3 (set_labels (upd_nth l (with_loc (Some (p, cnt s p))) (labels s)) s).
Proof. intros [K R] _. split; [apply K2_loc, K|]. intros k t H. rewrite refs_upd_locs in H. apply R, H. Qed.
Lemma K2_ref t l s : K2 s -> K2 (set_labels (upd_nth l (add_target t) (labels s)) s).
Proof.
  intros [C B Q Mm L Lo]. constructor; auto.
  - cbn [labels set_labels]. rewrite upd_nth_length. exact L.
  - intros k H. rewrite loc_upd_ref. apply Lo, H.
Qed.
Lemma K3_cop c p : keep2 (run_cop c p).
Proof. apply keep2_of, keep_cop; [intros s [[] _]; assumption|apply K3_framed|apply K3_set_cnt]. Qed.
Lemma K3_bind p l : keep2 (bind_label_on p l).
Proof. apply keep2_of, keep_bind_label. apply K3_loc. Qed.
Lemma K3_repeat m : keep2 m -> forall n, keep2 (repeatM n m).
Proof. intros H n. induction n; cbn [repeatM]; [apply keep2_ret|]. apply keep2_bind; [exact H|intros _; exact IHn]. Qed.
Lemma K3_abs p l : keep2 (save_absolute_reloc p l ;; emitq_on p 0).
Proof.
  intros s [K R]. unfold bind at 1, save_absolute_reloc, bind, get_counter, modify_label.
  destruct (l <? length (labels s))%nat; [|exact K].
  set (s1 := set_labels _ s).
  assert (K1' : K2 s1) by (apply K2_ref, K).
  assert (R1 : forall k t, In t (refs s1 k) -> In t (refs s k) \/ t = Abs p (cnt s p)).
  { intros k t H. unfold s1 in H. destruct (refs_upd_ref s l (Abs p (counter (pages s p))) k) as [E|E]; rewrite E in H; [left; exact H|].
    apply in_app_or in H. destruct H as [H|[H|[]]]; [left; exact H|right; symmetry; exact H]. }
  assert (A := emitq_on_appends p 0 s1). destruct ((_ <=? _) || _) eqn:E in A.
  - destruct A as (s' & -> & A). assert (F : framed p s1 s').
    { eapply framed_adv; [exact A|]. left. rewrite le_length in *. cbn [Nat.eqb] in E. rewrite orb_false_r in E. lia. }
    split; [eapply K2_framed; [exact K1'|exact F|exact (adv_labels _ _ _ _ A)]|].
    intros k t H. rewrite (refs_labels s1 s' k (adv_labels _ _ _ _ A)) in H. destruct (R1 k t H) as [H1|H1].
    + destruct (R k t H1) as [H2|H2]; [left; exact H2|right]. pose proof (cnt_framed p s1 s' (fpage t) F). change (cnt s1 (fpage t)) with (cnt s (fpage t)) in *. lia.
    + subst t. right. cbn [fpage fpos flen]. pose proof (k2_cur _ K p). split; [lia|]. unfold cnt at 2. rewrite (adv_page _ _ _ _ A). cbn [counter with_counter].
      rewrite le_length. change (counter (pages s1 p)) with (cnt s p). lia.
  - destruct A as (s' & -> & F & L). eapply K2_framed; eassumption.
Qed.
Lemma K3_entry p e : keep2 (resolve_constant_entry p e).
Proof.
  unfold resolve_constant_entry. cbv zeta. destruct (fst e).
  - apply keep2_bind; [apply (K3_cop CAlign16)|intros _]. apply keep2_bind; [apply K3_bind|intros _]. apply (K3_cop (CEmitq v)).
  - apply keep2_bind; [apply (K3_cop CAlign4)|intros _]. apply keep2_bind; [apply K3_bind|intros _]. apply (K3_cop (CEmitl v)).
  - apply keep2_bind; [apply (K3_cop CAlign16)|intros _]. apply keep2_bind; [apply K3_bind|intros _]. apply K3_repeat, (K3_cop (CEmitb 0)).
  - apply keep2_bind; [apply (K3_cop CAlign8)|intros _]. apply keep2_bind; [apply K3_bind|intros _]. apply K3_abs.
  - apply keep2_bind; [apply (K3_cop CAlign8)|intros _]. apply K3_bind.
Qed.
Lemma K3_data_entry e : keep2 (resolve_data_entry e).
Proof. intros s. rewrite data_entry_eq. apply K3_entry. Qed.
Lemma K2_page p f s : K2 s -> (forall g, counter (f g) = counter g) -> K2 (set_page p f s).
Proof.
  intros [C B Q Mm L Lo] H.
  assert (E : forall q, cnt (set_page p f s) q = cnt s q) by (intro q; unfold cnt; cbn [pages set_page]; destruct (pid_eqb q p); [apply H|reflexivity]).
  constructor; auto; intro q; rewrite E; [apply C|apply Q].
Qed.
Lemma K3_page p f s : K3 s -> (forall g, counter (f g) = counter g) -> K3 (set_page p f s).
Proof.
  intros [K R] H.
  assert (E : forall q, cnt (set_page p f s) q = cnt s q) by (intro q; unfold cnt; cbn [pages set_page]; destruct (pid_eqb q p); [apply H|reflexivity]).
  split; [apply K2_page; assumption|]. intros l t Ht. rewrite E. apply R. exact Ht.
Qed.
Lemma K3_mpage p f : (forall g, counter (f g) = counter g) -> keep2 (modify (set_page p f)).
Proof. intros H s Ks. apply K3_page; assumption. Qed.
Lemma K3_get {A} (k : jit -> M A) : (forall s1, keep2 (k s1)) -> keep2 (s <- ModelMem.get ;; k s).
Proof. intros H s Ks. apply (H s s Ks). Qed.

(** The part of finalize before the relocations. *)
Definition placing : M unit :=
  forM all_pages (fun p => modify (set_page p open_block)) ;; resolve_constants ;; resolve_data ;; forM all_pages close_block_on.
Lemma K3_placing : keep2 placing.
Proof.
  unfold placing. apply keep2_bind; [apply keep2_forM; intros p; apply K3_mpage; reflexivity|intros _].
  apply keep2_bind.
  { apply keep2_forM. intros p. apply K3_get. intro s1. apply keep2_bind; [apply K3_mpage; reflexivity|intros _].
    apply keep2_forM. intros e. apply K3_entry. }
  intros _. apply keep2_bind.
  { apply keep2_forM. intros p. apply K3_get. intro s1. apply keep2_bind; [apply K3_mpage; reflexivity|intros _].
    apply keep2_forM. intros e. apply K3_data_entry. }
  intros _. apply keep2_forM. intros p s Ks. unfold close_block_on. destruct (set_last_end _ _); [apply K3_page; [exact Ks|reflexivity]|apply Ks].
Qed.
End Final.
Lemma finalize_split s : finalize s = (placing ;; fill_relocs ;; forM all_pages (fun p => modify (set_page p (fun g => with_top (counter g) g)))) s.
Proof.
  unfold finalize, placing, bind. destruct (forM all_pages (fun p => modify (set_page p open_block)) s) as [? s1|]; [|reflexivity].
  destruct (resolve_constants s1) as [? s2|]; [|reflexivity]. destruct (resolve_data s2) as [? s3|]; [|reflexivity]. destruct (forM all_pages close_block_on s3); reflexivity.
Qed.

(** The relocations: only fields are written. *)
Definition infield (ts : list target) (p : pid) (x : Z) : Prop := exists t, In t ts /\ in_field t p x.
Record only (ts : list target) (s s' : jit) : Prop := mkOnly {
  o_base : base s' = base s;
  o_pages : pages s' = pages s;
  o_labels : labels s' = labels s;
  o_mem : forall p x, 0 <= x < PAGE_SIZE -> ~ infield ts p x -> byte s' p x = byte s p x
}.
Lemma only_refl ts s : only ts s s. Proof. constructor; auto. Qed.
Lemma only_trans ts a b c : only ts a b -> only ts b c -> only ts a c.
Proof. intros [] []. constructor; try congruence. intros p x Hx Hn. rewrite o_mem1, o_mem0; auto. Qed.
Lemma only_weak ts us a b : (forall t, In t ts -> In t us) -> only ts a b -> only us a b.
Proof. intros H []. constructor; auto. intros p x Hx Hn. apply o_mem0; auto. intros (t & Ht & Hf). apply Hn. exists t; auto. Qed.
Definition writes (ts : list target) {A} (m : M A) : Prop := forall s,
  only ts s (outcome (m s)) /\ forall e s', m s = Panic e s' -> e = RelocOverflow \/ exists t, In t ts /\ past_end t.
Lemma writes_bind ts {A B} (m : M A) (k : A -> M B) : writes ts m -> (forall a, writes ts (k a)) -> writes ts (bind m k).
Proof.
  intros Hm Hk s. destruct (Hm s) as [H1 H2]. unfold bind. destruct (m s) as [a s1|e s1]; cbn [outcome] in *.
  - destruct (Hk a s1) as [H3 H4]. split; [eapply only_trans; eassumption|exact H4].
  - split; [exact H1|]. intros e' s' E. inversion E; subst. eapply H2. reflexivity.
Qed.
Lemma writes_put t pos v : 0 <= fpos t -> fpos t <= pos < fpos t + flen t -> writes [t] (put (fpage t) pos v).
Proof.
  intros H0 Hp s. unfold put. destruct (PAGE_SIZE <=? pos) eqn:E; cbn [outcome].
  - split; [apply only_refl|]. intros e0 s1 _. right. exists t. split; [left; reflexivity|]. unfold past_end. lia.
  - split; [|discriminate]. constructor; auto. intros p x Hx Hn. unfold byte. cbn [mem set_mem]. change (addr (set_mem (fun m => upd m (addr s (fpage t) pos) (u8 v)) s) p x) with (addr s p x).
    destruct (addr s p x =? addr s (fpage t) pos) eqn:Ea; [|unfold upd; rewrite Ea; reflexivity].
    exfalso. apply Hn. exists t. split; [left; reflexivity|]. unfold in_field. unfold addr, contents, PAGE_SIZE in *.
    assert (p = fpage t) by (destruct p, (fpage t); cbn [pidx] in Ea; try reflexivity; lia). subst p. split; [reflexivity|lia].
Qed.
Lemma writes_fill src t : 0 <= fpos t -> writes [t] (fill_target src t).
Proof.
  intro H. destruct t as [p off pos|p pos]; cbn [fill_target].
  - intro s. unfold bind, ModelMem.get. cbv zeta. destruct (in_i32 _) eqn:E.
    + assert (Hw : forall d, writes [Rel p off pos] (write32 p pos d)).
      { intro d. unfold write32. cbv zeta. repeat (apply writes_bind; [apply (writes_put (Rel p off pos)); [exact H|cbn [fpos flen] in *; lia]|intros _]).
        apply (writes_put (Rel p off pos)); [exact H|cbn [fpos flen] in *; lia]. }
      apply Hw.
    + split; [apply only_refl|]. intros e s' E'. inversion E'. left. reflexivity.
  - unfold write64. repeat (apply writes_bind; [apply (writes_put (Abs p pos)); [exact H|cbn [fpos flen] in *; lia]|intros _]).
    apply (writes_put (Abs p pos)); [exact H|cbn [fpos flen] in *; lia].
Qed.
Lemma writes_weak ts us {A} (m : M A) : (forall t, In t ts -> In t us) -> writes ts m -> writes us m.
Proof.
  intros H Ht0 s. destruct (Ht0 s) as [H1 H2]. split; [eapply only_weak; eassumption|]. intros e s' E. destruct (H2 e s' E) as [?|(t & Ht & Hp)]; [auto|right]. exists t; auto.
Qed.
Lemma writes_targets src : forall ts, (forall t, In t ts -> 0 <= fpos t) -> writes ts (forM ts (fill_target src)).
Proof.
  induction ts as [|t ts IH]; intro H; cbn [forM]; [intro s; split; [apply only_refl|discriminate]|].
  apply writes_bind; [apply (writes_weak [t]); [intros u [<-|[]]; left; reflexivity|apply writes_fill, H; left; reflexivity]|].
  intros _. apply (writes_weak ts); [intros u Hu; right; exact Hu|]. apply IH. intros u Hu. apply H. right. exact Hu.
Qed.
Definition all_targets (ls : list label_info) : list target := flat_map targets ls.
Lemma fill_labels_writes us : forall reloc acc, (forall t, In t (all_targets reloc) -> In t us /\ 0 <= fpos t) -> writes us (fill_labels reloc acc).
Proof.
  induction reloc as [|i r IH]; intros acc H; cbn [fill_labels]; [intro s; split; [apply only_refl|discriminate]|].
  assert (Hr : forall t, In t (all_targets r) -> In t us /\ 0 <= fpos t) by (intros t Ht; apply H; cbn [all_targets flat_map]; apply in_or_app; right; exact Ht).
  assert (Hi : forall t, In t (targets i) -> In t us /\ 0 <= fpos t) by (intros t Ht; apply H; cbn [all_targets flat_map]; apply in_or_app; left; exact Ht).
  destruct (loc i) as [[p pos]|]; [|apply IH, Hr].
  intro s. unfold bind at 1, ModelMem.get. unfold bind at 2. apply (writes_bind us); [|intros _; apply IH, Hr].
  apply (writes_weak (targets i)); [intros t Ht; apply Hi, Ht|]. apply writes_targets. intros t Ht. apply Hi, Ht.
Qed.
Lemma fill_labels_len : forall reloc acc s ls s', fill_labels reloc acc s = Ok ls s' ->
  map loc ls = map loc (rev acc) ++ map loc reloc.
Proof.
  induction reloc as [|i r IH]; intros acc s ls s' H; cbn [fill_labels] in H.
  - inversion H; subst. cbn [map]. rewrite app_nil_r. reflexivity.
  - destruct (loc i) as [[p pos]|] eqn:E.
    + unfold bind at 1, ModelMem.get in H. unfold bind in H. destruct (forM _ _ s) as [u s1|]; [|discriminate].
      apply IH in H. rewrite H. cbn [rev map]. rewrite map_app, <- app_assoc. cbn [map loc]. rewrite E. reflexivity.
    + apply IH in H. rewrite H. cbn [rev map]. rewrite map_app, <- app_assoc. reflexivity.
Qed.
Lemma in_all_targets s t : In t (all_targets (labels s)) <-> exists l, In t (refs s l).
Proof.
  unfold all_targets, refs. rewrite in_flat_map. split.
  - intros (i & Hi & Ht). apply In_nth_error in Hi. destruct Hi as [l Hl]. exists l. rewrite Hl. exact Ht.
  - intros [l H]. destruct (nth_error (labels s) l) as [i|] eqn:E; [|destruct H]. exists i. split; [eapply nth_error_In; exact E|exact H].
Qed.

(** ** The statements *)
Lemma loc_of_map s l : loc_of s l = match nth_error (map loc (labels s)) l with Some x => x | None => None end.
Proof. unfold loc_of. rewrite nth_error_map. destruct (nth_error (labels s) l); reflexivity. Qed.
Lemma K2_keeps s s' : K2 s s' -> code_stays s s' /\ labels_stay s s'.
Proof.
  intros [C B Q Mm L Lo]. split; constructor; auto.
  - intros p x [Hx _]. apply Mm, Hx.
  - rewrite L. apply le_n.
  - intros l H. rewrite bound_loc in *. apply Lo, H.
Qed.
Definition finalize_keeps_stmt (s : jit) (r : res unit) : Prop :=
  code_stays s (outcome r) /\
  match r with
  | Ok _ s' => labels_stay s s' /\ length (labels s') = length (labels s)
  | Panic e s' => (labels_stay s s' /\ length (labels s') = length (labels s)) \/ (labels s' = [] /\ (e = RelocOverflow \/ exists l t, In t (refs s l) /\ past_end t))
  end.
Lemma finalize_keeps s : cnt_ok s -> (forall l t, In t (refs s l) -> 0 <= fpos t) -> finalize_keeps_stmt s (finalize s).
Proof.
  intros C Hpos. rewrite finalize_split. unfold bind at 1.
  assert (K0 : K3 s s). { split; [constructor; auto; lia|]. intros l t H. left. exact H. }
  assert (P := K3_placing s s K0). destruct (placing s) as [u s1|e s1].
  2: { destruct (K2_keeps _ _ P) as [H1 H2]. split; [exact H1|left]. split; [exact H2|]. apply P. }
  destruct P as [P R]. pose proof P as [C1 B1 Q1 M1 L1 Lo1].
  unfold bind at 1, fill_relocs. unfold bind at 1, ModelMem.get. unfold bind at 1, modify at 1.
  set (us := all_targets (labels s1)).
  assert (Hus : forall t, In t us -> In t us /\ 0 <= fpos t).
  { intros t Ht. split; [exact Ht|]. unfold us in Ht. apply in_all_targets in Ht. destruct Ht as [l Ht]. destruct (R l t Ht) as [H|[H _]]; [eapply Hpos; exact H|]. specialize (C (fpage t)). lia. }
  destruct (fill_labels_writes us (labels s1) [] Hus (set_labels [] s1)) as [O P2].
  assert (HO : forall p x, settled s p x -> byte (outcome (fill_labels (labels s1) [] (set_labels [] s1))) p x = byte s p x).
  { intros p x [Hx Hn]. rewrite (o_mem _ _ _ O).
    - apply M1, Hx.
    - specialize (C p). unfold cnt in C. lia.
    - intros (t & Ht & Hf). unfold us in Ht. apply in_all_targets in Ht. destruct Ht as [l Ht]. destruct (R l t Ht) as [H|[H _]].
      + apply Hn. exists l, t. auto.
      + destruct Hf as [<- Hf]. unfold cnt in H. lia. }
  assert (Hout : forall s2, base s2 = base s1 -> (forall p, counter (pages s2 p) = counter (pages s1 p)) -> (forall p x, byte s2 p x = byte (outcome (fill_labels (labels s1) [] (set_labels [] s1))) p x) ->
    code_stays s s2).
  { intros s2 Eb Ep Em. constructor; [congruence|intro p; rewrite Ep; apply Q1|]. intros p x Hx. rewrite Em. apply HO, Hx. }
  unfold bind at 1. destruct (fill_labels (labels s1) [] (set_labels [] s1)) as [ls s2|e s2] eqn:Ef; cbn [outcome] in *.
  - unfold modify at 1. set (s3 := set_labels ls s2).
    assert (El : map loc ls = map loc (labels s1)) by (rewrite (fill_labels_len _ _ _ _ _ Ef); reflexivity).
    assert (Elen : length ls = length (labels s)) by (rewrite <- L1, <- (map_length loc ls), El, map_length; reflexivity).
    split.
    + cbn [forM all_pages]. unfold bind, modify, ret. cbn [outcome]. apply Hout.
      * cbn [base set_page]. apply (o_base _ _ _ O).
      * intro p. transitivity (counter (pages s2 p)); [destruct p; reflexivity|rewrite (o_pages _ _ _ O); reflexivity].
      * intros p x. reflexivity.
    + cbn [forM all_pages]. unfold bind, modify, ret. split; [|exact Elen]. constructor.
      * cbn [labels set_page set_labels s3]. rewrite Elen. apply le_n.
      * intros l H. rewrite bound_loc in *. specialize (Lo1 l H). rewrite loc_of_map in *. cbn [labels set_page set_labels s3]. rewrite El. exact Lo1.
  - split; [apply Hout; [apply (o_base _ _ _ O)|intro p; change (pages s1) with (pages (set_labels [] s1)); rewrite <- (o_pages _ _ _ O); reflexivity|reflexivity]|]. right.
    split; [apply (o_labels _ _ _ O)|]. destruct (P2 e s2 eq_refl) as [?|(t & Ht & Hp)]; [left; assumption|right].
    unfold us in Ht. apply in_all_targets in Ht. destruct Ht as [l Ht]. destruct (R l t Ht) as [H|[_ H]]; [exists l, t; auto|].
    specialize (C1 (fpage t)). unfold past_end in Hp. lia.
Qed.

Lemma any_keeps ops b m o : is_over o = false -> is_finalize o = false ->
  let s := run_any ops (jit_new b m) in code_stays s (outcome (step o s)) /\ labels_stay s (outcome (step o s)) /\ pending_stays s (outcome (step o s)).
Proof.
  intros Ho Hf s. pose proof (K1_step s o Ho Hf s (K1_refl s (any_cnt ops b m))) as [C B Q Mm L Lo R Co D Bl].
  split; [|split]; constructor; auto.
  - intros p x [Hx _]. apply Mm, Hx.
  - intros l H. rewrite bound_loc in *. apply Lo, H.
Qed.
Lemma any_pos ops b m l t : In t (refs (run_any ops (jit_new b m)) l) -> 0 <= fpos t.
Proof.
  pose proof (w_labels false b m _ (safe_run_any false b m ops _ ltac:(discriminate) (W_new false b m))) as H.
  unfold refs. destruct (nth_error _ l) as [i|] eqn:E; [|intros []]. intro Ht. rewrite Forall_forall in H.
  destruct (H i (nth_error_In _ _ E)) as [_ H2]. rewrite Forall_forall in H2. destruct (H2 t Ht) as [H3 _]. lia.
Qed.
Lemma any_finalize ops b m : let s := run_any ops (jit_new b m) in
  code_stays s (outcome (step OFinalize s)) /\
  (panics OFinalize s = false -> labels_stay s (outcome (step OFinalize s)) /\ length (labels (outcome (step OFinalize s))) = length (labels s)) /\
  (labels_stay s (outcome (step OFinalize s)) \/
   panics OFinalize s = true /\ labels (outcome (step OFinalize s)) = [] /\ exists l t, In t (refs s l) /\ past_end t).
Proof.
  intro s. pose proof (finalize_keeps s (any_cnt ops b m) (any_pos ops b m)) as [H1 H2].
  pose proof (any_no_reloc_overflow ops b m OFinalize) as Hn. fold s in Hn.
  unfold panics. cbn [step] in *. unfold nolabel, bind, ret in *. destruct (finalize s) as [u s1|e s1]; cbn [outcome] in *.
  - split; [exact H1|]. split; [intros _; exact H2|left; apply H2].
  - split; [exact H1|]. split; [discriminate|]. destruct H2 as [[H2 _]|[H2 [H3|H3]]]; [left; exact H2| |right; auto].
    exfalso. exact (Hn _ _ eq_refl H3).
Qed.
Lemma run_any_app a c s : run_any (a ++ c) s = run_any c (run_any a s).
Proof. revert s. induction a as [|o a IH]; intro s; [reflexivity|]. cbn [app run_any]. apply IH. Qed.
Lemma run_any_cons o ops s : run_any (o :: ops) s = run_any ops (outcome (step o s)).
Proof. reflexivity. Qed.
Lemma over_labels o s : is_over o = true -> labels (outcome (step o s)) = labels s.
Proof.
  set (K := fun s' => labels s' = labels s).
  assert (Ha : forall l, keep K (get_label_address l)).
  { intro l. unfold get_label_address. apply keep_bind.
    - intros s1 H. unfold get_label_pos. destruct (nth_error (labels s1) l) as [i|]; [destruct (loc i)|]; exact H.
    - intros x s1 H. unfold bind, ModelMem.get, codeptr. destruct (_ =? 0); exact H. }
  assert (Hp : forall a d, keep K (apply_jmp_patch_address a d)).
  { intros a d. unfold apply_jmp_patch_address. apply keep_bind; [apply Ha|]. intros x s1 H. exact H. }
  intro Ho. enough (H : keep K (step o)) by (exact (H s eq_refl)).
  destruct o; try discriminate; cbn [step]; apply keep_nolabel.
  - unfold apply_jmp_patch. apply keep_bind; [apply Ha|]. intro x. apply Hp.
  - apply Hp.
  - intros s1 H. unfold poke, on_cur, put. destruct (_ <=? _); exact H.
Qed.
Lemma well_len : forall ops pre b m, finalizes_well ops (run_any pre (jit_new b m)) = true ->
  (length (labels (run_any pre (jit_new b m))) <= length (labels (run_any ops (run_any pre (jit_new b m)))))%nat.
Proof.
  induction ops as [|o ops IH]; intros pre b m H; [apply le_n|]. cbn [finalizes_well] in H. apply andb_true_iff in H. destruct H as [H1 H2].
  rewrite run_any_cons. assert (E : outcome (step o (run_any pre (jit_new b m))) = run_any (pre ++ [o]) (jit_new b m)) by (rewrite run_any_app; reflexivity).
  eapply Nat.le_trans; [|rewrite E in *; apply (IH (pre ++ [o])); exact H2]. rewrite <- E. clear E IH H2.
  destruct (is_finalize o) eqn:Ef.
  - destruct o; try discriminate. pose proof (any_finalize pre b m) as (_ & Hk & _). destruct (panics OFinalize _); [discriminate|].
    destruct (Hk eq_refl) as [_ ->]. apply le_n.
  - destruct (is_over o) eqn:Eo; [rewrite over_labels by exact Eo; apply le_n|]. apply (any_keeps pre b m o Eo Ef).
Qed.
Lemma label_fresh ops1 ops2 b m l1 s1 l2 s2 :
  step OLabel (run_any ops1 (jit_new b m)) = Ok (Some l1) s1 -> finalizes_well ops2 s1 = true -> step OLabel (run_any ops2 s1) = Ok (Some l2) s2 -> l1 <> l2.
Proof.
  intros E1 Hw E2.
  assert (Es : s1 = run_any (ops1 ++ [OLabel]) (jit_new b m)) by (rewrite run_any_app, run_any_cons, E1; reflexivity).
  assert (L := well_len ops2 (ops1 ++ [OLabel]) b m). rewrite <- Es in L. specialize (L Hw).
  clear Es. cbn [step] in E1, E2. unfold new_label, bind, ret in E1, E2. injection E1 as E1 E1'. injection E2 as E2 E2'.
  rewrite <- E1' in L at 1. cbn [labels set_labels] in L. rewrite app_length in L. cbn [List.length] in L. lia.
Qed.
