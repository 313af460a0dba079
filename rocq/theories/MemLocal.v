(** Calls act on one page, whatever their outcome. *)
From Verif Require Import Base ModelMem ModelEnc ModelSyntax ModelMacro Trace Emit StateFid SpecState SpecHist MemInv MemStep MemFinal MemFill MemHist MemRun MemSafe.
Local Notation length := List.length.

Definition stays {A} (p : pid) (m : M A) : Prop := forall s, cnt_ok s -> framed p s (outcome (m s)).
Lemma framed_ok p s s' : cnt_ok s -> framed p s s' -> cnt_ok s'.
Proof.
  intros K F q. destruct (pid_dec q p) as [->|H].
  - pose proof (K p). pose proof (fr_counter _ _ _ F). pose proof (fr_bound _ _ _ F). unfold cnt in *. lia.
  - unfold cnt. rewrite (fr_others _ _ _ F) by exact H. apply K.
Qed.
Lemma stays_ret {A} p (a : A) : stays p (ret a). Proof. intros s _. apply framed_refl. Qed.
Lemma stays_fail {A} p e : stays p (@fail A e). Proof. intros s _. apply framed_refl. Qed.
Lemma stays_bind {A B} p (m : M A) (k : A -> M B) : stays p m -> (forall a, stays p (k a)) -> stays p (bind m k).
Proof.
  intros Hm Hk s K. unfold bind. specialize (Hm s K). destruct (m s) as [a s1|e s1]; cbn [outcome] in *; [|exact Hm].
  eapply framed_trans; [exact Hm|]. apply Hk. eapply framed_ok; eauto.
Qed.
Lemma stays_appends p bs m : appends p bs m -> stays p m.
Proof.
  intros A s K. specialize (A s). destruct ((_ <=? _) || _) eqn:E in A.
  - destruct A as (s1 & -> & H). cbn [outcome]. eapply framed_adv; [exact H|]. apply orb_true_iff in E. destruct E as [E|E]; [left; lia|right].
    apply Nat.eqb_eq in E. destruct bs; [reflexivity|discriminate].
  - destruct A as (s1 & -> & H & _). exact H.
Qed.
Lemma stays_align (m : M unit) p a : (forall s, m s = Ok tt (set_cnt p (align_up a (cnt s p)) s)) -> In a [1; 4; 8; 16; 4096] -> stays p m.
Proof.
  intros E Ha s K. rewrite E. cbn [outcome]. pose proof (align_up_max a (cnt s p) Ha (proj2 (K p))).
  assert (0 < a) by (cbn in Ha; lia). pose proof (align_up_spec a (cnt s p) ltac:(assumption)).
  constructor; cbn [set_cnt base cur set_page pages mem]; auto.
  - rewrite pid_eqb_refl. cbn [counter with_counter]. unfold cnt in *. lia.
  - rewrite pid_eqb_refl. cbn [counter with_counter]. unfold cnt in *. lia.
  - rewrite pid_eqb_refl. reflexivity.
  - intros q Hq. rewrite pid_eqb_neq by exact Hq. reflexivity.
Qed.
Lemma stays_cop c p : stays p (run_cop c p).
Proof.
  destruct c; cbn [run_cop].
  - eapply stays_appends, emitb_on_appends.
  - eapply stays_appends, emitw_on_appends.
  - eapply stays_appends, emitl_on_appends.
  - eapply stays_appends, emitq_on_appends.
  - eapply stays_align; [apply align4_eq|cbn; auto].
  - eapply stays_align; [apply align8_eq|cbn; auto].
  - eapply stays_align; [apply align16_eq|cbn; auto].
  - eapply stays_align; [apply align_page_eq|cbn; auto 6].
Qed.
Lemma stays_labels p s ls : framed p s (set_labels ls s).
Proof. constructor; auto; cbn [pages set_labels]; [lia|]. symmetry; apply with_counter_same. Qed.
Lemma stays_bind_label q p l : stays q (bind_label_on p l).
Proof.
  intros s K. unfold bind_label_on, bind, get_counter, modify_label. destruct (l <? _)%nat; [apply stays_labels|apply framed_refl].
Qed.
(** The same for calls on the selected page, which stays selected. *)
Definition stays_cur {A} (m : M A) : Prop := forall s, cnt_ok s -> framed (cur s) s (outcome (m s)).
Lemma cur_of {A} (m : M A) : (forall p, stays p m) -> stays_cur m.
Proof. intros H s K. apply H, K. Qed.
Lemma cur_ret {A} (a : A) : stays_cur (ret a). Proof. intros s _. apply framed_refl. Qed.
Lemma cur_fail {A} e : stays_cur (@fail A e). Proof. intros s _. apply framed_refl. Qed.
Lemma cur_bind {A B} (m : M A) (k : A -> M B) : stays_cur m -> (forall a, stays_cur (k a)) -> stays_cur (bind m k).
Proof.
  intros Hm Hk s K. unfold bind. specialize (Hm s K). destruct (m s) as [a s1|e s1]; cbn [outcome] in *; [|exact Hm].
  eapply framed_trans; [exact Hm|]. rewrite <- (fr_cur _ _ _ Hm). apply Hk. eapply framed_ok; eauto.
Qed.
Lemma cur_on_cur {A} (f : pid -> M A) : (forall p, stays p (f p)) -> stays_cur (on_cur f).
Proof. intros H s K. unfold on_cur. apply H, K. Qed.
Lemma cur_trace t : stays_cur (run_trace t).
Proof.
  intros s K. destruct (run_trace_cases t s) as [(s' & E & _ & A & Hc)|(e & s' & E & F & _)]; rewrite E; cbn [outcome]; [|exact F].
  destruct A as [B C L P O M]. pose proof (items_len_nonneg (fst t)). unfold tlen in Hc. constructor; auto.
  - rewrite P. cbn [counter with_counter]. lia.
  - rewrite P. cbn [counter with_counter]. destruct Hc as [Hc|Hc]; [right; lia|left; rewrite Hc; cbn; lia].
  - rewrite P. reflexivity.
  - intros x Hx. rewrite M. apply wr_out. rewrite flat_len. destruct Hc as [Hc|Hc]; [unfold addr in *; lia|rewrite Hc in *; cbn; unfold addr in *; lia].
Qed.
Lemma cur_call ev lenv r c : match c with GSaveReloc _ _ => False | _ => True end -> stays_cur (run_call ev lenv r c).
Proof.
  intro Hc.
  assert (Hgen : forall t, t_call ev lenv r c = Some t -> stays_cur (run_call ev lenv r c)).
  { intros t Ht s K. rewrite (acts_call ev lenv r c t Ht s). apply cur_trace, K. }
  destruct c; try contradiction; try (eapply Hgen; reflexivity). cbn [run_call]. apply cur_on_cur. intro p. apply stays_bind_label.
Qed.
Lemma cur_inst ev lenv r i g : compile i = Some g -> stays_cur (exec ev lenv r g).
Proof.
  intro Hc.
  assert (Hgen : match i with ILabel _ => False | _ => True end -> stays_cur (exec ev lenv r g)).
  { intro Hi. destruct (compile_has_trace ev lenv i g r Hc Hi) as [t Ht]. intros s K. rewrite (exec_run _ _ _ _ _ s Ht).
    assert (St := cur_trace t s K). destruct (run_trace t s); exact St. }
  destruct i; try (apply Hgen; exact I). inversion Hc; subst g. cbn [exec run_call g1].
  apply cur_bind; [apply cur_on_cur; intro p; apply stays_bind_label|intros _; apply cur_ret].
Qed.
Lemma cur_block ev lenv : forall body gs r, compile_all body = Some gs -> stays_cur (exec_all ev lenv r gs).
Proof.
  induction body as [|i body IH]; intros gs r Hc.
  - inversion Hc; subst. apply cur_ret.
  - cbn [compile_all] in Hc. destruct (compile i) as [g|] eqn:Ei; [|discriminate]. destruct (compile_all body) as [gs'|]; [|discriminate].
    inversion Hc; subst. cbn [exec_all]. apply cur_bind; [eapply cur_inst; exact Ei|]. intro r'. apply IH. reflexivity.
Qed.
Lemma framed_only p s s' : cnt_ok s -> framed p s s' -> only_page p s s'.
Proof.
  intros K F. pose proof (framed_ok _ _ _ K F p) as K'. destruct F as [B C Hc D P O M]. constructor; auto.
  - unfold cnt in K'. lia.
  - intros x Hx. exists (x - contents s p). unfold addr in *. split; [lia|].
    assert (~ (x < contents s p + counter (pages s p) \/ contents s p + PAGE_SIZE <= x)) by (intro H; apply Hx, M, H). lia.
Qed.
Lemma nolabel_outcome m s : outcome (nolabel m s) = outcome (m s).
Proof. unfold nolabel, bind, ret. destruct (m s); reflexivity. Qed.
Lemma step_local o p s : cnt_ok s -> target_page o s = Some p -> only_page p s (outcome (step o s)).
Proof.
  intros K Hp. destruct o; try discriminate; cbn [step]; cbn [target_page] in Hp.
  - destruct n as [n|]; rewrite nolabel_outcome; apply framed_only; auto.
    + unfold on_page. destruct (pid_of n); inversion Hp; subst; [apply stays_cop, K|apply stays_fail, K].
    + inversion Hp; subst. apply cur_on_cur; [|exact K]. intro q. apply stays_cop.
  - inversion Hp; subst. rewrite nolabel_outcome, emit_meq. apply framed_only; auto. eapply stays_appends; [apply emit_on_appends|exact K].
  - inversion Hp; subst. apply framed_only; auto. destruct (compile_all body) as [gs|] eqn:Ec; [|apply stays_fail, K].
    apply cur_bind; [eapply cur_block; exact Ec|intros _; apply cur_ret|exact K].
  - inversion Hp; subst. apply framed_only; auto. destruct c; try (rewrite nolabel_outcome; apply cur_call; [exact I|exact K]). apply stays_ret, K.
  - inversion Hp; subst. apply framed_only; auto. apply stays_labels.
  - inversion Hp; subst. rewrite nolabel_outcome. apply framed_only; auto. apply cur_on_cur; [|exact K]. intro q. apply stays_bind_label.
  - rewrite nolabel_outcome. apply framed_only; auto. unfold bind_label_with_page, on_page. destruct (pid_of n); inversion Hp; subst; [apply stays_bind_label, K|apply stays_fail, K].
  - inversion Hp; subst. unfold bind. rewrite create_eq. cbn [outcome ret]. constructor; auto.
    + intros q Hq. unfold created. cbn [pages set_page]. rewrite pid_eqb_neq by exact Hq. reflexivity.
    + unfold created. cbn [pages set_page]. rewrite pid_eqb_refl. pose proof (K (cur s)). unfold cnt in *. destruct (is_data d); cbn [counter with_data with_constants pages set_labels]; lia.
    + intros x Hx. contradiction Hx. reflexivity.
Qed.
Lemma reached_cnt s : reached s -> cnt_ok s. Proof. intro R. apply (Inv_reached _ R). Qed.
(** Every state, reached or not after caught panics. *)
Lemma any_cnt ops b m : cnt_ok (run_any ops (jit_new b m)).
Proof. apply (w_cnt false b m). apply safe_run_any; [discriminate|apply W_new]. Qed.
Lemma any_base ops b m : base (run_any ops (jit_new b m)) = b.
Proof. apply (w_base false b m). apply safe_run_any; [discriminate|apply W_new]. Qed.
Lemma any_mem ops b m x : forallb (fun o => negb (is_patch o)) ops = true -> x < b \/ b + 3 * PAGE_SIZE <= x -> mem (run_any ops (jit_new b m)) x = m x.
Proof. intros Hp Hx. apply (w_mem true b m (run_any ops (jit_new b m))); auto. apply safe_run_any; [auto|apply W_new]. Qed.
Lemma any_no_reloc_overflow ops b m o e s' : step o (run_any ops (jit_new b m)) = Panic e s' -> e <> RelocOverflow.
Proof.
  intros E. pose proof (safe_step false b m o ltac:(discriminate) (run_any ops (jit_new b m))) as S. rewrite E in S.
  apply S. apply safe_run_any; [discriminate|apply W_new].
Qed.
