(** The same calls on two allocations at different addresses. *)
From Verif Require Import Base ModelMem ModelEnc ModelSyntax ModelMacro SpecX86 SpecAsm SpecState SpecHist Trace Emit EncDec Fidelity FidelityInst StateFid MemInv MemHist MemRun MemMisc ProgOne SpecProg ProgBlock.
Local Notation length := List.length.
Local Open Scope list_scope.
Local Open Scope Z_scope.

Section Sim.
Variables b1 b2 : Z.
Variable D : Z -> Prop.     (* offsets at which the two memories hold the same *)
Definition rel_target (t : target) : Prop := match t with Rel _ _ _ => True | Abs _ _ => False end.
Definition rel_info (i : label_info) : Prop := Forall rel_target (targets i).
Definition rel_entry (e : dtype * label) : Prop := match fst e with DAbsAddress _ => False | _ => True end.
Definition rel_page (g : page) : Prop := Forall rel_entry (constants g) /\ Forall rel_entry (data g).
Record sim (s t : jit) : Prop := mkSim {
  sm_b1 : base s = b1;
  sm_b2 : base t = b2;
  sm_cur : cur t = cur s;
  sm_pages : forall p, pages t p = pages s p;
  sm_labels : labels t = labels s;
  sm_mem : forall x, D x -> mem t (b2 + x) = mem s (b1 + x);
  sm_rel : Forall rel_info (labels s);
  sm_relp : forall p, rel_page (pages s p)
}.
Definition simM {A} (m n : M A) : Prop := forall s t, sim s t ->
  match m s, n t with
  | Ok a s', Ok b t' => a = b /\ sim s' t'
  | Panic e s', Panic e' t' => e = e' /\ sim s' t'
  | _, _ => False
  end.

Lemma sim_ret {A} (a : A) : simM (ret a) (ret a). Proof. intros s t H. cbn. auto. Qed.
Lemma sim_fail {A} e : simM (A := A) (fail e) (fail e). Proof. intros s t H. cbn. auto. Qed.
Lemma sim_bind {A B} (m n : M A) (f g : A -> M B) : simM m n -> (forall a, simM (f a) (g a)) -> simM (bind m f) (bind n g).
Proof.
  intros H K s t S. unfold bind. specialize (H s t S). destruct (m s) as [a s'|e s'], (n t) as [b t'|e' t']; try contradiction.
  - destruct H as [-> H]. apply (K b), H.
  - exact H.
Qed.
Lemma sim_meq {A} (m m' n n' : M A) : m ≈ m' -> n ≈ n' -> simM m' n' -> simM m n.
Proof. intros H K S s t R. rewrite H, K. apply S, R. Qed.
Lemma sim_on_cur {A} (f g : pid -> M A) : (forall p, simM (f p) (g p)) -> simM (on_cur f) (on_cur g).
Proof. intros H s t S. unfold on_cur. rewrite (sm_cur _ _ S). apply H, S. Qed.
Lemma sim_counter p : simM (get_counter p) (get_counter p).
Proof. intros s t S. cbn. rewrite (sm_pages _ _ S). auto. Qed.
Lemma sim_page p f : (forall g, rel_page g -> rel_page (f g)) -> simM (modify (set_page p f)) (modify (set_page p f)).
Proof.
  intros Hf s t S. cbn. split; [reflexivity|]. destruct S as [A1 A2 A3 A4 A5 A6 A7 A8]. constructor; auto; cbn [set_page pages].
  - intro q. rewrite A4. reflexivity.
  - intro q. destruct (pid_eqb q p); auto.
Qed.
Lemma sim_set_counter p c : simM (set_counter p c) (set_counter p c).
Proof. apply sim_page. intros g H. exact H. Qed.
Lemma sim_put p pos v : simM (put p pos v) (put p pos v).
Proof.
  intros s t S. unfold put. destruct (PAGE_SIZE <=? pos); [auto|]. split; [reflexivity|]. destruct S as [A1 A2 A3 A4 A5 A6 A7 A8]. constructor; auto; cbn [set_mem mem].
  intros x Hx. unfold upd, addr, contents. rewrite A1, A2.
  destruct (b2 + x =? b2 + pidx p * PAGE_SIZE + pos) eqn:E1, (b1 + x =? b1 + pidx p * PAGE_SIZE + pos) eqn:E2; auto; lia.
Qed.
Ltac sim1 := first [apply sim_ret | apply sim_fail | apply sim_put | apply sim_set_counter | apply sim_counter | (apply sim_on_cur; intro) | (apply sim_bind; [|intro])].
Lemma sim_emitb p v : simM (emitb_on p v) (emitb_on p v). Proof. unfold emitb_on. repeat sim1. Qed.
Lemma sim_emitw p v : simM (emitw_on p v) (emitw_on p v). Proof. unfold emitw_on. repeat sim1. Qed.
Lemma sim_emitl p v : simM (emitl_on p v) (emitl_on p v). Proof. unfold emitl_on. repeat sim1. Qed.
Lemma sim_emitq p v : simM (emitq_on p v) (emitq_on p v). Proof. unfold emitq_on. apply sim_bind; intros; apply sim_emitl. Qed.
Lemma sim_align4 p : simM (align4_on p) (align4_on p). Proof. unfold align4_on. repeat sim1. Qed.
Lemma sim_align8 p : simM (align8_on p) (align8_on p). Proof. unfold align8_on. repeat sim1. Qed.
Lemma sim_align16 p : simM (align16_on p) (align16_on p). Proof. unfold align16_on. repeat sim1. Qed.
Lemma sim_align_page p : simM (align_page_on p) (align_page_on p). Proof. unfold align_page_on. repeat sim1. Qed.
Lemma sim_cop c p : simM (run_cop c p) (run_cop c p).
Proof. destruct c; cbn [run_cop]; auto using sim_emitb, sim_emitw, sim_emitl, sim_emitq, sim_align4, sim_align8, sim_align16, sim_align_page. Qed.
Lemma sim_forM {A} (l : list A) f g : (forall a, In a l -> simM (f a) (g a)) -> simM (forM l f) (forM l g).
Proof.
  induction l as [|x l IH]; intro H; cbn [forM]; [apply sim_ret|]. apply sim_bind; [apply H; left; reflexivity|intro]. apply IH. intros y Hy. apply H. right. exact Hy.
Qed.
Lemma sim_repeat n m m' : simM m m' -> simM (repeatM n m) (repeatM n m').
Proof. intro H. induction n as [|n IH]; cbn [repeatM]; [apply sim_ret|]. apply sim_bind; auto. Qed.
Lemma sim_emit bs : simM (emit bs) (emit bs).
Proof. apply sim_forM. intros b _. apply sim_on_cur. intro p. apply sim_emitb. Qed.

(** Labels. *)
Lemma Forall_upd {A} (P : A -> Prop) f : (forall x, P x -> P (f x)) -> forall l n, Forall P l -> Forall P (upd_nth n f l).
Proof. intros Hf l. induction l as [|x l IH]; intros [|n] H; cbn; auto; inversion H; subst; constructor; auto. apply (IH n H3). Qed.
Lemma sim_label l f : (forall i, rel_info i -> rel_info (f i)) -> simM (modify_label l f) (modify_label l f).
Proof.
  intros Hf s t S. unfold modify_label. rewrite (sm_labels _ _ S). destruct (l <? length (labels s))%nat; [|auto]. split; [reflexivity|].
  destruct S as [A1 A2 A3 A4 A5 A6 A7 A8]. constructor; auto; cbn [set_labels labels]. apply Forall_upd; auto.
Qed.
Lemma sim_bind_on p l : simM (bind_label_on p l) (bind_label_on p l).
Proof. unfold bind_label_on. apply sim_bind; [apply sim_counter|intro c]. apply sim_label. intros i H. exact H. Qed.
Lemma sim_reloc l off : simM (save_reloc l off) (save_reloc l off).
Proof.
  unfold save_reloc. apply sim_on_cur; intro p. apply sim_bind; [apply sim_counter|intro c]. apply sim_label. intros i H.
  unfold rel_info, add_target. cbn [targets]. apply Forall_app. split; [exact H|]. repeat constructor.
Qed.
Lemma sim_new_label : simM new_label new_label.
Proof.
  intros s t S. cbn. rewrite (sm_labels _ _ S). split; [reflexivity|]. destruct S as [A1 A2 A3 A4 A5 A6 A7 A8]. constructor; auto; cbn [set_labels labels].
  apply Forall_app. split; [exact A7|]. repeat constructor.
Qed.

(** Generated code. *)
Lemma sim_item i : simM (emit_item i) (emit_item i).
Proof.
  destruct i; cbn [emit_item]; try (apply sim_on_cur; intro p; auto using sim_emitb, sim_emitw, sim_emitl, sim_emitq).
  apply sim_bind; [apply sim_reloc|intro]. destruct bytewise; [apply sim_emit|apply sim_on_cur; intro p; apply sim_emitl].
Qed.
Lemma sim_trace t : simM (run_trace t) (run_trace t).
Proof. unfold run_trace. apply sim_bind; [apply sim_forM; intros i _; apply sim_item|intro]. destruct (snd t); [apply sim_fail|apply sim_ret]. Qed.
Lemma sim_exec ev lenv r i g : compile i = Some g -> simM (exec ev lenv r g) (exec ev lenv r g).
Proof.
  intro Hc.
  assert (G : match i with ILabel _ => False | _ => True end -> simM (exec ev lenv r g) (exec ev lenv r g)).
  { intro Hi. destruct (compile_has_trace ev lenv i g r Hc Hi) as [t Ht].
    eapply sim_meq; [apply (exec_trace _ _ _ _ _ Ht)|apply (exec_trace _ _ _ _ _ Ht)|]. apply sim_bind; [apply sim_trace|intro; apply sim_ret]. }
  destruct i; try (apply G; exact Logic.I). cbn [compile] in Hc. inversion Hc; subst. cbn [exec g1 run_call].
  apply sim_bind; [apply sim_on_cur; intro p; apply sim_bind_on|intro; apply sim_ret].
Qed.
Lemma sim_exec_all ev lenv : forall body gs r, compile_all body = Some gs -> simM (exec_all ev lenv r gs) (exec_all ev lenv r gs).
Proof.
  induction body as [|i body IH]; intros gs r H; cbn [compile_all] in H.
  - inversion H. apply sim_ret.
  - destruct (compile i) as [g|] eqn:E; [|discriminate]. destruct (compile_all body) as [gs'|]; [|discriminate]. inversion H; subst.
    cbn [exec_all]. apply sim_bind; [eapply sim_exec; eauto|]. intro r'. apply IH. reflexivity.
Qed.
Lemma sim_call ev lenv r c : match c with GSaveReloc _ _ => False | _ => True end -> simM (run_call ev lenv r c) (run_call ev lenv r c).
Proof.
  intro Hc. destruct (t_call ev lenv r c) as [t|] eqn:E.
  - eapply sim_meq; [apply (acts_call _ _ _ _ _ E)|apply (acts_call _ _ _ _ _ E)|]. apply sim_trace.
  - destruct c; try discriminate E; try contradiction. cbn [run_call]. apply sim_on_cur; intro p. apply sim_bind_on.
Qed.

(** Constants. *)
Lemma sim_push_constant d : match d with DAbsAddress _ => False | _ => True end -> simM (push_constant d) (push_constant d).
Proof.
  intro Hd. unfold push_constant. apply sim_bind; [apply sim_new_label|intro l]. apply sim_bind; [|intro; apply sim_ret]. apply sim_on_cur; intro p.
  apply sim_page. intros g [A B]. split; [|exact B]. cbn [constants with_constants]. apply Forall_app. split; [exact A|]. repeat constructor. exact Hd.
Qed.
Lemma sim_push_data d : match d with DAbsAddress _ => False | _ => True end -> simM (push_data d) (push_data d).
Proof.
  intro Hd. unfold push_data. apply sim_bind; [apply sim_new_label|intro l]. apply sim_bind; [|intro; apply sim_ret]. apply sim_on_cur; intro p.
  apply sim_page. intros g [A B]. split; [exact A|]. cbn [data with_data]. apply Forall_app. split; [exact B|]. repeat constructor. exact Hd.
Qed.
Lemma sim_create d : is_abs d = false -> simM (create d) (create d).
Proof. destruct d; intro H; try discriminate H; cbn [create]; first [apply sim_push_constant; exact Logic.I|apply sim_push_data; exact Logic.I]. Qed.

(** finalize *)
Lemma sim_constant p e : rel_entry e -> simM (resolve_constant_entry p e) (resolve_constant_entry p e).
Proof.
  destruct e as [d l]. destruct d; intro H; try contradiction; unfold resolve_constant_entry; cbn [fst snd];
    repeat first [apply sim_align16|apply sim_align8|apply sim_align4|apply sim_bind_on|apply sim_emitq|apply sim_emitl|apply sim_repeat; apply sim_emitb|apply sim_bind; [|intro]].
Qed.
Lemma sim_data e : rel_entry e -> simM (resolve_data_entry e) (resolve_data_entry e).
Proof.
  destruct e as [d l]. destruct d; intro H; try contradiction; unfold resolve_data_entry; cbn [fst snd];
    repeat first [apply sim_align16|apply sim_align8|apply sim_align4|apply sim_bind_on|apply sim_emitq|apply sim_emitl|apply sim_repeat; apply sim_emitb|apply sim_bind; [|intro]].
Qed.
Lemma sim_get {A} (f : jit -> M A) : (forall s t, sim s t -> simM (f s) (f t)) -> simM (bind ModelMem.get f) (bind ModelMem.get f).
Proof. intros H s t S. unfold bind, ModelMem.get. apply (H s t S s t S). Qed.
Lemma sim_constants_of p : simM (resolve_constants_of p) (resolve_constants_of p).
Proof.
  unfold resolve_constants_of. apply sim_get. intros s t S. rewrite (sm_pages _ _ S).
  destruct (sm_relp _ _ S p) as [A _].
  apply sim_bind; [apply sim_page; intros g [X Y]; split; [constructor|exact Y]|intro].
  apply sim_forM. intros e He. apply sim_constant. rewrite Forall_forall in A. apply A, He.
Qed.
Lemma sim_data_of p : simM (resolve_data_of p) (resolve_data_of p).
Proof.
  unfold resolve_data_of. apply sim_get. intros s t S. rewrite (sm_pages _ _ S).
  destruct (sm_relp _ _ S p) as [_ A].
  apply sim_bind; [apply sim_page; intros g [X Y]; split; [exact X|constructor]|intro].
  apply sim_forM. intros e He. apply sim_data. rewrite Forall_forall in A. apply A, He.
Qed.
Lemma sim_close p : simM (close_block_on p) (close_block_on p).
Proof.
  intros s t S. unfold close_block_on. rewrite (sm_pages _ _ S). destruct (set_last_end _ _) as [bs|]; [|auto].
  apply (sim_page p (with_blocks bs) (fun g H => H) s t S).
Qed.
Lemma sim_write32 p x v : simM (write32 p x v) (write32 p x v). Proof. unfold write32. cbv zeta. repeat sim1. Qed.
Lemma sim_fill_target x t : rel_target t -> simM (fill_target (b1 + x) t) (fill_target (b2 + x) t).
Proof.
  destruct t as [p off pos|]; [|contradiction]. intros _ s t S. unfold fill_target, bind, ModelMem.get, contents. rewrite (sm_b1 _ _ S), (sm_b2 _ _ S).
  replace (b2 + x - (b2 + pidx p * PAGE_SIZE + pos + off)) with (b1 + x - (b1 + pidx p * PAGE_SIZE + pos + off)) by lia.
  destruct (in_i32 _); [apply sim_write32, S|cbn; auto].
Qed.
(** The filled table holds no absolute references either. *)
Lemma fill_labels_rel : forall l acc s ls s', Forall rel_info l -> Forall rel_info acc -> fill_labels l acc s = Ok ls s' -> Forall rel_info ls.
Proof.
  induction l as [|i l IH]; intros acc s ls s' Hl Ha H; cbn [fill_labels] in H.
  - inversion H; subst. apply Forall_rev, Ha.
  - inversion Hl; subst. destruct (loc i) as [[p pos]|].
    + unfold bind, ModelMem.get in H. destruct (forM _ _ s) as [a s1|]; [|discriminate]. eapply (IH _ _ _ _ H3); [|exact H]. constructor; [constructor|exact Ha].
    + eapply (IH _ _ _ _ H3); [|exact H]. constructor; assumption.
Qed.
Lemma sim_fill_labels : forall l acc, Forall rel_info l -> simM (fill_labels l acc) (fill_labels l acc).
Proof.
  induction l as [|i l IH]; intros acc Hl; cbn [fill_labels]; [apply sim_ret|]. inversion Hl; subst. destruct (loc i) as [[p pos]|]; [|apply IH; assumption].
  apply sim_get. intros s t S. apply sim_bind; [|intro; apply IH; assumption]. unfold contents. rewrite (sm_b1 _ _ S), (sm_b2 _ _ S).
  rewrite <- !Z.add_assoc. apply sim_forM. intros x Hx. apply sim_fill_target. unfold rel_info in H1. rewrite Forall_forall in H1. apply H1, Hx.
Qed.
Lemma sim_set_labels l : Forall rel_info l -> simM (modify (set_labels l)) (modify (set_labels l)).
Proof. intros Hl s t S. cbn. split; [reflexivity|]. destruct S as [A1 A2 A3 A4 A5 A6 A7 A8]. constructor; auto. Qed.
Lemma sim_fill : simM fill_relocs fill_relocs.
Proof.
  unfold fill_relocs. apply sim_get. intros s t S. rewrite (sm_labels _ _ S). pose proof (sm_rel _ _ S) as Hr.
  apply sim_bind; [apply sim_set_labels; constructor|intros []].
  intros s1 t1 S1. unfold bind. pose proof (sim_fill_labels (labels s) [] Hr s1 t1 S1) as K.
  destruct (fill_labels (labels s) [] s1) as [ls s2|e s2] eqn:E, (fill_labels (labels s) [] t1) as [ls' t2|e' t2]; try contradiction; [|exact K].
  destruct K as [<- K]. apply sim_set_labels; [|exact K]. eapply fill_labels_rel; [exact Hr|constructor|exact E].
Qed.
Lemma sim_finalize : simM finalize finalize.
Proof.
  unfold finalize. apply sim_bind; [apply sim_forM; intros p _; apply sim_page; intros g H; exact H|intro].
  apply sim_bind; [apply sim_forM; intros p _; apply sim_constants_of|intro].
  apply sim_bind; [apply sim_forM; intros p _; apply sim_data_of|intro].
  apply sim_bind; [apply sim_forM; intros p _; apply sim_close|intro].
  apply sim_bind; [apply sim_fill|intro].
  apply sim_forM; intros p _; apply sim_page; intros g H; exact H.
Qed.

(** ** Calls *)
Lemma sim_nolabel m : simM m m -> simM (nolabel m) (nolabel m).
Proof. intro H. unfold nolabel. apply sim_bind; [exact H|intro; apply sim_ret]. Qed.
Lemma sim_on_page {A} n (f : pid -> M A) : (forall p, simM (f p) (f p)) -> simM (on_page n f) (on_page n f).
Proof. intro H. unfold on_page. destruct (pid_of n); [apply H|apply sim_fail]. Qed.
Lemma sim_step o : relocatable o = true -> simM (step o) (step o).
Proof.
  intro Ho. destruct o as [[n|] c|bs|ev lenv r body|ev lenv r c|n| |l|n l|d| |l off|p d|a d|pos v]; try discriminate Ho; cbn [step].
  - apply sim_nolabel, sim_on_page, sim_cop.
  - apply sim_nolabel, sim_on_cur. intro p. apply sim_cop.
  - apply sim_nolabel, sim_emit.
  - destruct (compile_all body) as [gs|] eqn:E; [|apply sim_fail]. apply sim_bind; [eapply sim_exec_all; eauto|intro; apply sim_ret].
  - destruct c; try (apply sim_nolabel, sim_call; exact Logic.I). apply sim_ret.
  - apply sim_nolabel. unfold select_page, assert. apply sim_bind; [destruct (n <? 2); [apply sim_ret|apply sim_fail]|intro].
    destruct (pid_of n) as [p|]; [|apply sim_fail]. intros s t S. cbn. split; [reflexivity|]. destruct S as [A1 A2 A3 A4 A5 A6 A7 A8]. constructor; auto.
  - apply sim_bind; [apply sim_new_label|intro; apply sim_ret].
  - apply sim_nolabel, sim_on_cur. intro p. apply sim_bind_on.
  - apply sim_nolabel. apply (sim_on_page n (fun p => bind_label_on p l)). intro p. apply sim_bind_on.
  - apply sim_bind; [|intro; apply sim_ret]. apply sim_create. cbn [relocatable] in Ho. destruct (is_abs d); [discriminate|reflexivity].
  - apply sim_nolabel, sim_finalize.
Qed.
Lemma sim_after o s t : relocatable o = true -> sim s t ->
  match after o s, after o t with Some s', Some t' => sim s' t' | None, None => True | _, _ => False end.
Proof.
  intros Ho S. unfold after. pose proof (sim_step o Ho s t S) as K. destruct (step o s) as [a s'|e s'], (step o t) as [b t'|e' t']; try contradiction.
  - apply K.
  - destruct K as [<- K]. destruct (tolerated o e); [exact K|exact Logic.I].
Qed.
Lemma sim_run : forall ops s t, forallb relocatable ops = true -> sim s t ->
  match run ops s, run ops t with Some s', Some t' => sim s' t' | None, None => True | _, _ => False end.
Proof.
  induction ops as [|o ops IH]; intros s t Ha S; [exact S|]. cbn [forallb] in Ha. apply andb_true_iff in Ha. destruct Ha as [Ho Ha]. cbn [run].
  pose proof (sim_after o s t Ho S) as K. destruct (after o s) as [s1|], (after o t) as [t1|]; try contradiction; [|exact Logic.I]. apply IH; assumption.
Qed.
End Sim.

(** ** Whole images *)
Lemma sim_new b1 b2 (D : Z -> Prop) m1 m2 : (forall x, D x -> m2 (b2 + x) = m1 (b1 + x)) -> sim b1 b2 D (jit_new b1 m1) (jit_new b2 m2).
Proof. intro H. constructor; cbn; auto. intro p. split; constructor. Qed.
Lemma relocatable_api o : relocatable o = true -> api o = true. Proof. destruct o; auto. Qed.
Lemma relocatable_all ops : forallb relocatable ops = true -> forallb api ops = true.
Proof. intro H. apply forallb_forall. intros o Ho. rewrite forallb_forall in H. apply relocatable_api, H, Ho. Qed.
Lemma image_same ops b1 m1 b2 m2 : forallb relocatable ops = true -> (forall x, 0 <= x < 3 * PAGE_SIZE -> m2 (b2 + x) = m1 (b1 + x)) ->
  match run ops (jit_new b1 m1), run ops (jit_new b2 m2) with
  | Some s, Some t => same_tables s t /\ forall p i, 0 <= i < PAGE_SIZE -> byte t p i = byte s p i
  | None, None => True
  | _, _ => False
  end.
Proof.
  intros Ha Hm. pose proof (sim_run b1 b2 (fun x => 0 <= x < 3 * PAGE_SIZE) ops _ _ Ha (sim_new b1 b2 _ m1 m2 Hm)) as K.
  destruct (run ops (jit_new b1 m1)) as [s|], (run ops (jit_new b2 m2)) as [t|]; try contradiction; [|exact Logic.I].
  destruct K as [A1 A2 A3 A4 A5 A6 _ _]. split; [split; auto|]. intros p i Hi. unfold byte, addr, contents. rewrite A1, A2, <- !Z.add_assoc. apply A6.
  unfold PAGE_SIZE in *. destruct p; cbn [pidx]; lia.
Qed.

(** ** Code in memory with unknown contents *)
Definition in_range (p : pid) (a b x : Z) : Prop := exists i, a <= i < b /\ x = pidx p * PAGE_SIZE + i.
Lemma sim_weaken b1 b2 D (D' : Z -> Prop) s t : sim b1 b2 D s t -> (forall x, D' x -> mem t (b2 + x) = mem s (b1 + x)) -> sim b1 b2 D' s t.
Proof. intros [A1 A2 A3 A4 A5 A6 A7 A8] H. constructor; auto. Qed.
Lemma emitted_byte its s s1 i : emitted its s s1 -> cursor s <= i < cursor s1 ->
  mem s1 (addr s (cur s) i) = nth (Z.to_nat (i - cursor s)) (flat zeros its) 0.
Proof.
  intros Em Hi. rewrite (em_mem _ _ _ Em). assert (C : cursor s1 = cursor s + items_len its) by (unfold cursor; rewrite (em_cur _ _ _ Em), (em_page _ _ _ Em); reflexivity).
  pose proof (flat_len zeros its). replace (addr s (cur s) i) with (addr s (cur s) (counter (pages s (cur s))) + Z.of_nat (Z.to_nat (i - cursor s))) by (unfold addr, cursor in *; lia).
  rewrite wr_in by (unfold cursor in *; lia). f_equal. lia.
Qed.
Lemma sim_block b1 b2 ev lenv : forall body gs r D s t r' s1, compile_all body = Some gs -> sim b1 b2 D s t -> exec_all ev lenv r gs s = Ok r' s1 ->
  exists t1, exec_all ev lenv r gs t = Ok r' t1 /\ sim b1 b2 (fun x => D x \/ in_range (cur s) (cursor s) (cursor s1) x) s1 t1 /\ cur s1 = cur s /\ cursor s <= cursor s1.
Proof.
  induction body as [|i body IH]; intros gs r D s t r' s1 Hc S He.
  - inversion Hc; subst. cbn in He. inversion He; subst. exists t. split; [reflexivity|]. split; [|split; [reflexivity|lia]].
    eapply sim_weaken; [exact S|]. intros x [H|(j & Hj & _)]; [apply (sm_mem _ _ _ _ _ S x H)|lia].
  - destruct (compile_all_cons _ _ _ Hc) as (g & gs' & Hg & Hc' & ->). destruct (exec_all_cons _ _ _ _ _ _ _ _ He) as (r2 & s2 & He1 & He2).
    pose proof (sim_exec b1 b2 D ev lenv r i g Hg s t S) as K. rewrite He1 in K. destruct (exec ev lenv r g t) as [r3 t2|] eqn:Et; [|contradiction]. destruct K as [<- S2].
    assert (G : cur s2 = cur s /\ cursor s <= cursor s2 /\ sim b1 b2 (fun x => D x \/ in_range (cur s) (cursor s) (cursor s2) x) s2 t2).
    { assert (N : match i with ILabel _ => False | _ => True end -> cur s2 = cur s /\ cursor s <= cursor s2 /\ sim b1 b2 (fun x => D x \/ in_range (cur s) (cursor s) (cursor s2) x) s2 t2).
      { intro Hi. destruct (compile_has_trace ev lenv i g r Hg Hi) as [tr Ht]. rewrite (exec_run _ _ _ _ _ _ Ht) in He1. rewrite (exec_run _ _ _ _ _ _ Ht) in Et.
        destruct (run_trace tr s) as [[] s3|] eqn:E1; [|discriminate]. destruct (run_trace tr t) as [[] t3|] eqn:E2; [|discriminate]. inversion He1; inversion Et; subst.
        destruct (run_trace_ok _ _ _ E1) as (_ & Em1 & _). destruct (run_trace_ok _ _ _ E2) as (_ & Em2 & _).
        assert (C : cursor s2 = cursor s + items_len (fst tr)) by (unfold cursor; rewrite (em_cur _ _ _ Em1), (em_page _ _ _ Em1); reflexivity).
        pose proof (items_len_nonneg (fst tr)). split; [apply (em_cur _ _ _ Em1)|]. split; [lia|].
        assert (Cs : cursor t = cursor s) by (unfold cursor; rewrite (sm_cur _ _ _ _ _ S), (sm_pages _ _ _ _ _ S); reflexivity).
        assert (Cs2 : cursor t2 = cursor s2) by (unfold cursor; rewrite (sm_cur _ _ _ _ _ S2), (sm_pages _ _ _ _ _ S2); reflexivity).
        eapply sim_weaken; [exact S2|]. intros x [Hx|(j & Hj & ->)]; [apply (sm_mem _ _ _ _ _ S2 x Hx)|].
        pose proof (emitted_byte _ _ _ j Em1 Hj) as B1. pose proof (emitted_byte _ _ _ j Em2 ltac:(lia)) as B2.
        unfold addr, contents in B1, B2. rewrite (sm_b1 _ _ _ _ _ S) in B1. rewrite (sm_b2 _ _ _ _ _ S), (sm_cur _ _ _ _ _ S), Cs in B2.
        rewrite <- Z.add_assoc in B1, B2. rewrite B1, B2. reflexivity. }
      destruct i; try (apply N; exact Logic.I). destruct (label_stmt _ _ _ _ _ _ _ _ Hg He1) as (A & B & _). split; [exact A|]. split; [lia|].
      eapply sim_weaken; [exact S2|]. intros x [H|(j & Hj & _)]; [apply (sm_mem _ _ _ _ _ S2 x H)|lia]. }
    destruct G as (G1 & G2 & G3). destruct (IH gs' r2 _ s2 t2 r' s1 Hc' G3 He2) as (t1 & Ht1 & S1 & Hc1 & Hl1).
    exists t1. split; [cbn [exec_all]; unfold bind; rewrite Et; exact Ht1|]. split; [|split; [congruence|lia]].
    eapply sim_weaken; [exact S1|]. intros x Hx. apply (sm_mem _ _ _ _ _ S1). rewrite G1. destruct Hx as [Hx|(j & Hj & Hx)]; [auto|].
    destruct (Z.lt_ge_cases j (cursor s2)); [left; right; exists j; split; [lia|exact Hx]|right; exists j; split; [lia|exact Hx]].
Qed.
Lemma code_same b1 m1 b2 m2 a ev lenv r body b s1 o s2 s3 : forallb relocatable a = true -> forallb relocatable b = true ->
  run a (jit_new b1 m1) = Some s1 -> step (OAsm ev lenv r body) s1 = Ok o s2 -> run b s2 = Some s3 ->
  exists t1 t2 t3, run a (jit_new b2 m2) = Some t1 /\ step (OAsm ev lenv r body) t1 = Ok o t2 /\ run b t2 = Some t3 /\
    same_tables s1 t1 /\ same_tables s2 t2 /\ same_tables s3 t3 /\
    forall i, cursor s1 <= i < cursor s2 -> byte t3 (cur s1) i = byte s3 (cur s1) i.
Proof.
  intros Ha Hb Ea Es Eb.
  pose proof (sim_run b1 b2 (fun _ => False) a _ _ Ha (sim_new b1 b2 _ m1 m2 (fun x H => False_ind _ H))) as K. rewrite Ea in K.
  destruct (run a (jit_new b2 m2)) as [t1|]; [|contradiction]. cbn [step] in Es. destruct (compile_all body) as [gs|] eqn:Hc; [|discriminate].
  unfold bind, ret in Es. destruct (exec_all ev lenv r gs s1) as [r' s2'|] eqn:Ex; [|discriminate]. inversion Es; subst.
  destruct (sim_block b1 b2 ev lenv body gs r _ s1 t1 r' s2 Hc K Ex) as (t2 & Ht2 & S2 & Hcur & Hle).
  pose proof (sim_run b1 b2 _ b _ _ Hb S2) as K3. rewrite Eb in K3. destruct (run b t2) as [t3|] eqn:Ebt; [|contradiction].
  exists t1, t2, t3. split; [reflexivity|]. split; [cbn [step]; rewrite Hc; unfold bind, ret; rewrite Ht2; reflexivity|]. split; [exact Ebt|].
  destruct K as [_ _ A1 A2 A3 _ _ _]. destruct S2 as [_ _ B1 B2 B3 _ _ _]. destruct K3 as [C0 C00 C1 C2 C3 C4 _ _].
  split; [split; auto|]. split; [split; auto|]. split; [split; auto|]. intros i Hi. unfold byte, addr, contents. rewrite C0, C00, <- !Z.add_assoc. apply C4.
  right. exists i. split; [exact Hi|reflexivity].
Qed.
