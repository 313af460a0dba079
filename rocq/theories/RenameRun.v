(** Histories that differ in the numbers of labels. *)
From Verif Require Import Base ModelMem ModelEnc ModelSyntax ModelMacro SpecState SpecAsm SpecProg SpecHist SpecShare StateFid Emit MemInv MemStep MemFinal MemFill MemHist MemRun MemFacts MemPlace SpecWhen WhenFacts WhenRun SpecRename RenameFacts.
Local Notation length := List.length.
Local Open Scope list_scope.
Local Open Scope Z_scope.

Section Rename.
Variable f : label -> label.
Hypothesis inj : forall a b, f a = f b -> a = b.
Notation ren := (ren f).
Notation known := (known f).

(** ** Calls that create no label *)
Lemma compiled_labels : forall body gs g y, compile_all body = Some gs -> In g gs -> In y (gcode_labels g) -> In y (body_labels body ++ defined body).
Proof.
  induction body as [|i body IH]; intros gs g y H Hg Hy; cbn [compile_all] in H; [injection H as <-; contradiction|].
  destruct (compile i) as [g0|] eqn:E; [|discriminate]. destruct (compile_all body) as [gs0|]; [|discriminate]. injection H as <-.
  unfold body_labels, defined in *. cbn [flat_map]. rewrite !in_app_iff. destruct Hg as [->|Hg].
  - destruct i; try (left; left; refine (compile_labels _ g y E I Hy)).
    right. left. cbn [compile] in E. injection E as <-. cbn in Hy. destruct Hy as [<-|[]]. left. reflexivity.
  - specialize (IH gs0 g y eq_refl Hg Hy). rewrite in_app_iff in IH. tauto.
Qed.
Lemma rel_step n m o : api o = true -> is_finalize o = false -> o <> OLabel -> (forall d, o <> OCreate d) -> (forall l, given o l -> known n m l) ->
  rel f n m (step o) (step (renamed f o)).
Proof.
  intros Ha Hf Hn Hc Hg. destruct o as [[k|] c|bs|ev lenv r body|ev lenv r c|k| |l|k l|d| | | | |]; try discriminate Ha; try discriminate Hf; cbn [step renamed].
  - unfold nolabel. apply rel_bind; [|intros; apply rel_ret]. apply rel_on_page. intro. apply rel_cop.
  - unfold nolabel. apply rel_bind; [|intros; apply rel_ret]. apply rel_on_cur. intro. apply rel_cop.
  - unfold nolabel. apply rel_bind; [|intros; apply rel_ret]. apply rel_emit.
  - destruct (compile_all body) as [gs|] eqn:E; [|apply rel_fail]. apply rel_bind; [|intros; apply rel_ret]. apply rel_exec_all; [exact inj|].
    intros g y Hg' Hy. apply Hg. exists y. split; [exact (compiled_labels _ _ _ _ E Hg' Hy)|reflexivity].
  - assert (H : rel f n m (run_call ev lenv r c) (run_call ev (fun x => f (lenv x)) r c)).
    { apply rel_call; [exact inj|]. intros y Hy. apply Hg. exists y. split; [exact Hy|reflexivity]. }
    destruct c; try apply rel_ret; unfold nolabel; (apply rel_bind; [exact H|intros; apply rel_ret]).
  - unfold nolabel. apply rel_bind; [|intros; apply rel_ret]. unfold select_page. apply rel_bind; [apply rel_assert|]. intros _. destruct (pid_of k); [apply rel_set_cur|apply rel_fail].
  - elim Hn. reflexivity.
  - unfold nolabel, bind_label. apply rel_bind; [|intros; apply rel_ret]. apply rel_on_cur. intro. apply rel_bind_label_on; [exact inj|]. apply Hg. reflexivity.
  - unfold nolabel, bind_label_with_page. apply rel_bind; [|intros; apply rel_ret]. apply rel_on_page. intro. apply rel_bind_label_on; [exact inj|]. apply Hg. reflexivity.
  - elim (Hc d). reflexivity.
Qed.

(** ** New labels *)
Lemma known_mono n m n' m' l : (n <= n')%nat -> (m <= m')%nat -> known n m l -> known n' m' l. Proof. unfold RenameFacts.known. lia. Qed.
Lemma wait_mono n m n' m' es : (n <= n')%nat -> (m <= m')%nat -> Forall (entry_known f n m) es -> Forall (entry_known f n' m') es.
Proof.
  intros Hn Hm H. eapply Forall_impl; [|exact H]. intros e [H1 H2]. split; [exact (known_mono _ _ _ _ _ Hn Hm H1)|].
  destruct (fst e); try exact I. exact (known_mono _ _ _ _ _ Hn Hm H2).
Qed.
Lemma ren_left n m s1 s2 : ren n m s1 s2 -> ren (S n) m (set_labels (labels s1 ++ [label_new]) s1) s2.
Proof.
  intro K. destruct K. constructor; auto; cbn [labels set_labels].
  - rewrite app_length. cbn. lia.
  - intros l [H1 H2]. destruct (Nat.eq_dec l n) as [->|N].
    + rewrite rn_new2; [|exact H2|intros l Hl E; apply inj in E; lia]. rewrite nth_error_app2 by lia. replace (n - length (labels s1))%nat with 0%nat by lia. reflexivity.
    + rewrite nth_error_app1 by lia. apply rn_info. split; lia.
  - intros l H1 H2. destruct (Nat.eq_dec l n) as [->|N].
    + rewrite nth_error_app2 by lia. replace (n - length (labels s1))%nat with 0%nat by lia. reflexivity.
    + rewrite nth_error_app1 by lia. apply rn_new1; lia.
  - intros p. destruct (rn_wait p) as [A B]. split; (eapply wait_mono; [| |eassumption]; lia).
Qed.
Lemma ren_right n m s1 s2 : ren n m s1 s2 -> ren n (S m) s1 (set_labels (labels s2 ++ [label_new]) s2).
Proof.
  intro K. destruct K. constructor; auto; cbn [labels set_labels].
  - rewrite app_length. cbn. lia.
  - intros l [H1 H2]. destruct (Nat.eq_dec (f l) m) as [E|N].
    + rewrite rn_new1 by lia. rewrite nth_error_app2 by lia. replace (f l - length (labels s2))%nat with 0%nat by lia. reflexivity.
    + rewrite nth_error_app1 by lia. apply rn_info. split; lia.
  - intros l H1 H2. apply rn_new1; lia.
  - intros j H1 H2. destruct (Nat.eq_dec j m) as [->|N].
    + rewrite nth_error_app2 by lia. replace (m - length (labels s2))%nat with 0%nat by lia. reflexivity.
    + rewrite nth_error_app1 by lia. apply rn_new2; [lia|exact H2].
  - intros p. destruct (rn_wait p) as [A B]. split; (eapply wait_mono; [| |eassumption]; lia).
Qed.
Lemma ren_push n m p g1 g2 s1 s2 : ren n m s1 s2 -> (forall e, g2 (ren_page f e) = ren_page f (g1 e)) ->
  (forall e, Forall (entry_known f n m) (constants e) /\ Forall (entry_known f n m) (data e) -> Forall (entry_known f n m) (constants (g1 e)) /\ Forall (entry_known f n m) (data (g1 e))) ->
  ren n m (set_page p g1 s1) (set_page p g2 s2).
Proof.
  intros K Hg Hw. destruct K. constructor; auto; intro q; cbn [pages set_page].
  - rewrite rn_page. destruct (pid_eqb q p); [apply Hg|reflexivity].
  - destruct (pid_eqb q p); [apply Hw|]; apply rn_wait.
Qed.
Lemma ren_create n m d s1 s2 : ren n m s1 s2 -> f n = m -> (forall l, given (OCreate d) l -> known n m l) ->
  named f (answer (step (OCreate d) s1)) = answer (step (renamed f (OCreate d)) s2) /\
  (exists l, step (OCreate d) s1 = Ok (Some l) (outcome (step (OCreate d) s1))) /\
  (exists l, step (renamed f (OCreate d)) s2 = Ok (Some l) (outcome (step (renamed f (OCreate d)) s2))) /\
  ren (S n) (S m) (outcome (step (OCreate d) s1)) (outcome (step (renamed f (OCreate d)) s2)).
Proof.
  intros K Hn Hg. pose proof (ren_right _ _ _ _ (ren_left _ _ _ _ K)) as K2.
  assert (PC : forall t1 t2, (t2, f n) = entry f (t1, n) -> match t1 with DAbsAddress l => known n m l | _ => True end ->
    forall b : bool, ren (S n) (S m) (outcome ((l <- (if b then push_constant t1 else push_data t1) ;; ret (Some l)) s1)) (outcome ((l <- (if b then push_constant t2 else push_data t2) ;; ret (Some l)) s2)) /\
    answer ((l <- (if b then push_constant t1 else push_data t1) ;; ret (Some l)) s1) = inl (Some n) /\ answer ((l <- (if b then push_constant t2 else push_data t2) ;; ret (Some l)) s2) = inl (Some m)).
  { intros t1 t2 Ht Hk b. pose proof (rn_len1 _ _ _ _ _ K) as L1. pose proof (rn_len2 _ _ _ _ _ K) as L2. pose proof (rn_cur _ _ _ _ _ K) as C.
    assert (Hk' : entry_known f (S n) (S m) (t1, n)).
    { split; cbn [fst snd]; [unfold RenameFacts.known; lia|]. destruct t1; try exact I. eapply known_mono; [| |exact Hk]; lia. }
    destruct b; unfold push_constant, push_data, new_label, bind, on_cur, modify, ret; cbn [outcome answer cur set_labels]; (split; [|split; f_equal; f_equal; assumption]); rewrite <- C, L1, L2.
    - apply ren_push; [exact K2| |].
      + intro e. unfold ren_page, with_constants. cbn [counter constants data code_len code_block_top code_block]. rewrite map_app. refine (f_equal (fun z => mkPage (counter e) (map (entry f) (constants e) ++ [z]) (map (entry f) (data e)) (code_len e) (code_block_top e) (code_block e)) _). rewrite <- Hn. exact Ht.
      + intros e [Hc Hd]. split; [|exact Hd]. cbn. apply Forall_app. split; [exact Hc|]. constructor; [exact Hk'|constructor].
    - apply ren_push; [exact K2| |].
      + intro e. unfold ren_page, with_data. cbn [counter constants data code_len code_block_top code_block]. rewrite map_app. refine (f_equal (fun z => mkPage (counter e) (map (entry f) (constants e)) (map (entry f) (data e) ++ [z]) (code_len e) (code_block_top e) (code_block e)) _). rewrite <- Hn. exact Ht.
      + intros e [Hc Hd]. split; [exact Hc|]. cbn. apply Forall_app. split; [exact Hd|]. constructor; [exact Hk'|constructor]. }
  assert (Q : forall t1 t2 b, (t2, f n) = entry f (t1, n) -> match t1 with DAbsAddress l => known n m l | _ => True end ->
    step (OCreate d) = (l <- (if b : bool then push_constant t1 else push_data t1) ;; ret (Some l)) ->
    step (renamed f (OCreate d)) = (l <- (if b then push_constant t2 else push_data t2) ;; ret (Some l)) ->
    named f (answer (step (OCreate d) s1)) = answer (step (renamed f (OCreate d)) s2) /\
    (exists l, step (OCreate d) s1 = Ok (Some l) (outcome (step (OCreate d) s1))) /\
    (exists l, step (renamed f (OCreate d)) s2 = Ok (Some l) (outcome (step (renamed f (OCreate d)) s2))) /\
    ren (S n) (S m) (outcome (step (OCreate d) s1)) (outcome (step (renamed f (OCreate d)) s2))).
  { intros t1 t2 b Ht Hk E1 E2. rewrite E1, E2. destruct (PC t1 t2 Ht Hk b) as (R & A1 & A2). rewrite A1, A2. split; [cbn [named]; rewrite Hn; reflexivity|].
    split; [|split; [|exact R]].
    - destruct ((l <- (if b then push_constant t1 else push_data t1) ;; ret (Some l)) s1); cbn [answer outcome] in *; [injection A1 as ->; eauto|discriminate].
    - destruct ((l <- (if b then push_constant t2 else push_data t2) ;; ret (Some l)) s2); cbn [answer outcome] in *; [injection A2 as ->; eauto|discriminate]. }
  destruct d; [eapply (Q _ _ true)|eapply (Q _ _ true)|eapply (Q _ _ true)|eapply (Q _ _ true)|eapply (Q _ _ true)|eapply (Q _ _ true)|eapply (Q _ _ false)|eapply (Q _ _ false)|eapply (Q _ _ false)];
    try reflexivity; try exact I. apply Hg. reflexivity.
Qed.

(** ** finalize *)
Lemma laid_end_entry : forall es c, laid_end c (map (entry f) es) = laid_end c es.
Proof. induction es as [|[d l] es IH]; intro c; [reflexivity|]. cbn [map laid_end]. rewrite IH. destruct d; reflexivity. Qed.
Lemma ren_waiting n m s1 s2 p : ren n m s1 s2 -> waiting s2 p = map (entry f) (waiting s1 p).
Proof. intro K. destruct p; cbn [waiting]; rewrite ?(rn_page _ _ _ _ _ K); cbn [ren_page constants data]; rewrite ?map_app; reflexivity. Qed.
Lemma nth_info s l : (l < length (labels s))%nat -> nth_error (labels s) l = Some (mkLabel (loc_of s l) (refs s l)).
Proof. intro H. unfold loc_of, refs. destruct (nth_error (labels s) l) as [[a b]|] eqn:E; [reflexivity|]. apply nth_error_None in E. lia. Qed.
Lemma ren_finalize n m s1 s2 : ren n m s1 s2 -> Inv s1 -> Inv s2 ->
  answer (step OFinalize s1) = answer (step OFinalize s2) /\
  match after OFinalize s1, after OFinalize s2 with Some t1, Some t2 => ren n m t1 t2 | None, None => True | _, _ => False end.
Proof.
  intros K I1 I2.
  assert (Ko : ren n m (opened s1) (opened s2)).
  { unfold opened. apply ren_push; [|reflexivity|intros e H; exact H]. apply ren_push; [|reflexivity|intros e H; exact H]. apply ren_push; [exact K|reflexivity|intros e H; exact H]. }
  assert (Kp : rel f n m place_all place_all).
  { unfold place_all. apply rel_bind; [apply rel_resolve_constants|intros _; apply rel_resolve_data]; exact inj. }
  destruct (Kp _ _ Ko) as (Aa & Ke).
  assert (As : forall s, step OFinalize s = match place_all (opened s) with Ok _ se => match finish se with Ok _ s' => Ok None s' | Panic e s' => Panic e s' end | Panic e se => Panic e se end).
  { intros s. cbn [step]. unfold nolabel, bind. rewrite finalize_split. destruct (place_all (opened s)) as [[] se|e se]; [|reflexivity].
    destruct (finish se) as [[] s'|e s']; reflexivity. }
  assert (G1 := As s1). assert (G2 := As s2). clear As Kp.
  destruct (place_all (opened s1)) as [[] e1|p1 e1] eqn:E1, (place_all (opened s2)) as [[] e2|p2 e2] eqn:E2; cbn [answer outcome] in Aa, Ke; try discriminate Aa.
  2:{ unfold after. rewrite G1, G2. cbn [answer tolerated is_finalize negb andb]. injection Aa as ->. split; [reflexivity|exact I]. }
  destruct (place_spec_at s1 e1 I1 E1) as (t1 & m1 & X1 & (C1 & M1 & L1) & F1). destruct (place_spec_at s2 e2 I2 E2) as (t2 & m2 & X2 & (C2 & M2 & L2) & F2).
  rewrite X1 in G1. rewrite X2 in G2. unfold after. rewrite G1, G2. cbn [answer]. split; [reflexivity|]. clear G1 G2 X1 X2 E1 E2 Aa Ko.
  assert (B : base m1 = base m2) by (rewrite C1, C2; apply (rn_base _ _ _ _ _ Ke)).
  assert (HK : forall l, known n m l -> loc_of m2 (f l) = loc_of m1 l /\ refs m2 (f l) = refs m1 l).
  { intros l Hl. unfold loc_of, refs. rewrite L1, L2, (rn_info _ _ _ _ _ Ke l Hl). auto. }
  assert (HN1 : forall l, ~ known n m l -> loc_of m1 l = None /\ refs m1 l = []).
  { intros l Hl. unfold loc_of, refs. rewrite L1. destruct (Nat.lt_ge_cases l n) as [H|H].
    - rewrite (rn_new1 _ _ _ _ _ Ke l H); [split; reflexivity|]. unfold RenameFacts.known in Hl. lia.
    - rewrite (proj2 (nth_error_None _ _)); [split; reflexivity|]. rewrite (rn_len1 _ _ _ _ _ Ke). exact H. }
  assert (HN2 : forall j, (forall l, known n m l -> f l <> j) -> loc_of m2 j = None /\ refs m2 j = []).
  { intros j Hj. unfold loc_of, refs. rewrite L2. destruct (Nat.lt_ge_cases j m) as [H|H].
    - rewrite (rn_new2 _ _ _ _ _ Ke j H); [split; reflexivity|]. intros l Hl E. apply (Hj l); [|exact E]. split; [exact Hl|rewrite E; exact H].
    - rewrite (proj2 (nth_error_None _ _)); [split; reflexivity|]. rewrite (rn_len2 _ _ _ _ _ Ke). exact H. }
  assert (Dk : forall l, known n m l \/ ~ known n m l) by (intro l; unfold RenameFacts.known; lia).
  assert (Dj : forall j, (exists l, known n m l /\ f l = j) \/ forall l, known n m l -> f l <> j).
  { intro j. destruct (Nat.lt_ge_cases j m) as [Hj|Hj].
    - assert (D : forall k, (exists l, (l < k)%nat /\ f l = j) \/ forall l, (l < k)%nat -> f l <> j).
      { induction k as [|k [(l & A & E)|IH]]; [right; lia|left; exists l; split; [lia|exact E]|]. destruct (Nat.eq_dec (f k) j) as [E|N]; [left; exists k; split; [lia|exact E]|].
        right. intros l Hl E. destruct (Nat.eq_dec l k) as [->|]; [congruence|]. apply (IH l); [lia|exact E]. }
      destruct (D n) as [(l & A & E)|H]; [left; exists l; split; [split; [exact A|rewrite E; exact Hj]|exact E]|right; intros l [Hl _]; apply H, Hl].
    - right. intros l [_ Hl] E. lia. }
  assert (T1 : length (labels t1) = n) by (rewrite (fn_len _ _ _ F1); apply (rn_len1 _ _ _ _ _ K)).
  assert (T2 : length (labels t2) = m) by (rewrite (fn_len _ _ _ F2); apply (rn_len2 _ _ _ _ _ K)).
  assert (Hcnt : forall p, cnt m1 p = cnt m2 p).
  { intro p. rewrite (fn_end _ _ _ _ F1), (fn_end _ _ _ _ F2), (ren_waiting _ _ _ _ p K), laid_end_entry. f_equal. unfold cnt. rewrite (rn_page _ _ _ _ _ K). reflexivity. }
  constructor; auto.
  - rewrite (fn_base _ _ _ F1), (fn_base _ _ _ F2). apply (rn_base _ _ _ _ _ K).
  - rewrite (fn_cur _ _ _ F1), (fn_cur _ _ _ F2). apply (rn_cur _ _ _ _ _ K).
  - intro x. destruct (field_dec m1 x) as [(l & t & Hl & Ht & Hf)|N].
    + destruct (Dk l) as [Kl|Kl]; [|elim Hl; apply (HN1 l Kl)]. destruct (HK l Kl) as [Q1 Q2]. destruct (loc_of m1 l) as [[q y]|] eqn:El; [|congruence].
      pose proof (fn_value _ _ _ F1 l q y t El Ht) as V1. pose proof (fn_value _ _ _ F2 (f l) q y t Q1 ltac:(rewrite Q2; exact Ht)) as V2.
      assert (Ba : base t1 = base t2) by (rewrite (fn_base _ _ _ F1), (fn_base _ _ _ F2); apply (rn_base _ _ _ _ _ K)).
      assert (Bm : base t1 = base m1) by (rewrite (fn_base _ _ _ F1); symmetry; apply (ex_base _ _ _ (fn_ext _ _ _ F1))).
      unfold bytes in V1, V2. rewrite (fval_base m1 m2) in V2 by congruence. rewrite (addr_base m1 m2) in V2 by congruence. rewrite (addr_base t1 t2) in V2 by congruence. rewrite <- V1 in V2.
      apply (at_field_base m1 t1) in Hf; [|congruence]. unfold at_field, faddr in Hf. pose proof (flen_pos t).
      assert (RD : forall k a, read (mem t2) a k = read (mem t1) a k -> forall i, a <= i < a + Z.of_nat k -> mem t1 i = mem t2 i).
      { clear. induction k as [|k IH]; intros a E i Hi; [lia|]. cbn [read] in E. injection E as A B'. destruct (Z.eq_dec i a) as [->|]; [symmetry; exact A|]. apply (IH (a + 1)); [exact B'|lia]. }
      apply (RD _ _ V2). lia.
    + rewrite (fn_frame _ _ _ F1 x N), M1, (rn_mem _ _ _ _ _ Ke x), <- M2. symmetry. apply (fn_frame _ _ _ F2). intros j t Hj Ht Hf.
      destruct (Dj j) as [(l & Kl & <-)|H]; [|elim Hj; apply (HN2 j H)]. destruct (HK l Kl) as [Q1 Q2].
      apply (N l t); [rewrite <- Q1; exact Hj|rewrite <- Q2; exact Ht|]. apply (at_field_base m1 m2); [congruence|exact Hf].
  - intro p. rewrite (fn_pages _ _ _ F1), (fn_pages _ _ _ F2). unfold finish_page, ren_page. cbn [counter constants data code_len code_block_top code_block map].
    rewrite <- (Hcnt p). unfold cnt at 2 4. rewrite !(rn_page _ _ _ _ _ K). cbn [ren_page counter code_block code_block_top]. reflexivity.
  - intros l Hl. destruct (HK l Hl) as [Q1 Q2]. rewrite !nth_info by (unfold RenameFacts.known in Hl; lia). rewrite (fn_loc _ _ _ F1), (fn_loc _ _ _ F2), (fn_refs _ _ _ F1), (fn_refs _ _ _ F2), Q1, Q2. reflexivity.
  - intros l H1 H2. destruct (HN1 l) as [Q1 Q2]; [unfold RenameFacts.known; lia|]. rewrite nth_info by lia. rewrite (fn_loc _ _ _ F1), (fn_refs _ _ _ F1), Q1, Q2. reflexivity.
  - intros j H1 H2. destruct (HN2 j) as [Q1 Q2]; [intros l [Hl _]; apply H2, Hl|]. rewrite nth_info by lia. rewrite (fn_loc _ _ _ F2), (fn_refs _ _ _ F2), Q1, Q2. reflexivity.
  - intro p. rewrite (fn_pages _ _ _ F1). split; constructor.
Qed.

(** ** Histories *)
Lemma api_renamed o : api (renamed f o) = api o. Proof. destruct o; try reflexivity. destruct d; reflexivity. Qed.
Lemma finalize_renamed o : is_finalize (renamed f o) = is_finalize o. Proof. destruct o; try reflexivity. destruct d; reflexivity. Qed.
Lemma is_label_renamed o : is_label (renamed f o) = is_label o. Proof. destruct o; try reflexivity. destruct d; reflexivity. Qed.
Lemma nolabel_answer q s : named f (answer (nolabel q s)) = answer (nolabel q s).
Proof. unfold nolabel, bind. destruct (q s); reflexivity. Qed.
Lemma unnamed o s : o <> OLabel -> (forall d, o <> OCreate d) -> named f (answer (step o s)) = answer (step o s).
Proof.
  intros Hn Hc. destruct o as [[k|] c|bs|ev lenv r body|ev lenv r c|k| |l|k l|d| | | | |]; cbn [step]; try apply nolabel_answer.
  - destruct (compile_all body) as [gs|]; [|reflexivity]. unfold bind. destruct (exec_all ev lenv r gs s); reflexivity.
  - destruct c; try apply nolabel_answer. reflexivity.
  - elim Hn. reflexivity.
  - elim (Hc d). reflexivity.
Qed.
Lemma rename_run : forall n m a b, alike f n m a b -> forall s1 s2, ren n m s1 s2 -> Inv s1 -> Inv s2 -> forallb api a = true ->
  map (named f) (replies a s1) = replies b s2 /\
  match run a s1, run b s2 with Some t1, Some t2 => exists n' m', ren n' m' t1 t2 | None, None => True | _, _ => False end.
Proof.
  induction 1 as [n m|n m a b H IH|n m a b H IH|n m d a b Hg Hn H IH|n m o a b Ho Hc Hg H IH]; intros s1 s2 K I1 I2 Ha.
  - split; [reflexivity|]. exists n, m. exact K.
  - cbn [forallb] in Ha. apply andb_true_iff in Ha. destruct Ha as [Hl Ha]. cbn [replies run is_label app].
    set (u := set_labels (labels s1 ++ [label_new]) s1). assert (E : after OLabel s1 = Some u) by reflexivity. rewrite E.
    exact (IH u s2 (ren_left _ _ _ _ K) (Inv_step _ _ _ I1 Hl E) I2 Ha).
  - cbn [replies run is_label app].
    set (u := set_labels (labels s2 ++ [label_new]) s2). assert (E : after OLabel s2 = Some u) by reflexivity. rewrite E.
    exact (IH s1 u (ren_right _ _ _ _ K) I1 (Inv_step OLabel _ _ I2 eq_refl E) Ha).
  - cbn [forallb] in Ha. apply andb_true_iff in Ha. destruct Ha as [Hd Ha]. cbn [replies run]. rewrite is_label_renamed. cbn [is_label app map].
    destruct (ren_create n m d s1 s2 K Hn Hg) as (A & (l1 & E1) & (l2 & E2) & K').
    set (u1 := outcome (step (OCreate d) s1)) in *. set (u2 := outcome (step (renamed f (OCreate d)) s2)) in *.
    assert (A1 : after (OCreate d) s1 = Some u1) by (unfold after; rewrite E1; reflexivity).
    assert (A2 : after (renamed f (OCreate d)) s2 = Some u2) by (unfold after; rewrite E2; reflexivity).
    rewrite A1, A2, A. destruct (IH u1 u2 K' (Inv_step _ _ _ I1 Hd A1) (Inv_step _ _ _ I2 (eq_trans (api_renamed _) Hd) A2) Ha) as [R1 R2].
    split; [rewrite R1; reflexivity|exact R2].
  - cbn [forallb] in Ha. apply andb_true_iff in Ha. destruct Ha as [Hd Ha]. cbn [replies run]. rewrite is_label_renamed.
    assert (L : is_label o = false) by (destruct o; try reflexivity; elim Ho; reflexivity). rewrite L. clear L. cbn [app map]. rewrite (unnamed o s1 Ho Hc).
    assert (Q : answer (step o s1) = answer (step (renamed f o) s2) /\
      match after o s1, after (renamed f o) s2 with Some t1, Some t2 => ren n m t1 t2 | None, None => True | _, _ => False end).
    { destruct (is_finalize o) eqn:Hf.
      - destruct o; try discriminate Hf. exact (ren_finalize n m s1 s2 K I1 I2).
      - destruct (rel_step n m o Hd Hf Ho Hc Hg s1 s2 K) as [A K']. split; [exact A|]. unfold after.
        assert (Tl : forall e, tolerated (renamed f o) e = tolerated o e) by (intro e; unfold tolerated; rewrite finalize_renamed; reflexivity).
        destruct (step o s1) as [x1 u1|e1 u1], (step (renamed f o) s2) as [x2 u2|e2 u2]; cbn [answer outcome] in A, K'; try discriminate A; [exact K'|].
        injection A as ->. rewrite Tl. destruct (tolerated o e2); [exact K'|exact I]. }
    destruct Q as [A Q]. rewrite A.
    destruct (after o s1) as [u1|] eqn:E1, (after (renamed f o) s2) as [u2|] eqn:E2; try (elim Q; fail); [|split; [reflexivity|exact I]].
    destruct (IH u1 u2 Q (Inv_step _ _ _ I1 Hd E1) (Inv_step _ _ _ I2 (eq_trans (api_renamed _) Hd) E2) Ha) as [R1 R2].
    split; [rewrite R1; reflexivity|exact R2].
Qed.
Lemma ren_new b0 m0 : ren 0 0 (jit_new b0 m0) (jit_new b0 m0).
Proof. constructor; try reflexivity; intros; try lia. - unfold RenameFacts.known in *; lia. - split; constructor. Qed.
Lemma ren_names n m s1 s2 : ren n m s1 s2 -> same_but_names f s1 s2.
Proof.
  intro K. constructor.
  - apply (rn_base _ _ _ _ _ K).
  - apply (rn_cur _ _ _ _ _ K).
  - apply (rn_mem _ _ _ _ _ K).
  - intro p. rewrite (rn_page _ _ _ _ _ K). reflexivity.
  - intro p. rewrite (rn_page _ _ _ _ _ K). repeat split.
  - intros l H1 H2. rewrite (rn_len1 _ _ _ _ _ K) in H1. rewrite (rn_len2 _ _ _ _ _ K) in H2. unfold loc_of, refs. rewrite (rn_info _ _ _ _ _ K l (conj H1 H2)). split; reflexivity.
  - intro p. apply (ren_waiting _ _ _ _ p K).
Qed.
End Rename.

Lemma renaming f b0 m0 a b : (forall x y, f x = f y -> x = y) -> alike f 0 0 a b -> forallb api a = true ->
  let s := jit_new b0 m0 in
  map (named f) (replies a s) = replies b s /\
  match run a s, run b s with Some s1, Some s2 => same_but_names f s1 s2 | None, None => True | _, _ => False end.
Proof.
  intros inj H Ha s. destruct (rename_run f inj 0 0 a b H s s (ren_new f inj b0 m0) (Inv_new b0 m0) (Inv_new b0 m0) Ha) as [A B]. split; [exact A|].
  destruct (run a s) as [s1|], (run b s) as [s2|]; try exact B. destruct B as (n & m & B). exact (ren_names f n m s1 s2 B).
Qed.
