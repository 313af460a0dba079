(** Two histories, one of which calls finalize early. *)
From Verif Require Import Base ModelMem ModelEnc ModelSyntax ModelMacro SpecState SpecHist SpecShare Emit MemInv MemStep MemFinal MemFill MemHist MemRun MemMisc MemFacts MemPlace SpecWhen WhenFacts.
Local Notation length := List.length.
Local Open Scope list_scope.
Local Open Scope Z_scope.

(** ** The references already filled stay filled *)
Definition linked_refs (D : label -> list target) (s : jit) : Prop :=
  forall l t, In t (D l) -> fixed_label s l /\ (forall i, fpos t <= i < fpos t + flen t -> settled s (fpage t) i) /\ exists p x, resolved_at s l t p x.
Lemma loc_addr s l : label_addr s l = None -> loc_of s l = None.
Proof. unfold label_addr. destruct (loc_of s l) as [[p x]|]; [discriminate|reflexivity]. Qed.
Lemma linked_step D o s s' : Inv s -> api o = true -> after o s = Some s' -> (forall l, binds_label o l -> label_addr s l = None) ->
  linked_refs D s -> linked_refs D s'.
Proof.
  intros I Ha E Hb L l t Ht. destruct (L l t Ht) as (Hf & Hs & p & x & Hl & Hv). pose proof (step_effect _ _ _ I Ha E) as F.
  assert (E1 : run [o] s = Some s') by (cbn [run]; rewrite E; reflexivity). assert (A1 : forallb api [o] = true) by (cbn [forallb]; rewrite Ha; reflexivity).
  split; [eapply fixed_step; eauto|]. split; [intros i Hi; apply (settled_effect o s s' _ i I F (Hs i Hi))|].
  exists p, x. split.
  - rewrite (loc_step o s s' l I Ha E Hf); [exact Hl|]. intro Hr. apply binds_agree in Hr. apply Hb, loc_addr in Hr. congruence.
  - rewrite (settled_bytes [o] s s' _ _ _ I A1 E1); [|intros i Hi; apply Hs; pose proof (flen_pos t); lia].
    rewrite (fval_base s s') by apply (effect_base _ _ _ F). rewrite (addr_base s s') by apply (effect_base _ _ _ F). exact Hv.
Qed.

(** ** finalize with nothing to place *)
Lemma idle_lists s : Inv s -> idle s -> forall p, constants (pages s p) = [] /\ data (pages s p) = [].
Proof.
  intros I W. pose proof (W P0) as W0. pose proof (W P1) as W1. pose proof (W P2) as W2. cbn [waiting] in W0, W1, W2. apply app_eq_nil in W2. destruct W2 as [W2 W3].
  destruct (iv_q _ I) as [_ [Q1 Q2] _ _]. intros []; auto.
Qed.
Lemma no_constants p s : constants (pages s p) = [] -> resolve_constants_of p s = Ok tt (set_page p (with_constants []) s).
Proof. intro H. unfold resolve_constants_of, bind, ModelMem.get, modify. rewrite H. reflexivity. Qed.
Lemma no_data p s : data (pages s p) = [] -> resolve_data_of p s = Ok tt (set_page p (with_data []) s).
Proof. intro H. unfold resolve_data_of, bind, ModelMem.get, modify. rewrite H. reflexivity. Qed.
Lemma idle_place s : Inv s -> idle s -> exists se, place_all (opened s) = Ok tt se.
Proof.
  intros I W. pose proof (idle_lists s I W) as H.
  assert (H0 : forall p, constants (pages (opened s) p) = [] /\ data (pages (opened s) p) = []) by (intro p; rewrite opened_pages; apply (H p)).
  generalize dependent (opened s). clear. intros t H. unfold place_all, resolve_constants, resolve_data. cbn [forM]. unfold bind.
  rewrite (no_constants P0) by apply H. rewrite (no_constants P1) by apply H. unfold ret. rewrite (no_data P0) by apply (H P0). rewrite (no_data P1) by apply (H P1).
  eexists. reflexivity.
Qed.
Lemma queue_idle s : Inv s -> idle s -> queue s = [].
Proof. intros I W. pose proof (idle_lists s I W) as H. unfold queue. rewrite !(proj1 (H _)), !(proj2 (H _)). reflexivity. Qed.
Lemma idle_finalize s : Inv s -> idle s -> exists s' m, after OFinalize s = Some s' /\ finalized s m s' /\
  (forall l, loc_of m l = loc_of s l) /\ (forall l, refs m l = refs s l) /\ (forall x, mem m x = mem s x) /\ (forall p, cnt m p = cnt s p).
Proof.
  intros I W. destruct (idle_place s I W) as [se E]. destruct (place_spec s se I E) as (s' & m & Ef & F). exists s', m.
  pose proof (idle_lists s I W) as H. pose proof (queue_idle s I W) as Q.
  assert (C : forall p, cnt m p = cnt s p).
  { intros []; [rewrite (fn_end0 _ _ _ F)|rewrite (fn_end1 _ _ _ F)|rewrite (fn_end2 _ _ _ F)]; rewrite ?(proj1 (H _)), ?(proj2 (H _)); reflexivity. }
  split; [|split; [exact F|]].
  - unfold after. cbn [step]. unfold nolabel, bind. rewrite finalize_split, E, Ef. reflexivity.
  - pose proof (fn_ext _ _ _ F) as X. repeat split.
    + intro l. destruct (ex_loc _ _ _ X l) as [L|[L _]]; [exact L|]. rewrite Q in L. elim L.
    + intro l. destruct (ex_refs _ _ _ X l) as [ts R]. destruct ts as [|t ts]; [rewrite R, app_nil_r; reflexivity|].
      assert (N : nth_error (refs m l) (length (refs s l)) = Some t) by (rewrite R, nth_error_app2, Nat.sub_diag by lia; reflexivity).
      destruct (ex_new _ _ _ X l _ t (le_n _) N) as (A & B & _). rewrite C in B. pose proof (flen_pos t). lia.
    + intro x. apply (ex_mem _ _ _ X). intros p Hp. rewrite C in Hp. lia.
    + exact C.
Qed.

(** ** Stepping together *)
Definition grown (D : label -> list target) (s : jit) (l : label) : list target := D l ++ match loc_of s l with Some _ => refs s l | None => [] end.
Lemma at_bytes s s' t x : base s = base s' -> bytes s (fpage t) (fpos t) (Z.to_nat (flen t)) = bytes s' (fpage t) (fpos t) (Z.to_nat (flen t)) -> at_field s t x -> mem s x = mem s' x.
Proof.
  intros B E H. unfold bytes in E. rewrite (addr_base s' s) in E by exact B. unfold at_field, faddr in H.
  assert (K : forall n a, read (mem s) a n = read (mem s') a n -> forall y, a <= y < a + Z.of_nat n -> mem s y = mem s' y).
  { clear. induction n as [|n IH]; intros a E y Hy; [lia|]. cbn [read] in E. injection E as E1 E2. destruct (Z.eq_dec y a) as [->|N]; [exact E1|].
    apply (IH (a + 1) E2). lia. }
  apply (K _ _ E). rewrite (addr_base s' s) in H by exact B. pose proof (flen_pos t). lia.
Qed.
Lemma early D s1 s2 : Inv s2 -> sim D s1 s2 -> linked_refs D s2 -> idle s2 ->
  exists s2', after OFinalize s2 = Some s2' /\ sim (grown D s2) s1 s2' /\ linked_refs (grown D s2) s2'.
Proof.
  intros I S L W. destruct (idle_finalize s2 I W) as (s2' & m & E & F & HL & HR & HM & HC). exists s2'. split; [exact E|].
  pose proof (idle_lists s2 I W) as HI. assert (Ha : api OFinalize = true) by reflexivity. split.
  - constructor.
    + rewrite (sm_base _ _ _ S), (fn_base _ _ _ F). reflexivity.
    + rewrite (sm_cur _ _ _ S), (fn_cur _ _ _ F). reflexivity.
    + intro p. rewrite (sm_page _ _ _ S p), (fn_pages _ _ _ F). unfold shape, finish_page. cbn [counter constants data].
      rewrite HC, (proj1 (HI p)), (proj2 (HI p)). reflexivity.
    + rewrite (sm_len _ _ _ S), (fn_len _ _ _ F). reflexivity.
    + intro l. rewrite (sm_loc _ _ _ S), (fn_loc _ _ _ F), HL. reflexivity.
    + intro l. rewrite (sm_refs _ _ _ S), (fn_refs _ _ _ F), HL, HR. unfold grown. destruct (loc_of s2 l); rewrite <- ?app_assoc, ?app_nil_r; reflexivity.
    + intros x Hx. assert (N : forall l t, In t (grown D s2 l) -> ~ at_field s2 t x).
      { intros l t Ht Hf. apply (Hx l t Ht). apply (at_field_base s2 s2'); [apply (fn_base _ _ _ F)|exact Hf]. }
      assert (Q : mem s1 x = mem s2 x); [apply (sm_mem _ _ _ S)|rewrite Q, <- HM]; cycle 1.
      * symmetry. apply (fn_frame _ _ _ F). intros l t Hl Ht Hf. rewrite HL in Hl. rewrite HR in Ht.
        apply (N l t); [unfold grown; apply in_or_app; right; destruct (loc_of s2 l); [exact Ht|congruence]|].
        apply (at_field_base s2 m); [apply (ex_base _ _ _ (fn_ext _ _ _ F))|exact Hf].
      * intros l t Ht. apply (N l). unfold grown. apply in_or_app. left. exact Ht.
  - intros l t Ht. unfold grown in Ht. apply in_app_or in Ht. destruct Ht as [Ht|Ht].
    + apply (linked_step D OFinalize s2 s2' I Ha E); [cbn [binds_label]; tauto|exact L|exact Ht].
    + destruct (loc_of s2 l) as [[p x]|] eqn:El; [|elim Ht]. pose proof (ref_finalize _ _ _ l t I F Ht) as R.
      rewrite (fn_loc _ _ _ F), HL, El in R. destruct R as (_ & Hv & Hs).
      split; [|split; [exact Hs|exists p, x; split; [rewrite (fn_loc _ _ _ F), HL; exact El|exact Hv]]].
      eapply fixed_step; [exact I|exact Ha|exact E|]. split; [|rewrite (queue_idle s2 I W); auto].
      unfold loc_of in El. apply nth_error_Some. destruct (nth_error (labels s2) l); congruence.
Qed.
Lemma together D o s1 s2 : api o = true -> is_finalize o = false -> sim D s1 s2 ->
  answer (step o s1) = answer (step o s2) /\
  match after o s1, after o s2 with Some t1, Some t2 => sim D t1 t2 | None, None => True | _, _ => False end.
Proof.
  intros Ha Hf S. destruct (obs_step D o Ha Hf s1 s2 S) as [A B]. split; [exact A|]. unfold after.
  destruct (step o s1) as [a1 t1|e1 t1], (step o s2) as [a2 t2|e2 t2]; cbn [answer outcome] in *; try discriminate A; [exact B|].
  injection A as <-. destruct (tolerated o e1); [exact B|exact I].
Qed.
Lemma run_together : forall ops D s1 s2, Inv s1 -> Inv s2 -> sim D s1 s2 -> linked_refs D s2 -> forallb api ops = true -> well_timed ops s2 ->
  answered (put_off ops) s1 = answered ops s2 /\
  match run (put_off ops) s1, run ops s2 with
  | Some t1, Some t2 => exists D', sim D' t1 t2 /\ linked_refs D' t2 /\ Inv t1 /\ Inv t2
  | None, None => True
  | _, _ => False
  end.
Proof.
  induction ops as [|o ops IH]; intros D s1 s2 I1 I2 S L Ha W.
  - split; [reflexivity|]. cbn [put_off filter run]. exists D. auto.
  - cbn [forallb] in Ha. apply andb_true_iff in Ha. destruct Ha as [Ho Ha]. cbn [well_timed] in W. destruct W as (W1 & W2 & W3).
    destruct (is_finalize o) eqn:Hf.
    + destruct o; try discriminate Hf. destruct (early D s1 s2 I2 S L (W1 eq_refl)) as (s2' & E & S' & L'). rewrite E in W3.
      pose proof (Inv_step _ _ _ I2 Ho E) as I2'. destruct (IH _ s1 s2' I1 I2' S' L' Ha W3) as [A B].
      cbn [put_off filter is_finalize negb answered run app]. rewrite E. split; [exact A|exact B].
    + destruct (together D o s1 s2 Ho Hf S) as [A B]. cbn [put_off filter]. rewrite Hf. cbn [negb answered run]. rewrite Hf, A.
      destruct (after o s1) as [t1|] eqn:E1, (after o s2) as [t2|] eqn:E2; try (elim B; fail).
      * pose proof (linked_step D o s2 t2 I2 Ho E2 W2 L) as L'.
        destruct (IH D t1 t2 (Inv_step _ _ _ I1 Ho E1) (Inv_step _ _ _ I2 Ho E2) B L' Ha W3) as [A' B']. split; [|exact B'].
        f_equal. exact A'.
      * split; [reflexivity|exact I].
Qed.

(** ** The last finalize *)
Lemma field_dec s x : (exists l t, loc_of s l <> None /\ In t (refs s l) /\ at_field s t x) \/ (forall l t, loc_of s l <> None -> In t (refs s l) -> ~ at_field s t x).
Proof.
  assert (K : forall n, (exists l t, loc_of s l <> None /\ In t (refs s l) /\ at_field s t x) \/
     (forall l t, (l < n)%nat -> loc_of s l <> None -> In t (refs s l) -> ~ at_field s t x)).
  { induction n as [|n [H|H]]; [right; intros; lia|left; exact H|].
    destruct (loc_of s n) as [q|] eqn:E.
    - assert (J : (exists t, In t (refs s n) /\ at_field s t x) \/ (forall t, In t (refs s n) -> ~ at_field s t x)).
      { induction (refs s n) as [|t ts [[u [Hu Fu]]|Hn]]; [right; intros t []|left; exists u; split; [right; exact Hu|exact Fu]|].
        destruct (Z_le_gt_dec (faddr s t) x); [destruct (Z_lt_ge_dec x (faddr s t + flen t))|].
        - left. exists t. split; [left; reflexivity|]. unfold at_field. lia.
        - right. intros u [<-|Hu]; [unfold at_field; lia|apply Hn, Hu].
        - right. intros u [<-|Hu]; [unfold at_field; lia|apply Hn, Hu]. }
      destruct J as [[t [Ht Hf]]|J]; [left; exists n, t; split; [congruence|split; assumption]|].
      right. intros l t Hl Hb Ht. destruct (Nat.eq_dec l n) as [->|N]; [apply J, Ht|apply (H l t); [lia|exact Hb|exact Ht]].
    - right. intros l t Hl Hb Ht. destruct (Nat.eq_dec l n) as [->|N]; [congruence|apply (H l t); [lia|exact Hb|exact Ht]]. }
  destruct (K (length (labels s))) as [H|H]; [left; exact H|]. right. intros l t Hb Ht. apply (H l t); [|exact Hb|exact Ht].
  unfold refs in Ht. apply nth_error_Some. destruct (nth_error (labels s) l); [discriminate|elim Ht].
Qed.
Lemma opened_sim D s1 s2 : sim D s1 s2 -> sim D (opened s1) (opened s2).
Proof.
  intro S. unfold opened. assert (Hf : forall g h, shape g = shape h -> shape (open_block g) = shape (open_block h)).
  { intros g h H. unfold shape in *. cbn [open_block with_blocks with_code_len counter constants data]. exact H. }
  repeat apply sim_set_page; assumption.
Qed.
Lemma place_obs D : obs D place_all.
Proof. unfold place_all. apply obs_bind; [apply obs_resolve_constants|intros _; apply obs_resolve_data]. Qed.
Lemma finish_same D s1 s2 m1 m2 t1 t2 : Inv s2 -> Inv s1 -> linked_refs D s2 -> api OFinalize = true -> after OFinalize s2 = Some t2 ->
  base s1 = base s2 -> cur s1 = cur s2 -> length (labels s1) = length (labels s2) -> (forall p, cnt m1 p = cnt m2 p) ->
  (forall l, loc_of m1 l = loc_of m2 l) -> (forall l, refs m1 l = D l ++ refs m2 l) -> (forall x, (forall l t, In t (D l) -> ~ at_field m2 t x) -> mem m1 x = mem m2 x) ->
  finalized s1 m1 t1 -> finalized s2 m2 t2 -> same_code t1 t2.
Proof.
  intros I2 I1 L Ha E2 HB HC HN HK HL HR HM F1 F2.
  assert (B1 : base m1 = base s1) by apply (ex_base _ _ _ (fn_ext _ _ _ F1)). assert (B2 : base m2 = base s2) by apply (ex_base _ _ _ (fn_ext _ _ _ F2)).
  assert (B3 : base t1 = base t2) by (rewrite (fn_base _ _ _ F1), (fn_base _ _ _ F2); exact HB).
  assert (L2 : linked_refs D t2) by (apply (linked_step D OFinalize s2 t2 I2 Ha E2); [cbn [binds_label]; tauto|exact L]).
  assert (LB : forall l t, In t (D l) -> loc_of m2 l <> None).
  { intros l t Ht. destruct (L2 l t Ht) as (_ & _ & p & x & Hl & _). rewrite <- (fn_loc _ _ _ F2). congruence. }
  constructor.
  - exact B3.
  - rewrite (fn_cur _ _ _ F1), (fn_cur _ _ _ F2). exact HC.
  - intro p. rewrite (fn_pages _ _ _ F1), (fn_pages _ _ _ F2). cbn [finish_page counter]. apply HK.
  - intro x. destruct (field_dec m1 x) as [(l & t & Hl & Ht & Hf)|N].
    + destruct (loc_of m1 l) as [[p y]|] eqn:El; [|congruence]. pose proof (fn_value _ _ _ F1 l p y t El Ht) as V1.
      apply (at_bytes t1 t2 t x B3); [|apply (at_field_base m1 t1); [rewrite (fn_base _ _ _ F1), B1; reflexivity|exact Hf]].
      rewrite V1. rewrite HL in El. rewrite HR in Ht. apply in_app_or in Ht. destruct Ht as [Ht|Ht].
      * destruct (L2 l t Ht) as (_ & _ & q & z & Hq & V2). rewrite (fn_loc _ _ _ F2), El in Hq. inversion Hq; subst q z. rewrite V2.
        rewrite (fval_base t2 m1) by (rewrite B1, (fn_base _ _ _ F2); exact HB). rewrite (addr_base t2 m1) by (rewrite B1, (fn_base _ _ _ F2); exact HB). reflexivity.
      * rewrite (fn_value _ _ _ F2 l p y t El Ht). rewrite (fval_base m2 m1), (addr_base m2 m1) by congruence. reflexivity.
    + rewrite (fn_frame _ _ _ F1 x N). assert (B12 : base m1 = base m2) by congruence.
      rewrite (fn_frame _ _ _ F2 x).
      * apply HM. intros l t Ht Hf. apply (N l t); [rewrite HL; exact (LB l t Ht)|rewrite HR; apply in_or_app; left; exact Ht|apply (at_field_base m2 m1); assumption].
      * intros l t Hl Ht Hf. apply (N l t); [rewrite HL; exact Hl|rewrite HR; apply in_or_app; right; exact Ht|apply (at_field_base m2 m1); assumption].
  - rewrite (fn_len _ _ _ F1), (fn_len _ _ _ F2). exact HN.
  - intro l. rewrite (fn_loc _ _ _ F1), (fn_loc _ _ _ F2). apply HL.
  - intro l. rewrite (fn_refs _ _ _ F1), (fn_refs _ _ _ F2), HL, HR. destruct (loc_of m2 l) eqn:El; [reflexivity|].
    destruct (D l) as [|t ts] eqn:Ed; [reflexivity|]. elim (LB l t); [rewrite Ed; left; reflexivity|exact El].
  - intro p. unfold waiting. rewrite !(fn_pages _ _ _ F1), !(fn_pages _ _ _ F2). destruct p; reflexivity.
Qed.
Lemma last_finalize D s1 s2 : Inv s1 -> Inv s2 -> sim D s1 s2 -> linked_refs D s2 ->
  match after OFinalize s1, after OFinalize s2 with Some t1, Some t2 => same_code t1 t2 | None, None => True | _, _ => False end.
Proof.
  intros I1 I2 S L. destruct (place_obs D (opened s1) (opened s2) (opened_sim D s1 s2 S)) as [A B].
  assert (Af : forall s, Inv s -> after OFinalize s = match place_all (opened s) with Ok _ se => match finish se with Ok _ s' => Some s' | Panic _ _ => None end | Panic _ _ => None end).
  { intros s I. unfold after. cbn [step]. unfold nolabel, bind. rewrite finalize_split. destruct (place_all (opened s)) as [[] se|e se]; [|reflexivity].
    destruct (finish se) as [[] s'|e s']; reflexivity. }
  pose proof (Af s1 I1) as G1. pose proof (Af s2 I2) as G2. clear Af.
  destruct (place_all (opened s1)) as [[] e1|p1 e1] eqn:E1, (place_all (opened s2)) as [[] e2|p2 e2] eqn:E2; cbn [answer outcome] in A, B; try discriminate A.
  - destruct (place_spec_at s1 e1 I1 E1) as (t1 & m1 & X1 & (B1 & M1 & L1) & F1). destruct (place_spec_at s2 e2 I2 E2) as (t2 & m2 & X2 & (B2 & M2 & L2) & F2).
    rewrite X1 in G1. rewrite X2 in G2. rewrite G1, G2.
    eapply (finish_same D s1 s2 m1 m2); try eassumption; try reflexivity.
    + apply (sm_base _ _ _ S).
    + apply (sm_cur _ _ _ S).
    + apply (sm_len _ _ _ S).
    + assert (H : forall p, cnt s1 p = cnt s2 p /\ constants (pages s1 p) = constants (pages s2 p) /\ data (pages s1 p) = data (pages s2 p)).
      { intro p. pose proof (sm_page _ _ _ S p) as H. unfold shape, cnt in *. repeat split; congruence. }
      destruct (H P0) as (H1 & H2 & H3), (H P1) as (H4 & H5 & H6), (H P2) as (H7 & _ & _).
      intros []; [rewrite (fn_end0 _ _ _ F1), (fn_end0 _ _ _ F2)|rewrite (fn_end1 _ _ _ F1), (fn_end1 _ _ _ F2)|rewrite (fn_end2 _ _ _ F1), (fn_end2 _ _ _ F2)]; congruence.
    + intro l. pose proof (sm_loc _ _ _ B l) as H. unfold loc_of in *. rewrite L1, L2. exact H.
    + intro l. pose proof (sm_refs _ _ _ B l) as H. unfold refs in *. rewrite L1, L2. exact H.
    + intros x Hx. rewrite M1, M2. apply (sm_mem _ _ _ B). intros l t Ht Hf. apply (Hx l t Ht). apply (at_field_base e2 m2); assumption.
  - rewrite G1, G2. exact I.
Qed.

(** ** Whole histories *)
Lemma sim_refl s : sim (fun _ => []) s s.
Proof. constructor; auto. Qed.
Lemma run_snoc ops o s : run (ops ++ [o]) s = match run ops s with Some t => after o t | None => None end.
Proof.
  revert s. induction ops as [|q ops IH]; intro s; cbn [app run]; [destruct (after o s); reflexivity|]. destruct (after q s); [apply IH|reflexivity].
Qed.
Lemma when s ops : reached s -> forallb api ops = true -> well_timed ops s ->
  answered (put_off ops) s = answered ops s /\
  match run (put_off ops ++ [OFinalize]) s, run (ops ++ [OFinalize]) s with
  | Some s1, Some s2 => same_code s1 s2
  | None, None => True
  | _, _ => False
  end.
Proof.
  intros R Ha W. pose proof (Inv_reached s R) as I0. assert (L : linked_refs (fun _ => []) s) by (intros l t []).
  destruct (run_together ops _ s s I0 I0 (sim_refl s) L Ha W) as [A B]. split; [exact A|]. rewrite !run_snoc.
  destruct (run (put_off ops) s) as [t1|], (run ops s) as [t2|]; try (elim B; fail); [|exact I].
  destruct B as (D & S & L' & J1 & J2). exact (last_finalize D t1 t2 J1 J2 S L').
Qed.
Lemma same_code_sym s1 s2 : same_code s1 s2 -> same_code s2 s1.
Proof. intros []. constructor; congruence. Qed.
Lemma same_code_trans s1 s2 s3 : same_code s1 s2 -> same_code s2 s3 -> same_code s1 s3.
Proof. intros [] []. constructor; congruence. Qed.
Lemma when_two s a b : reached s -> forallb api a = true -> forallb api b = true -> well_timed a s -> well_timed b s -> put_off a = put_off b ->
  answered a s = answered b s /\
  match run (a ++ [OFinalize]) s, run (b ++ [OFinalize]) s with
  | Some s1, Some s2 => same_code s1 s2
  | None, None => True
  | _, _ => False
  end.
Proof.
  intros R Ha Hb Wa Wb E. destruct (when s a R Ha Wa) as [A1 A2], (when s b R Hb Wb) as [B1 B2]. rewrite E in A1, A2. split; [congruence|].
  destruct (run (put_off b ++ [OFinalize]) s) as [t|], (run (a ++ [OFinalize]) s) as [t1|], (run (b ++ [OFinalize]) s) as [t2|]; try tauto.
  eapply same_code_trans; [apply same_code_sym; exact A2|exact B2].
Qed.
(** What comes after. *)
Definition none : label -> list target := fun _ => [].
Lemma none_linked s : linked_refs none s. Proof. intros l t []. Qed.
Lemma sim_same s1 s2 : sim none s1 s2 -> same_code s1 s2.
Proof.
  intro S. assert (H : forall p, counter (pages s1 p) = counter (pages s2 p) /\ constants (pages s1 p) = constants (pages s2 p) /\ data (pages s1 p) = data (pages s2 p)).
  { intro p. pose proof (sm_page _ _ _ S p) as H. unfold shape in H. repeat split; congruence. }
  destruct S as [K1 K2 K3 K4 K5 K6 K7]. constructor; [exact K1|exact K2|intro p; apply H|intro x; apply K7; intros l t []|exact K4|exact K5|exact K6|].
  - intro p. unfold waiting. destruct p; rewrite ?(proj1 (proj2 (H _))), ?(proj2 (proj2 (H _))); reflexivity.
Qed.
Lemma same_sim s1 s2 : Inv s1 -> Inv s2 -> same_code s1 s2 -> idle s1 -> sim none s1 s2.
Proof.
  intros I1 I2 [K1 K2 K3 K4 K5 K6 K7 K8] W. assert (W2 : idle s2) by (intro p; rewrite <- K8; apply W).
  pose proof (idle_lists s1 I1 W) as H1. pose proof (idle_lists s2 I2 W2) as H2. constructor; auto.
  intro p. unfold shape. rewrite K3, (proj1 (H1 p)), (proj2 (H1 p)), (proj1 (H2 p)), (proj2 (H2 p)). reflexivity.
Qed.
Lemma finalized_idle s s' : Inv s -> after OFinalize s = Some s' -> idle s'.
Proof.
  intros I E. apply finalize_after in E. destruct (finalize_spec _ _ I E) as [m F]. intro p. unfold waiting. rewrite !(fn_pages _ _ _ F). destruct p; reflexivity.
Qed.
Lemma then_same : forall ops s1 s2, Inv s1 -> Inv s2 -> sim none s1 s2 -> forallb api ops = true ->
  answered ops s1 = answered ops s2 /\
  match run ops s1, run ops s2 with Some t1, Some t2 => same_code t1 t2 | None, None => True | _, _ => False end.
Proof.
  induction ops as [|o ops IH]; intros s1 s2 I1 I2 S Ha.
  - split; [reflexivity|]. cbn [run]. apply sim_same, S.
  - cbn [forallb] in Ha. apply andb_true_iff in Ha. destruct Ha as [Ho Ha]. cbn [answered run]. destruct (is_finalize o) eqn:Hf.
    + destruct o; try discriminate Hf. pose proof (last_finalize none s1 s2 I1 I2 S (none_linked s2)) as B.
      destruct (after OFinalize s1) as [t1|] eqn:E1, (after OFinalize s2) as [t2|] eqn:E2; try (elim B; fail); [|split; [reflexivity|exact I]].
      pose proof (Inv_step _ _ _ I1 Ho E1) as J1. pose proof (Inv_step _ _ _ I2 Ho E2) as J2.
      apply (IH t1 t2 J1 J2); [|exact Ha]. apply same_sim; auto. eapply finalized_idle; [exact I1|exact E1].
    + destruct (together none o s1 s2 Ho Hf S) as [A B]. rewrite A.
      destruct (after o s1) as [t1|] eqn:E1, (after o s2) as [t2|] eqn:E2; try (elim B; fail); [|split; [reflexivity|exact I]].
      destruct (IH t1 t2 (Inv_step _ _ _ I1 Ho E1) (Inv_step _ _ _ I2 Ho E2) B Ha) as [A' B']. split; [f_equal; exact A'|exact B'].
Qed.
Lemma when_then s ops rest : reached s -> forallb api ops = true -> well_timed ops s -> forallb api rest = true ->
  answered (put_off ops ++ OFinalize :: rest) s = answered (ops ++ OFinalize :: rest) s /\
  match run (put_off ops ++ OFinalize :: rest) s, run (ops ++ OFinalize :: rest) s with
  | Some s1, Some s2 => same_code s1 s2
  | None, None => True
  | _, _ => False
  end.
Proof.
  intros R Ha W Hr. pose proof (Inv_reached s R) as I0. assert (L : linked_refs (fun _ => []) s) by (intros l t []).
  destruct (run_together ops _ s s I0 I0 (sim_refl s) L Ha W) as [A B].
  assert (Q : forall a t, answered (a ++ OFinalize :: rest) t = answered a t ++ match run a t with Some u => answered (OFinalize :: rest) u | None => [] end).
  { induction a as [|o a IHa]; intro t; [reflexivity|]. cbn [app answered run]. destruct (after o t); [rewrite IHa, app_assoc; reflexivity|rewrite !app_nil_r; reflexivity]. }
  assert (P : forall a t, run (a ++ OFinalize :: rest) t = match run a t with Some u => run (OFinalize :: rest) u | None => None end).
  { induction a as [|o a IHa]; intro t; [reflexivity|]. cbn [app run]. destruct (after o t); [apply IHa|reflexivity]. }
  rewrite !Q, !P, A. destruct (run (put_off ops) s) as [t1|], (run ops s) as [t2|]; try (elim B; fail); [|split; [reflexivity|exact I]].
  destruct B as (D & S & L' & J1 & J2). pose proof (last_finalize D t1 t2 J1 J2 S L') as F. cbn [answered run is_finalize app].
  destruct (after OFinalize t1) as [u1|] eqn:E1, (after OFinalize t2) as [u2|] eqn:E2; try (elim F; fail); [|split; [reflexivity|exact I]].
  assert (Ho : api OFinalize = true) by reflexivity. pose proof (Inv_step _ _ _ J1 Ho E1) as K1. pose proof (Inv_step _ _ _ J2 Ho E2) as K2.
  destruct (then_same rest u1 u2 K1 K2 (same_sim u1 u2 K1 K2 F (finalized_idle _ _ J1 E1)) Hr) as [A' B']. split; [f_equal; exact A'|exact B'].
Qed.
