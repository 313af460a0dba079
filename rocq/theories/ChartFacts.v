(** Lemmas behind C79: labels are where the chart says. *)
From Coq Require Import Lia ZifyBool ZifyNat.
From Verif Require Import Base ModelMem ModelEnc ModelSyntax ModelMacro Trace Emit StateFid SpecX86 SpecAsm SpecTaken SpecState SpecHist EncFacts MemInv MemStep MemFinal MemFill MemHist MemRun MemSafe MemOut MemFacts MemLocal MemPlace MemMisc MemCode MemThm MemMore ProgOne SpecProg ProgBlock BlockTaken SpecGas GasFacts SpecTwo TwoFacts SpecLimit LimitFacts RoomFacts SpecBudget BudgetFacts SpecPlan PlanFacts SpecChart.
Local Notation length := List.length.
Local Open Scope list_scope.
Local Open Scope Z_scope.

Record charts (y : chart) (s : jit) : Prop := mkCharts {
  ch_spot : forall l, spot y l = loc_of s l;
  ch_kept : forall p, kept_as y p = map snd (constants (pages s p));
  ch_held : forall p, held_as y p = map snd (data (pages s p));
  ch_known : known y = length (labels s)
}.
Lemma block_table ev lenv r0 : forall body r gs s r' s1 t, reached s -> same_but_imm r0 r -> Forall (plain ev r0) body -> Forall (rip_labels (eval ev r0)) body ->
  compile_all body = Some gs -> exec_all ev lenv r gs s = Ok r' s1 -> (forall l, t l = loc_of s l) ->
  forall l, block_marks (eval ev r0) lenv (cur s) (cursor s) body t l = loc_of s1 l.
Proof.
  induction body as [|i body IH]; intros r gs s r' s1 t R Hs Hp Hl Hc He Ht l.
  - cbn [compile_all] in Hc. injection Hc as <-. cbn [exec_all] in He. unfold ret in He. injection He as _ <-. apply Ht.
  - destruct (compile_all_cons _ _ _ Hc) as (g & gs' & Hg & Hc' & ->). destruct (block_steps _ _ _ i body _ _ _ _ _ Hg Hc' R He) as (r2 & s2 & He1 & He2 & R2 & A2).
    inversion Hp as [|? ? Hi Hp']; subst. inversion Hl as [|? ? Li Hl']; subst. pose proof (env_same _ _ _ _ _ _ _ _ _ Hs Hg He1) as Hs2.
    destruct (stmt_cur _ _ _ _ _ _ _ _ _ Hs (plain_regular _ _ _ Hi) Hg He1) as [Hc1 _].
    pose proof (stmt_size _ _ _ _ _ _ _ _ _ Hs Hi Li Hg He1 R) as Sz.
    assert (A1 : after (OAsm ev lenv r [i]) s = Some s2).
    { apply (after_block _ _ _ _ [g] _ r2); [cbn [compile_all]; rewrite Hg; reflexivity|]. cbn [exec_all]. unfold bind, ret. rewrite He1. reflexivity. }
    assert (Q : forall k, ~ binds_label (OAsm ev lenv r [i]) k -> loc_of s2 k = loc_of s k).
    { intros k Hk. apply (loc_same (OAsm ev lenv r [i]) s s2); auto using Inv_reached. intro B. apply Hk, binds_agree, B. }
    assert (N : (forall x, i <> ILabel x) -> block_marks (eval ev r0) lenv (cur s) (cursor s) (i :: body) t l = loc_of s1 l).
    { intro Hn. assert (E : block_marks (eval ev r0) lenv (cur s) (cursor s) (i :: body) t l = block_marks (eval ev r0) lenv (cur s) (cursor s + size (eval ev r0) i) body t l) by (destruct i; try reflexivity; exfalso; eapply Hn; reflexivity).
      rewrite E, <- Sz, <- Hc1. apply (IH r2 gs' s2 r' s1 t R2 Hs2 Hp' Hl' Hc' He2). intro k. rewrite Ht. symmetry. apply Q. intros (x & [Hx|[]] & _). apply (Hn x). exact Hx. }
    destruct i; try (apply N; intros x Hx; discriminate Hx).
    destruct (label_stmt _ _ _ _ _ _ _ _ Hg He1) as (_ & C2 & L). cbn [block_marks]. rewrite <- C2, <- Hc1. apply (IH r2 gs' s2 r' s1 _ R2 Hs2 Hp' Hl' Hc' He2).
    intro k. unfold mark. destruct (Nat.eqb k (lenv ident)) eqn:Ek; [apply Nat.eqb_eq in Ek; subst k; rewrite L, C2, Hc1; reflexivity|].
    rewrite Ht. symmetry. apply Q. intros (x & [Hx|[]] & Hk). injection Hx as ->. rewrite <- Hk, Nat.eqb_refl in Ek. discriminate.
Qed.
Lemma laid_entry s p : forall es c l, laid s p c es ->
  match entry_at c (map dims es) (map snd es) l with Some m => loc_of s l = Some (p, m) | None => ~ In l (map snd es) end.
Proof.
  induction es as [|[d k] es IH]; intros c l H; [intros []|]. destruct H as [H1 H2]. cbn [map dims fst snd entry_at] in *.
  assert (Ea : align_up (d_align d) c = SpecHist.next_multiple (entry_align d) c /\ d_len d = entry_len d).
  { unfold align_up, SpecHist.next_multiple, d_len, entry_len. destruct d; cbn [d_align entry_align d_bytes]; rewrite ?le_length, ?repeat_length; cbn [List.length]; split; try reflexivity; lia. }
  destruct Ea as [Ea El]. rewrite Ea, El in *. destruct (Nat.eqb l k) eqn:Ek.
  - apply Nat.eqb_eq in Ek. subst k. apply (pl_loc _ _ _ _ H1).
  - specialize (IH _ l H2). destruct (entry_at _ _ _ _); [exact IH|]. intros [Hk|Hk]; [|exact (IH Hk)]. subst k. rewrite Nat.eqb_refl in Ek. discriminate.
Qed.
Lemma chart_step o x y s a s' : reached s -> agrees x s -> sensible (length (labels s)) o -> charts y s -> step o s = Ok a s' ->
  length (labels s') = (if makes o then S (length (labels s)) else length (labels s)) -> charts (marks o x y) s'.
Proof.
  intros R A Hs [C1 C2 C3 C4] E0 Ln. assert (E : after o s = Some s') by (unfold after; rewrite E0; reflexivity). pose proof (sensible_api _ _ Hs) as Ha. pose proof (Inv_reached _ R) as Iv. pose proof (ag_chosen _ _ A) as Ac. pose proof (ag_ends _ _ A) as Ae.
  assert (Pl : MemStep.plain o = true -> same_queues s s') by (intro Hp; exact (grow_queues _ _ _ (plain_leaves o s s' (reached_cnt _ R) Hp (after_leaves _ _ _ E)))).
  assert (Nb : forall l, is_finalize o = false -> ~ binds_label o l -> loc_of s' l = loc_of s l) by (intros l Hf Hb; apply (loc_same o s s'); auto; intro B; apply Hb, binds_agree, B).
  assert (G : MemStep.plain o = true -> forall t, (forall l, t l = loc_of s' l) -> forall n, n = length (labels s') -> charts (mkChart t (kept_as y) (held_as y) n) s').
  { intros Hp t Ht n Hn. pose proof (Pl Hp) as Q. constructor; cbn [spot kept_as held_as known]; [exact Ht| | |exact Hn]; intro p; rewrite ?C2, ?C3, ?(proj1 (Q p)), ?(proj2 (Q p)); reflexivity. }
  assert (Y : y = mkChart (spot y) (kept_as y) (held_as y) (known y)) by (destruct y; reflexivity).
  destruct o; try contradiction; cbn [makes] in Ln.
  - cbn [marks]. rewrite Y. apply G; [reflexivity| |congruence]. intro l. rewrite C1. symmetry. apply Nb; [reflexivity|intros []].
  - cbn [marks]. rewrite Y. apply G; [reflexivity| |congruence]. intro l. rewrite C1. symmetry. apply Nb; [reflexivity|intros []].
  - destruct Hs as (Hp & Hl & Hc & Hn). cbn [marks]. apply G; [reflexivity| |congruence]. rewrite Ac, Ae. fold (cursor s).
    destruct (compile_all body) as [gs|] eqn:Cg; [|congruence]. cbn [step] in E0. rewrite Cg in E0. unfold bind, ret in E0. destruct (exec_all ev lenv r gs s) as [r' s1|] eqn:Ee; [|discriminate E0]. injection E0 as _ <-.
    exact (block_table ev lenv r body r gs s r' s1 (spot y) R (same_refl r) Hp Hl Cg Ee C1).
  - cbn [marks]. assert (Q : pages s' = pages s /\ labels s' = labels s).
    { cbn [step] in E0. destruct Hs as [-> | ->]; cbn in E0; injection E0 as _ <-; split; reflexivity. }
    destruct Q as [Q1 Q2]. constructor; rewrite ?Q1, ?Q2; auto. intro l. rewrite C1. unfold loc_of. rewrite Q2. reflexivity.
  - cbn [marks]. apply G; [reflexivity| |congruence]. intro l. rewrite C1. symmetry. apply Nb; [reflexivity|intros []].
  - cbn [marks]. apply G; [reflexivity| |congruence]. intro k. unfold mark. destruct (Nat.eqb k l) eqn:Ek.
    + apply Nat.eqb_eq in Ek. subst k. cbn [step] in E0. unfold nolabel, bind, ret in E0. destruct (bind_label l s) as [[] s1|] eqn:Eb; [|discriminate E0]. injection E0 as _ <-. rewrite (bind_sets _ _ _ Eb), Ac, Ae. reflexivity.
    + rewrite C1. symmetry. apply Nb; [reflexivity|]. cbn [binds_label]. intros ->. rewrite Nat.eqb_refl in Ek. discriminate.
  - cbn [marks]. destruct Hs as [Hn Hl]. destruct (pid_three n Hn) as [q Hq]. rewrite Hq. apply G; [reflexivity| |congruence]. intro k. unfold mark. destruct (Nat.eqb k l) eqn:Ek.
    + apply Nat.eqb_eq in Ek. subst k. cbn [step] in E0. unfold nolabel, bind, ret in E0. destruct (bind_label_with_page n l s) as [[] s1|] eqn:Eb; [|discriminate E0]. injection E0 as _ <-.
      destruct (bind_page_sets _ _ _ _ Eb) as (p & Hp & ->). rewrite Hq in Hp. injection Hp as <-. rewrite Ae. reflexivity.
    + rewrite C1. symmetry. apply Nb; [reflexivity|]. cbn [binds_label]. intros ->. rewrite Nat.eqb_refl in Ek. discriminate.
  - assert (Hl : forall l, spot y l = loc_of s' l) by (intro l; rewrite C1; symmetry; apply Nb; [reflexivity|intros []]).
    assert (Ec : s' = created d s). { cbn [step] in E0. unfold bind, ret in E0. rewrite create_eq in E0. injection E0 as _ <-. reflexivity. }
    assert (Hd : is_data d = is_datum d) by (destruct d; reflexivity). cbn [marks]. rewrite Ac, C4.
    assert (Qc : forall p, constants (pages s' p) = if is_datum d then constants (pages s p) else if pid_eqb p (cur s) then constants (pages s p) ++ [(dtype_of d, length (labels s))] else constants (pages s p)).
    { intro p. rewrite Ec. unfold created. rewrite Hd. cbn [pages set_page set_labels]. destruct (pid_eqb p (cur s)) eqn:Ep, (is_datum d); reflexivity. }
    assert (Qd : forall p, data (pages s' p) = if is_datum d then (if pid_eqb p (cur s) then data (pages s p) ++ [(dtype_of d, length (labels s))] else data (pages s p)) else data (pages s p)).
    { intro p. rewrite Ec. unfold created. rewrite Hd. cbn [pages set_page set_labels]. destruct (pid_eqb p (cur s)) eqn:Ep, (is_datum d); reflexivity. }
    clear Ec. destruct (is_datum d); constructor; cbn [spot kept_as held_as known]; auto; intro p; rewrite ?Qc, ?Qd, ?C2, ?C3; try reflexivity; destruct (pid_eqb p (cur s)); rewrite ?map_app; reflexivity.
  - destruct (finalize_spec s s' Iv (finalize_after _ _ E)) as [s1 F]. pose proof (fun p => proj2 (placed_once s s' p R E)) as W.
    assert (R' : reached s') by (apply (reached_api OFinalize s s' R eq_refl E)). pose proof (qi_data _ (iv_q _ (Inv_reached _ R'))) as QD.
    pose proof (W P0) as W0. pose proof (W P1) as W1. pose proof (W P2) as W2. cbn [waiting] in W0, W1, W2. apply app_eq_nil in W2. destruct W2 as [W2 W3].
    cbn [marks]. constructor; cbn [spot kept_as held_as known].
    + intro l. rewrite (fn_loc _ _ _ F), !C2, !C3, !Ae, !(ag_kept _ _ A), !(ag_held _ _ A), <- !map_app.
      pose proof (laid_entry _ _ _ _ l (fn_laid0 _ _ _ F)) as L0. pose proof (laid_entry _ _ _ _ l (fn_laid1 _ _ _ F)) as L1. pose proof (laid_entry _ _ _ _ l (fn_laid2 _ _ _ F)) as L2. unfold cnt in L0, L1, L2.
      destruct (entry_at _ (map dims (constants (pages s P0))) _ l); [symmetry; exact L0|]. cbn [option_map].
      destruct (entry_at _ (map dims (constants (pages s P1))) _ l); [symmetry; exact L1|]. cbn [option_map].
      destruct (entry_at _ _ _ l); [symmetry; exact L2|]. cbn [option_map]. rewrite C1. symmetry.
      destruct (ex_loc _ _ _ (fn_ext _ _ _ F) l) as [H|[H _]]; [exact H|exfalso]. unfold queue in H. rewrite !map_app, !in_app_iff in H. rewrite map_app, in_app_iff in L2. tauto.
    + intros []; [rewrite W0|rewrite W1|rewrite (proj1 QD)]; reflexivity.
    + intros []; [rewrite W2|rewrite W3|rewrite (proj2 QD)]; reflexivity.
    + rewrite Ln. exact C4.
Qed.
Lemma session_charts : forall ops x y s, reached s -> known_targets s -> agrees x s -> charts y s -> all_sensible (length (labels s)) ops ->
  match charted ops x y with
  | Some z => exists s', returns ops s = Some (numbered (length (labels s)) ops, s') /\ run ops s = Some s' /\ charts z s'
  | None => returns ops s = None
  end.
Proof.
  induction ops as [|o ops IH]; intros x y s R K A C H; cbn [charted returns numbered run].
  - exists s. auto.
  - destruct H as [Hs H]. pose proof (step_as o x s R K A Hs) as G. unfold goes_as in G. destruct (next o x) as [x'|]; [|destruct G as (e & s' & G); rewrite G; reflexivity].
    destruct G as (s1 & E & A1 & K1 & L1). assert (Af : after o s = Some s1) by (unfold after; rewrite E; reflexivity). rewrite E, Af.
    specialize (IH x' (marks o x y) s1 (reached_api o s s1 R (sensible_api _ _ Hs) Af) K1 A1 (chart_step o x y s _ s1 R A Hs C E L1)). rewrite L1 in IH. specialize (IH H).
    destruct (charted ops x' (marks o x y)) as [z|]; [|rewrite IH; reflexivity]. destruct IH as (s' & E' & E2 & C2). exists s'. rewrite E'. split; [destruct (makes o); reflexivity|]. auto.
Qed.
Lemma charts_addr y s l : charts y s -> label_addr s l = option_map (place_in (base s)) (spot y l).
Proof. intro C. rewrite (ch_spot _ _ C). unfold label_addr. destruct (loc_of s l) as [[p m]|]; reflexivity. Qed.
Lemma chart_agrees s : charts (chart_of s) s. Proof. constructor; reflexivity. Qed.
Lemma all_api : forall ops n, all_sensible n ops -> forallb api ops = true.
Proof. induction ops as [|o ops IH]; intros n H; [reflexivity|]. destruct H as [Hs H]. cbn [forallb]. rewrite (sensible_api _ _ Hs). exact (IH _ H). Qed.
Lemma labels_on ops s : reached s -> known_targets s -> all_sensible (length (labels s)) ops ->
  match charted ops (plan_of s) (chart_of s) with
  | Some y => exists s', returns ops s = Some (numbered (length (labels s)) ops, s') /\ forall l, label_addr s' l = option_map (place_in (base s)) (spot y l)
  | None => returns ops s = None
  end.
Proof.
  intros R K H. pose proof (session_charts ops (plan_of s) (chart_of s) s R K (plan_agrees s) (chart_agrees s) H) as S. destruct (charted ops (plan_of s) (chart_of s)) as [y|]; [|exact S].
  destruct S as (s' & E' & E & C). exists s'. split; [exact E'|]. intro l. rewrite (charts_addr y s' l C). rewrite (base_run ops s s' (Inv_reached _ R) (all_api _ _ H) E). reflexivity.
Qed.
Lemma labels_charted b junk ops : all_sensible 0 ops ->
  match charted ops blank void with
  | Some y => exists s, returns ops (jit_new b junk) = Some (numbered 0 ops, s) /\ forall l, label_addr s l = option_map (place_in b) (spot y l)
  | None => returns ops (jit_new b junk) = None
  end.
Proof.
  intro H. assert (A : agrees blank (jit_new b junk)) by (constructor; [intros []; reflexivity|intros []; reflexivity|intros []; reflexivity|reflexivity]).
  assert (C : charts void (jit_new b junk)) by (constructor; [intros []; reflexivity|intros []; reflexivity|intros []; reflexivity|reflexivity]).
  assert (K : known_targets (jit_new b junk)) by (intros p l k []). pose proof (session_charts ops blank void (jit_new b junk) (reached_new b junk) K A C H) as S.
  destruct (charted ops blank void) as [y|]; [|exact S]. destruct S as (s & E' & E & C2). exists s. split; [exact E'|]. intro l. rewrite (charts_addr y s l C2).
  rewrite (base_run ops _ s (Inv_reached _ (reached_new b junk)) (all_api _ _ H) E). reflexivity.
Qed.
(** ** Code *)
Lemma linked_settles l : forall ops x y s s4, reached s -> known_targets s -> agrees x s -> charts y s -> all_sensible (length (labels s)) ops -> planned ops x = Some s4 ->
  linked ops s l = option_map (place_in (base s)) (settles ops x y l).
Proof.
  induction ops as [|o ops IH]; intros x y s s4 R K A C H P; [reflexivity|]. destruct H as [Hs H]. pose proof (step_as o x s R K A Hs) as G. unfold goes_as in G. cbn [linked settles planned] in *.
  destruct (next o x) as [x'|]; [|discriminate P]. destruct G as (s1 & E & A1 & K1 & L1). assert (Af : after o s = Some s1) by (unfold after; rewrite E; reflexivity). rewrite Af.
  pose proof (chart_step o x y s _ s1 R A Hs C E L1) as C1. pose proof (sensible_api _ _ Hs) as Ho.
  assert (B : base s1 = base s) by (apply (base_run [o] s s1 (Inv_reached _ R)); [cbn [forallb]; rewrite Ho; reflexivity|cbn [run]; rewrite Af; reflexivity]).
  assert (T : linked ops s1 l = option_map (place_in (base s)) (settles ops x' (marks o x y) l)).
  { rewrite <- B. apply (IH x' (marks o x y) s1 s4 (reached_api o s s1 R Ho Af) K1 A1 C1); [rewrite L1; exact H|exact P]. }
  destruct (is_finalize o); [|exact T]. rewrite (charts_addr _ _ l C1), B. destruct (spot (marks o x y) l); [reflexivity|exact T].
Qed.
Lemma through : forall pre o rest x y s x1 y1, reached s -> known_targets s -> agrees x s -> charts y s -> all_sensible (length (labels s)) (pre ++ o :: rest) ->
  planned pre x = Some x1 -> charted pre x y = Some y1 ->
  exists s1, run pre s = Some s1 /\ reached s1 /\ known_targets s1 /\ agrees x1 s1 /\ charts y1 s1 /\ all_sensible (length (labels s1)) (o :: rest) /\ base s1 = base s.
Proof.
  induction pre as [|p pre IH]; intros o rest x y s x1 y1 R K A C H P Q; cbn [app planned charted run] in *.
  - injection P as <-. injection Q as <-. exists s. repeat (split; [assumption || reflexivity|]). reflexivity.
  - destruct H as [Hs H]. pose proof (step_as p x s R K A Hs) as G. unfold goes_as in G. destruct (next p x) as [x'|]; [|discriminate P].
    destruct G as (s1 & E & A1 & K1 & L1). assert (Af : after p s = Some s1) by (unfold after; rewrite E; reflexivity). rewrite Af. pose proof (sensible_api _ _ Hs) as Ho.
    assert (B : base s1 = base s) by (apply (base_run [p] s s1 (Inv_reached _ R)); [cbn [forallb]; rewrite Ho; reflexivity|cbn [run]; rewrite Af; reflexivity]).
    rewrite <- L1 in H. destruct (IH o rest x' (marks p x y) s1 x1 y1 (reached_api p s s1 R Ho Af) K1 A1 (chart_step p x y s _ s1 R A Hs C E L1) H P Q) as (s2 & S). rewrite B in S. exists s2. exact S.
Qed.
Lemma run_through : forall pre ops s s1, run pre s = Some s1 -> run (pre ++ ops) s = run ops s1.
Proof. induction pre as [|o pre IH]; intros ops s s1 H; cbn [app run] in *; [injection H as <-; reflexivity|]. destruct (after o s); [apply IH, H|discriminate]. Qed.
Lemma code_charted pre ev lenv r body rest x y s x1 y1 z target : let o := OAsm ev lenv r body in
  reached s -> known_targets s -> agrees x s -> charts y s -> all_sensible (length (labels s)) (pre ++ o :: rest) ->
  planned pre x = Some x1 -> charted pre x y = Some y1 -> planned (o :: rest) x1 = Some z ->
  (forall v, In v (body_labels body) -> settles (o :: rest) x1 y1 (lenv v) = Some (target v)) ->
  exists s4 bs, run (pre ++ o :: rest) s = Some s4 /\ written (eval ev r) (fun v => place_in (base s) (target v)) (place_in (base s) (chosen x1, ends x1 (chosen x1))) body = Some bs /\
    bytes s4 (chosen x1) (ends x1 (chosen x1)) (length bs) = bs.
Proof.
  intros o R K A C H P Q Pz T. destruct (through pre o rest x y s x1 y1 R K A C H P Q) as (s1 & E1 & R1 & K1 & A1 & C1 & [Hs H1] & B1).
  pose proof (step_as o x1 s1 R1 K1 A1 Hs) as G. unfold goes_as in G. cbn [planned] in Pz. cbn [settles] in T. destruct (next o x1) as [x2|]; [|discriminate Pz].
  destruct G as (s2 & E & A2 & K2 & L2). assert (Af : after o s1 = Some s2) by (unfold after; rewrite E; reflexivity).
  pose proof (reached_api o s1 s2 R1 eq_refl Af) as R2. pose proof (chart_step o x1 y1 s1 _ s2 R1 A1 Hs C1 E L2) as C2. rewrite <- L2 in H1.
  assert (B2 : base s2 = base s) by (rewrite <- B1; apply (base_run [o] s1 s2 (Inv_reached _ R1)); [reflexivity|cbn [run]; rewrite Af; reflexivity]).
  pose proof (session_as rest x2 s2 R2 K2 A2 H1) as S. rewrite Pz in S. destruct S as (s4 & _ & E4 & _).
  destruct Hs as (Hp & Hl & _). destruct (second_pass ev lenv r body s1 _ s2 rest s4 (fun v => place_in (base s) (target v)) R1 Hp Hl E (all_api _ _ H1) E4) as (bs & W & Bs & _).
  { intros v Hv. rewrite (linked_settles (lenv v) rest x2 (marks o x1 y1) s2 z R2 K2 A2 C2 H1 Pz). rewrite B2. assert (Tv : settles rest x2 (marks o x1 y1) (lenv v) = Some (target v)) by exact (T v Hv). rewrite Tv. reflexivity. }
  exists s4, bs. split; [rewrite (run_through pre (o :: rest) s s1 E1); cbn [run]; rewrite Af; exact E4|].
  rewrite (ag_chosen _ _ A1), (ag_ends _ _ A1). fold (cursor s1). split; [|exact Bs]. rewrite <- W. unfold place_in, here, addr, contents. cbn [fst snd]. rewrite B1. reflexivity.
Qed.
Lemma abs_linked ops s s' l p x a : reached s -> In (Abs p x) (refs s l) -> forallb api ops = true -> run ops s = Some s' -> linked ops s l = Some a -> bytes s' p x 8 = le 8 a.
Proof.
  intros R Ht Ha E Hl. pose proof (Inv_reached _ R) as I.
  destruct (ref_life _ _ _ _ _ I Ht Ha E) as [[_ H]|(u & v & s1 & s2 & y & -> & H2 & H3 & H4 & H5 & H6 & H7 & H8 & H9)].
  { rewrite (linked_none _ _ _ H) in Hl. discriminate. }
  rewrite (linked_at _ v _ _ _ _ _ H2 H4 H5 H6) in Hl. inversion Hl; subst y.
  rewrite forallb_app in Ha. apply andb_true_iff in Ha. destruct Ha as [Ha1 Ha2]. pose proof (Inv_run _ _ _ I Ha1 H2) as I1.
  destruct (finalize_links _ _ _ _ _ I1 H3 H5 H6) as (F1 & _ & _). cbn [ref_value flen] in *. unfold field in H9, F1. cbn [fpage fpos flen] in H9, F1. change (Z.to_nat 8) with 8%nat in *. rewrite H9. exact F1.
Qed.
Lemma data_charted pre d mid rest x y s x1 y1 x2 y2 z : reached s -> known_targets s -> agrees x s -> charts y s ->
  all_sensible (length (labels s)) (pre ++ OCreate d :: mid ++ OFinalize :: rest) -> no_finalize mid = true ->
  planned pre x = Some x1 -> charted pre x y = Some y1 -> planned (OCreate d :: mid) x1 = Some x2 -> charted (OCreate d :: mid) x1 y1 = Some y2 -> planned (OFinalize :: rest) x2 = Some z ->
  exists s4 p m, run (pre ++ OCreate d :: mid ++ OFinalize :: rest) s = Some s4 /\ spot (marks OFinalize x2 y2) (known y1) = Some (p, m) /\
    (is_abs d = false -> bytes s4 p m (length (dat_bytes d)) = dat_bytes d) /\
    (forall t v, d = KAbs t -> settles (OFinalize :: rest) x2 y2 t = Some v -> bytes s4 p m 8 = le 8 (place_in (base s) v)).
Proof.
  intros R K A C H Nf P Q P2 Q2 Pz. destruct (through pre (OCreate d) _ x y s x1 y1 R K A C H P Q) as (s1 & E1 & R1 & K1 & A1 & C1 & H1 & B1).
  destruct (through (OCreate d :: mid) OFinalize rest x1 y1 s1 x2 y2 R1 K1 A1 C1 H1 P2 Q2) as (s3 & E3 & R3 & K3 & A3 & C3 & [Hs H3] & B3).
  pose proof (step_as OFinalize x2 s3 R3 K3 A3 Hs) as G. unfold goes_as in G. change (match next OFinalize x2 with Some w => planned rest w | None => None end = Some z) in Pz. destruct (next OFinalize x2) as [x3|] eqn:En; [|discriminate Pz].
  destruct G as (s4 & E & A4 & K4 & L4). assert (Af : after OFinalize s3 = Some s4) by (unfold after; rewrite E; reflexivity).
  pose proof (reached_api OFinalize s3 s4 R3 eq_refl Af) as R4. pose proof (chart_step OFinalize x2 y2 s3 _ s4 R3 A3 Hs C3 E L4) as C4. rewrite <- L4 in H3.
  assert (B4 : base s4 = base s) by (rewrite <- B1, <- B3; apply (base_run [OFinalize] s3 s4 (Inv_reached _ R3)); [reflexivity|cbn [run]; rewrite Af; reflexivity]).
  pose proof (session_as rest x3 s4 R4 K4 A4 H3) as S. rewrite Pz in S. destruct S as (s5 & _ & E5 & _).
  assert (Ct : created_then s1 d (known y1) mid s3 s4).
  { assert (Es : step (OCreate d) s1 = Ok (Some (known y1)) (created d s1)) by (cbn [step]; unfold bind, ret; rewrite create_eq, (ch_known _ _ C1); reflexivity).
    exists (created d s1). split; [exact Es|]. cbn [run] in E3. unfold after in E3. rewrite Es in E3. split; [|auto]. destruct H1 as [_ H1]. apply all_api in H1. rewrite forallb_app in H1. apply andb_true_iff in H1. apply H1. }
  pose proof (all_api _ _ H3) as Ar. pose proof (Inv_reached _ R4) as I4.
  destruct (constant_placed s1 d (known y1) mid s3 s4 (Inv_reached _ R1) Ct) as (m & Lm & _ & _ & _ & Hb).
  exists s5, (dat_page d s1), m. split.
  { rewrite (run_through pre _ s s1 E1). change (OCreate d :: mid ++ OFinalize :: rest) with ((OCreate d :: mid) ++ OFinalize :: rest). rewrite (run_through _ _ s1 s3 E3). cbn [run]. rewrite Af. exact E5. }
  split; [rewrite (ch_spot _ _ C4); exact Lm|]. split.
  - intro Hd. destruct (Hb Hd) as [Hb1 Hb2]. rewrite <- Hb1 at 2. apply (settled_bytes rest s4 s5); auto.
  - intros t v -> Hv. destruct (abs_placed s1 t (known y1) mid s3 s4 (Inv_reached _ R1) Ct) as (m' & Lm' & _ & Hc). rewrite Lm in Lm'. cbn [dat_page] in *. injection Lm' as <-.
    change (match next OFinalize x2 with Some w => match spot (marks OFinalize x2 y2) t with Some u => Some u | None => settles rest w (marks OFinalize x2 y2) t end | None => None end = Some v) in Hv.
    rewrite En in Hv. rewrite (charts_addr _ _ t C4), B4 in Hc. destruct (spot (marks OFinalize x2 y2) t) as [u|]; cbn [option_map] in Hc.
    + injection Hv as ->. destruct Hc as [Hc1 Hc2]. rewrite <- Hc1. apply (settled_bytes rest s4 s5); auto.
    + apply (abs_linked rest s4 s5 t); auto. rewrite (linked_settles t rest x3 _ s4 z R4 K4 A4 C4 H3 Pz), B4, Hv. reflexivity.
Qed.
(** ** From the start *)
Lemma blank_agrees b junk : agrees blank (jit_new b junk). Proof. constructor; [intros []; reflexivity|intros []; reflexivity|intros []; reflexivity|reflexivity]. Qed.
Lemma void_charts b junk : charts void (jit_new b junk). Proof. constructor; [intros []; reflexivity|intros []; reflexivity|intros []; reflexivity|reflexivity]. Qed.
Lemma new_known b junk : known_targets (jit_new b junk). Proof. intros p l k []. Qed.
Lemma code_from_new b junk pre ev lenv r body rest x y z target : all_sensible 0 (pre ++ OAsm ev lenv r body :: rest) ->
  planned pre blank = Some x -> charted pre blank void = Some y -> planned (OAsm ev lenv r body :: rest) x = Some z ->
  (forall v, In v (body_labels body) -> settles (OAsm ev lenv r body :: rest) x y (lenv v) = Some (target v)) ->
  exists s bs, run (pre ++ OAsm ev lenv r body :: rest) (jit_new b junk) = Some s /\
    written (eval ev r) (fun v => place_in b (target v)) (place_in b (chosen x, ends x (chosen x))) body = Some bs /\ bytes s (chosen x) (ends x (chosen x)) (length bs) = bs.
Proof. exact (code_charted pre ev lenv r body rest blank void (jit_new b junk) x y z target (reached_new b junk) (new_known b junk) (blank_agrees b junk) (void_charts b junk)). Qed.
Lemma data_from_new b junk pre d mid rest x y x2 y2 z : all_sensible 0 (pre ++ OCreate d :: mid ++ OFinalize :: rest) -> no_finalize mid = true ->
  planned pre blank = Some x -> charted pre blank void = Some y -> planned (OCreate d :: mid) x = Some x2 -> charted (OCreate d :: mid) x y = Some y2 -> planned (OFinalize :: rest) x2 = Some z ->
  exists s p m, run (pre ++ OCreate d :: mid ++ OFinalize :: rest) (jit_new b junk) = Some s /\ spot (marks OFinalize x2 y2) (known y) = Some (p, m) /\
    (is_abs d = false -> bytes s p m (length (dat_bytes d)) = dat_bytes d) /\
    (forall t v, d = KAbs t -> settles (OFinalize :: rest) x2 y2 t = Some v -> bytes s p m 8 = le 8 (place_in b v)).
Proof. exact (data_charted pre d mid rest blank void (jit_new b junk) x y x2 y2 z (reached_new b junk) (new_known b junk) (blank_agrees b junk) (void_charts b junk)). Qed.
Lemma code_on pre ev lenv r body rest s x y z target : reached s -> known_targets s -> all_sensible (length (labels s)) (pre ++ OAsm ev lenv r body :: rest) ->
  planned pre (plan_of s) = Some x -> charted pre (plan_of s) (chart_of s) = Some y -> planned (OAsm ev lenv r body :: rest) x = Some z ->
  (forall v, In v (body_labels body) -> settles (OAsm ev lenv r body :: rest) x y (lenv v) = Some (target v)) ->
  exists s4 bs, run (pre ++ OAsm ev lenv r body :: rest) s = Some s4 /\
    written (eval ev r) (fun v => place_in (base s) (target v)) (place_in (base s) (chosen x, ends x (chosen x))) body = Some bs /\ bytes s4 (chosen x) (ends x (chosen x)) (length bs) = bs.
Proof. intros R K. exact (code_charted pre ev lenv r body rest (plan_of s) (chart_of s) s x y z target R K (plan_agrees s) (chart_agrees s)). Qed.
