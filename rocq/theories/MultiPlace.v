(** Where the blocks of a history are, and the addresses of their labels. *)
From Verif Require Import Base ModelMem ModelEnc ModelSyntax ModelMacro SpecX86 SpecAsm SpecTaken SpecState SpecHist
  Emit MemInv MemStep MemFinal MemHist MemRun MemMisc MemFacts MemPlace ProgOne SpecProg ProgBlock ProgExec BlockTaken SpecMachine SpecCpu MachRun SpecScope ScopeFacts ScopeBlock SpecMulti.
Local Notation length := List.length.
Local Open Scope list_scope.
Local Open Scope Z_scope.

(** ** Labels *)
(** The label is bound only while it is unbound. *)
Definition once (l : label) (ops : list op) (s : jit) : Prop :=
  forall pre o rest s2, ops = pre ++ o :: rest -> run pre s = Some s2 -> binds_label o l -> label_addr s2 l = None.
Lemma once_cons l o ops s s1 : once l (o :: ops) s -> after o s = Some s1 -> once l ops s1.
Proof. intros H E pre o' rest s2 -> Hr. apply (H (o :: pre) o' rest s2); [reflexivity|]. cbn [run]. rewrite E. exact Hr. Qed.
Lemma addr_bound s l : label_addr s l <> None <-> loc_of s l <> None.
Proof. unfold label_addr. destruct (loc_of s l) as [[p x]|]; split; congruence. Qed.
Lemma bound_lt s l : label_addr s l <> None -> (l < length (labels s))%nat.
Proof.
  intro H. apply addr_bound in H. unfold loc_of in H. apply nth_error_Some. destruct (nth_error (labels s) l); [discriminate|]. congruence.
Qed.
(** Once bound and not waiting to be placed, it is never bound again. *)
Lemma once_not l : forall ops s s4, Inv s -> forallb api ops = true -> run ops s = Some s4 -> once l ops s -> fixed_label s l -> label_addr s l <> None ->
  forall o, In o ops -> ~ binds_label o l.
Proof.
  induction ops as [|o ops IH]; intros s s4 I Ha E On Hf Hb o' Ho Hbind; [elim Ho|].
  apply run_cons in E. destruct E as (s1 & E1 & E). cbn [forallb] in Ha. apply andb_true_iff in Ha. destruct Ha as [Ha1 Ha].
  assert (N : ~ binds_label o l) by (intro K; apply Hb; exact (On [] o ops s eq_refl eq_refl K)).
  destruct Ho as [-> |Ho]; [contradiction|].
  apply (IH s1 s4) with (o := o'); auto.
  - eapply Inv_step; eauto.
  - eapply once_cons; eauto.
  - eapply fixed_step; eauto.
  - apply addr_bound. rewrite (loc_step o s s1 l I Ha1 E1 Hf); [apply addr_bound, Hb|]. intro K. apply N, binds_agree, K.
Qed.
Lemma addr_keeps l ops s s4 : Inv s -> forallb api ops = true -> run ops s = Some s4 -> once l ops s -> fixed_label s l -> label_addr s l <> None ->
  label_addr s4 l = label_addr s l.
Proof.
  intros I Ha E On Hf Hb. unfold label_addr. rewrite (loc_run ops s s4 l I Ha E Hf).
  - destruct (loc_of s l) as [[p x]|]; [|reflexivity]. unfold addr, contents. rewrite (base_run _ _ _ I Ha E). reflexivity.
  - intros o Ho K. apply (once_not l ops s s4 I Ha E On Hf Hb o Ho). apply binds_agree, K.
Qed.
Lemma fin_len s s' : Inv s -> after OFinalize s = Some s' -> length (labels s') = length (labels s).
Proof. intros I E. apply finalize_after in E. destruct (finalize_spec _ _ I E) as [s1 F]. apply (fn_len _ _ _ F). Qed.
(** A label bound in the end is linked there. *)
Lemma linked_final l : forall ops s s4 a, Inv s -> forallb api ops = true -> run (ops ++ [OFinalize]) s = Some s4 -> once l (ops ++ [OFinalize]) s ->
  label_addr s4 l = Some a -> linked (ops ++ [OFinalize]) s l = Some a.
Proof.
  induction ops as [|o ops IH]; intros s s4 a I Ha E On Hl.
  - cbn [app run linked] in *. destruct (after OFinalize s) as [s'|]; [|discriminate]. inversion E; subst. cbn [is_finalize]. rewrite Hl. reflexivity.
  - cbn [app] in *. apply run_cons in E. destruct E as (s1 & E1 & E). cbn [forallb] in Ha. apply andb_true_iff in Ha. destruct Ha as [Ha1 Ha].
    pose proof (Inv_step _ _ _ I Ha1 E1) as I1. pose proof (once_cons _ _ _ _ _ On E1) as On1. cbn [linked]. rewrite E1.
    destruct (if is_finalize o then label_addr s1 l else None) as [x|] eqn:F; [|apply (IH s1 s4); auto].
    destruct (is_finalize o) eqn:Fo; [|discriminate]. assert (o = OFinalize) by (destruct o; try discriminate Fo; reflexivity). subst o.
    assert (label_addr s1 l <> None) by congruence. rewrite <- F, <- Hl. symmetry. apply addr_keeps with (ops := ops ++ [OFinalize]); auto.
    + rewrite forallb_app, Ha. reflexivity.
    + apply (fin_fixed s s1 l I E1). rewrite <- (fin_len _ _ I E1). apply bound_lt. assumption.
Qed.

(** ** The labels of a block *)
Lemma block_exists ev lenv r0 : forall body r gs s r' s1, same_but_imm r0 r -> Forall (regular ev r0) body -> compile_all body = Some gs -> exec_all ev lenv r gs s = Ok r' s1 ->
  forall x, In x (defined body) -> (lenv x < length (labels s))%nat.
Proof.
  induction body as [|i body IH]; intros r gs s r' s1 Hs Hp Hc He x Hx; [elim Hx|].
  destruct (compile_all_cons _ _ _ Hc) as (g & gs' & Hg & Hc' & ->). destruct (exec_all_cons _ _ _ _ _ _ _ _ He) as (r2 & s2 & He1 & He2).
  inversion Hp as [|? ? Hi Hp']; subst. unfold defined in Hx. cbn [flat_map] in Hx. apply in_app_or in Hx. destruct Hx as [Hx|Hx].
  - destruct i; try (elim Hx; fail). destruct Hx as [-> |[]]. destruct (stmt_effect _ _ _ _ _ _ _ _ _ Hs Hi Hg He1) as [_ <-].
    destruct (label_stmt _ _ _ _ _ _ _ _ Hg He1) as (_ & _ & L). apply bound_lt, addr_bound. congruence.
  - destruct (stmt_effect _ _ _ _ _ _ _ _ _ Hs Hi Hg He1) as [_ <-]. exact (IH r2 gs' s2 r' s1 (env_same _ _ _ _ _ _ _ _ _ Hs Hg He1) Hp' Hc' He2 x Hx).
Qed.
Lemma frozen_exists ev lenv r body s o s1 : typed ev r body -> step (OAsm ev lenv r body) s = Ok o s1 -> forall x, In x (defined body) -> (lenv x < length (labels s))%nat.
Proof.
  intros T E x Hx. rewrite (block_frozen ev ev lenv r r body s) in E. destruct (block_after _ _ _ _ _ _ _ E) as (gs & r' & Hc & He).
  apply (block_exists ev lenv r (frozen ev r body) r gs s r' s1 (same_refl r) (frozen_regular _ _ _ _ _ T) Hc He). rewrite frozen_defined. exact Hx.
Qed.
Lemma in_defined body x : In x (defined body) <-> In (ILabel x) body.
Proof.
  unfold defined. rewrite in_flat_map. split.
  - intros (i & Hi & Hx). destruct i; try (elim Hx; fail). destruct Hx as [-> |[]]. exact Hi.
  - intro H. exists (ILabel x). split; [exact H|left; reflexivity].
Qed.

(** ** Every block *)
Lemma bound_tail o ops s s1 : bound_once (o :: ops) s -> after o s = Some s1 -> bound_once ops s1.
Proof.
  intros [H N] E. split.
  - intros pre o' rest s2 l -> Hr. apply (H (o :: pre) o' rest s2 l); [reflexivity|]. cbn [run]. rewrite E. exact Hr.
  - intros b Hb. apply N. cbn [blocks]. rewrite E. apply in_or_app. right. exact Hb.
Qed.
Lemma bound_is_once ops s l : bound_once ops s -> once l ops s.
Proof. intros [H _] pre o rest s2 E Hr Hb. exact (proj1 (H pre o rest s2 l E Hr Hb)). Qed.
Lemma one_block ev lenv r body ops s o s1 s4 : reached s -> step (OAsm ev lenv r body) s = Ok o s1 -> forallb api ops = true -> run (ops ++ [OFinalize]) s1 = Some s4 ->
  bound_once (OAsm ev lenv r body :: ops ++ [OFinalize]) s -> typed ev r body -> (forall x, In x (body_labels body) -> label_addr s4 (lenv x) <> None) ->
  exists w, placed s4 (mkBlk ev lenv r body) w.
Proof.
  intros R Es Ha E B T C. assert (E1 : after (OAsm ev lenv r body) s = Some s1) by (unfold after; rewrite Es; reflexivity). pose proof (bound_tail _ _ _ _ B E1) as B1.
  assert (R1 : reached s1) by (apply (reached_run [OAsm ev lenv r body] s); [exact R|reflexivity|cbn [run]; rewrite E1; reflexivity]).
  assert (Ha' : forallb api (ops ++ [OFinalize]) = true) by (rewrite forallb_app, Ha; reflexivity).
  pose proof (frozen_exists ev lenv r body s o s1 T Es) as Hlt.
  assert (Q : forall x, In x (defined body) -> fixed_label s (lenv x)).
  { intros x Hx. apply waiting_fixed; [apply Hlt, Hx|]. apply (proj1 B [] (OAsm ev lenv r body) (ops ++ [OFinalize]) s (lenv x) eq_refl eq_refl).
    cbn [binds_label]. exists x. split; [apply in_defined, Hx|reflexivity]. }
  assert (Hn : NoDup (map lenv (defined body))) by (apply (proj2 B (mkBlk ev lenv r body)); cbn [blocks]; rewrite Es; left; reflexivity).
  (* the labels are bound after the block *)
  assert (Q1 : forall x, In x (defined body) -> fixed_label s1 (lenv x)).
  { intros x Hx. apply (fixed_step (OAsm ev lenv r body) s s1); auto using Inv_reached. }
  assert (HL : forall x, In x (body_labels body) -> linked (ops ++ [OFinalize]) s1 (lenv x) = Some (final s4 (lenv x))).
  { intros x Hx. apply (linked_final _ ops s1 s4); auto using Inv_reached, bound_is_once. unfold final. specialize (C x Hx). destruct (label_addr s4 (lenv x)); [reflexivity|congruence]. }
  assert (Bd : forall x, In x (defined body) -> label_addr s1 (lenv x) <> None).
  { intros x Hx. pose proof Es as Es'. rewrite (block_frozen ev ev lenv r r body s) in Es'. destruct (block_after _ _ _ _ _ _ _ Es') as (gs & r' & Hc & He).
    destruct (block_linked ev lenv r (fun x => final s4 (lenv x)) (ops ++ [OFinalize]) s4 Ha' (frozen ev r body) r gs s r' s1 R (same_refl r) (frozen_regular _ _ _ _ _ T) Hc He E) as (marks & L & _ & _ & _ & Hlab).
    { rewrite frozen_labels. exact HL. }
    rewrite <- (frozen_defined ev body r) in Hx. apply in_defined, In_nth_error in Hx. destruct Hx as [k Hk]. apply addr_bound.
    rewrite (Hlab k x (nth k marks 0) Hk); [discriminate| | |].
    - apply nth_error_nth'. destruct L as [-> _]. assert (k < length (frozen ev r body))%nat by (apply nth_error_Some; congruence). lia.
    - intros j y Hj Hy. apply (unique_def lenv (frozen ev r body) k j x y); [rewrite frozen_defined; exact Hn|exact Hk|exact Hj|exact Hy].
    - apply Q. rewrite <- (frozen_defined ev body r). eapply defined_in; eauto. }
  assert (Ow : own_labels lenv body s (ops ++ [OFinalize])).
  { split; [exact Hn|]. intros x Hx. split; [apply Hlt, Hx|]. split.
    - apply (proj1 B [] (OAsm ev lenv r body) (ops ++ [OFinalize]) s (lenv x) eq_refl eq_refl). cbn [binds_label]. exists x. split; [apply in_defined, Hx|reflexivity].
    - apply (once_not (lenv x) (ops ++ [OFinalize]) s1 s4); auto using Inv_reached, bound_is_once. }
  destruct (scoped_cpu ev lenv r body s o s1 (ops ++ [OFinalize]) s4 (fun x => final s4 (lenv x)) R T Es Ha' E HL Ow) as (marks & L & _ & _ & Hm & _).
  exists (cur s, marks). split; [exact L|]. unfold source. cbn [b_ev b_env b_body b_lenv]. intros k x Hk.
  assert (Hx : In x (defined body)) by (rewrite <- (frozen_defined ev body r); eapply defined_in; eauto).
  assert (A : label_addr s4 (lenv x) <> None).
  { rewrite (addr_keeps (lenv x) (ops ++ [OFinalize]) s1 s4); auto using Inv_reached, bound_is_once. }
  destruct (label_addr s4 (lenv x)) as [a|] eqn:Ea; [|congruence]. f_equal. apply (Hm k x a Hk). apply (linked_final _ ops s1 s4); auto using Inv_reached, bound_is_once.
Qed.
Theorem all_placed : forall ops s0 s4, reached s0 -> forallb api ops = true -> run (ops ++ [OFinalize]) s0 = Some s4 ->
  bound_once (ops ++ [OFinalize]) s0 -> complete ops s0 s4 -> exists ws, Forall2 (placed s4) (blocks ops s0) ws.
Proof.
  induction ops as [|o ops IH]; intros s0 s4 R Ha E B C; [exists []; constructor|].
  cbn [app] in *. apply run_cons in E. destruct E as (s1 & E1 & E). cbn [forallb] in Ha. apply andb_true_iff in Ha. destruct Ha as [Ha1 Ha].
  assert (R1 : reached s1) by (eapply reached_api; eauto).
  destruct (IH s1 s4 R1 Ha E (bound_tail _ _ _ _ B E1)) as [ws F].
  { intros b Hb. apply C. cbn [blocks]. rewrite E1. apply in_or_app. right. exact Hb. }
  cbn [blocks]. rewrite E1. destruct (step o s0) as [y s1'|] eqn:Es; [|exists ws; exact F].
  assert (s1' = s1) by (unfold after in E1; rewrite Es in E1; congruence). subst s1'.
  destruct o; try (exists ws; exact F). cbn [block_of app].
  destruct (C (mkBlk ev lenv r body)) as [T CL]; [cbn [blocks]; rewrite Es; left; reflexivity|].
  destruct (one_block ev lenv r body ops s0 y s1 s4 R Es Ha E B T CL) as [w Hw]. exists (w :: ws). constructor; assumption.
Qed.
