(** What assembled code finds at the labels of constants, data and absolute addresses. *)
From Verif Require Import Base ModelMem ModelEnc ModelSyntax ModelMacro SpecX86 SpecAsm SpecTaken SpecState SpecHist
  Emit Trace FidelityInst StateFid MemInv MemStep MemFill MemFinal MemHist MemRun MemMisc MemFacts MemPlace MemThm ProgOne SpecProg ProgBlock ProgExec SpecMachine SpecCpu MachRun MachLib EncDec.
Local Notation length := List.length.
Local Open Scope list_scope.
Local Open Scope Z_scope.

(** ** Runs *)
Lemma first_finalize : forall ops, In OFinalize ops -> exists u v, ops = u ++ OFinalize :: v /\ no_finalize u = true.
Proof.
  induction ops as [|o ops IH]; intros H; [destruct H|]. destruct (is_finalize o) eqn:F.
  - destruct o; try discriminate. exists [], ops. split; reflexivity.
  - destruct H as [->|H]; [discriminate F|]. destruct (IH H) as (u & v & -> & Hn). exists (o :: u), v. split; [reflexivity|].
    unfold no_finalize. cbn [forallb]. rewrite F. exact Hn.
Qed.
Lemma linked_at : forall ops s l a, linked ops s l = Some a ->
  exists u v s1, ops = (u ++ [OFinalize]) ++ v /\ run (u ++ [OFinalize]) s = Some s1 /\ label_addr s1 l = Some a.
Proof.
  induction ops as [|o ops IH]; intros s l a H; [discriminate|]. cbn [linked] in H. destruct (after o s) as [s1|] eqn:E; [|discriminate].
  destruct (if is_finalize o then label_addr s1 l else None) as [x|] eqn:F.
  - destruct o; try discriminate. cbn [is_finalize] in F. inversion H; subst. exists [], ops, s1. split; [reflexivity|]. split; [cbn [app run]; rewrite E; reflexivity|exact F].
  - destruct (IH _ _ _ H) as (u & v & s2 & -> & Hr & Hl). exists (o :: u), v, s2. split; [reflexivity|]. split; [cbn [app run]; rewrite E; exact Hr|exact Hl].
Qed.
Lemma api_app a b : forallb api (a ++ b) = true <-> forallb api a = true /\ forallb api b = true.
Proof. rewrite forallb_app, andb_true_iff. reflexivity. Qed.
(** A label that is bound stays bound. *)
Lemma bound_run : forall ops s s' l, Inv s -> forallb api ops = true -> run ops s = Some s' -> loc_of s l <> None -> loc_of s' l <> None.
Proof.
  induction ops as [|o ops IH]; intros s s' l I Ha E H; [inversion E; subst; exact H|].
  apply run_cons in E. destruct E as (s1 & E1 & E). cbn [forallb] in Ha. apply andb_true_iff in Ha. destruct Ha as [Ha1 Ha].
  apply (IH s1 s' l); eauto using Inv_step. destruct (step_effect _ _ _ I Ha1 E1) as [_ X|s2 _ F].
  - destruct (ex_loc _ _ _ X l) as [->|(_ & p & x & -> & _)]; [exact H|discriminate].
  - rewrite (fn_loc _ _ _ F). destruct (ex_loc _ _ _ (fn_ext _ _ _ F) l) as [->|(_ & p & x & -> & _)]; [exact H|discriminate].
Qed.

(** ** A constant after a finalize *)
Lemma const_at s d l s0 u v sm s3 a : reached s -> step (OCreate d) s = Ok (Some l) s0 -> forallb api ((u ++ [OFinalize]) ++ v) = true ->
  run (u ++ [OFinalize]) s0 = Some sm -> run v sm = Some s3 -> (forall o, In o ((u ++ [OFinalize]) ++ v) -> ~ binds_label o l) -> label_addr sm l = Some a ->
  exists x u0 v1 s1 s2, a = addr s (dat_page d s) x /\ 0 <= x /\ x + dat_len d <= PAGE_SIZE /\
    (is_abs d = false -> bytes s3 (dat_page d s) x (length (dat_bytes d)) = dat_bytes d) /\
    u ++ [OFinalize] = u0 ++ OFinalize :: v1 /\ created_then s d l u0 s1 s2 /\ run v1 s2 = Some sm /\ loc_of s2 l = Some (dat_page d s, x) /\ base s3 = base s.
Proof.
  intros R E0 Ha Em Ev Hn Hl. pose proof (Inv_reached _ R) as I. destruct (create_inv _ _ _ _ I E0) as [I0 _].
  destruct (first_finalize (u ++ [OFinalize])) as (u0 & v0 & Eu & Hf); [apply in_or_app; right; left; reflexivity|].
  rewrite Eu in *. rewrite <- app_assoc in *. cbn [app] in *. apply api_app in Ha. destruct Ha as [Ha0 Ha]. cbn [forallb api] in Ha. apply api_app in Ha. destruct Ha as [Hav Ha].
  apply run_app in Em. destruct Em as (s1 & E1 & Em). apply run_cons in Em. destruct Em as (s2 & E2 & Em).
  assert (C : created_then s d l u0 s1 s2) by (exists s0; auto).
  destruct (placed _ _ _ _ _ _ R C) as (x & Hx & _ & _ & Hlo & Hhi & _).
  assert (E3 : run (v0 ++ v) s2 = Some s3) by (apply run_app; exists sm; auto).
  pose proof (Inv_run _ _ _ I0 Ha0 E1) as I1. pose proof (Inv_step _ _ _ I1 (eq_refl : api OFinalize = true) E2) as I2. pose proof (Inv_run _ _ _ I2 Hav Em) as Im.
  destruct (stays_placed _ _ _ _ _ _ v0 sm R C Hav Em) as [Lm _]; [intros o Ho; apply Hn; apply in_or_app; right; right; apply in_or_app; left; exact Ho|].
  destruct (stays_placed _ _ _ _ _ _ (v0 ++ v) s3 R C) as [L3 B3]; [apply api_app; auto|exact E3|intros o Ho; apply Hn; apply in_or_app; right; right; exact Ho|].
  pose proof (base_of _ _ _ _ _ _ I C) as B2. pose proof (base_run _ _ _ I2 Hav Em) as Bm. pose proof (base_run _ _ _ Im Ha Ev) as B3'.
  exists x, u0, v0, s1, s2. unfold label_addr in Hl. rewrite Lm, Hx in Hl. inversion Hl as [Hl'].
  split; [unfold addr, contents; congruence|].
  pose proof (ri_cnt _ (iv_r _ I1) (dat_page d s)) as K1. pose proof (ri_cnt _ (iv_r _ I2) (dat_page d s)) as K2. unfold cnt in *.
  split; [lia|]. split; [lia|]. split; [intro Hab; apply (B3 Hab); exact Hx|]. split; [reflexivity|]. split; [exact C|]. split; [exact Em|]. split; [exact Hx|]. congruence.
Qed.
(** ** Constants a block refers to *)
Section Block.
Variables (ev : list tok -> env -> Z) (lenv : string -> label) (r : env) (body : list inst) (s s1 : jit) (ops : list op) (s4 : jit) (target : string -> Z).
Hypothesis B : linked_block ev lenv r body s s1 ops s4 target.
Let o : op := OAsm ev lenv r body.
Lemma blk_after : after o s = Some s1.
Proof. unfold after, o. rewrite (lb_step _ _ _ _ _ _ _ _ _ B). reflexivity. Qed.
Lemma blk_reached1 : reached s1.
Proof. apply (reached_run [o] s); [apply B|reflexivity|cbn [run]; rewrite blk_after; reflexivity]. Qed.
Lemma blk_base1 : base s1 = base s.
Proof. apply (base_run [o]); [apply Inv_reached, B|reflexivity|cbn [run]; rewrite blk_after; reflexivity]. Qed.
Lemma blk_base4 : base s4 = base s.
Proof. rewrite <- blk_base1. apply (base_run ops); [apply Inv_reached, blk_reached1|apply B|apply B]. Qed.
Lemma blk_binds l : unbound_by lenv body ops l -> forall o', In o' (o :: ops) -> ~ binds_label o' l.
Proof.
  intros [H1 H2] o' [<-|Ho]; [|apply H2, Ho]. intros (x & Hx & Hl). apply (H1 x); [|exact Hl]. unfold defined. apply in_flat_map. exists (ILabel x). split; [exact Hx|left; reflexivity].
Qed.
(** The history of the constant, from its creation to [s4]. *)
Lemma blk_const x d : In x (body_labels body) -> made d (lenv x) s -> unbound_by lenv body ops (lenv x) ->
  exists sc sd before u v p off u0 v1 t1 t2 sm, reached sc /\ step (OCreate d) sc = Ok (Some (lenv x)) sd /\ forallb api before = true /\ run before sd = Some s /\
    ops = (u ++ [OFinalize]) ++ v /\ run (u ++ [OFinalize]) s1 = Some sm /\ run v sm = Some s4 /\ p = dat_page d sc /\ target x = addr s4 p off /\ 0 <= off /\ off + dat_len d <= PAGE_SIZE /\
    (is_abs d = false -> bytes s4 p off (length (dat_bytes d)) = dat_bytes d) /\
    (before ++ o :: u) ++ [OFinalize] = u0 ++ OFinalize :: v1 /\ created_then sc d (lenv x) u0 t1 t2 /\ run v1 t2 = Some sm /\ loc_of t2 (lenv x) = Some (p, off).
Proof.
  intros Hx (sc & sd & before & R & E0 & Ha & Er & Hn) Hu. pose proof (lb_target _ _ _ _ _ _ _ _ _ B x Hx) as Hl.
  destruct (linked_at _ _ _ _ Hl) as (u & v & sm & Eo & Em & Lm).
  assert (Ev : run v sm = Some s4).
  { pose proof (lb_run _ _ _ _ _ _ _ _ _ B) as E4. rewrite Eo in E4. apply run_app in E4. destruct E4 as (s' & E' & E4). congruence. }
  assert (Eall : before ++ o :: ops = ((before ++ o :: u) ++ [OFinalize]) ++ v) by (rewrite Eo, <- !app_assoc; reflexivity).
  assert (Aall : forallb api (before ++ o :: ops) = true) by (apply api_app; split; [exact Ha|cbn [forallb]; apply (lb_api _ _ _ _ _ _ _ _ _ B)]).
  assert (Nall : forall o', In o' (before ++ o :: ops) -> ~ binds_label o' (lenv x)).
  { intros o' Ho. apply in_app_or in Ho. destruct Ho as [Ho|Ho]; [apply Hn, Ho|apply (blk_binds _ Hu), Ho]. }
  assert (Ep : run ((before ++ o :: u) ++ [OFinalize]) sd = Some sm).
  { rewrite <- app_assoc. apply run_app. exists s. split; [exact Er|]. cbn [app run]. rewrite blk_after. exact Em. }
  rewrite Eall in Aall, Nall. destruct (const_at sc d (lenv x) sd (before ++ o :: u) v sm s4 (target x) R E0 Aall Ep Ev Nall Lm)
    as (off & u0 & v1 & t1 & t2 & Et & H0 & H1 & Hb & Es & C & E3 & Hloc & Hbase).
  exists sc, sd, before, u, v, (dat_page d sc), off, u0, v1, t1, t2, sm. repeat (split; [assumption|]). split; [reflexivity|].
  split; [rewrite Et; unfold addr, contents; rewrite Hbase; reflexivity|]. repeat (split; [assumption|]). assumption.
Qed.
Lemma const_found x d : In x (body_labels body) -> made d (lenv x) s -> unbound_by lenv body ops (lenv x) ->
  base s <= target x /\ target x + dat_len d <= base s + 3 * PAGE_SIZE /\
  (is_abs d = false -> read (mem s4) (target x) (length (dat_bytes d)) = dat_bytes d).
Proof.
  intros Hx Hm Hu. destruct (blk_const x d Hx Hm Hu) as (sc & sd & before & u & v & p & off & u0 & v1 & t1 & t2 & sm & _ & _ & _ & _ & _ & _ & _ & _ & Et & H0 & H1 & Hb & _).
  rewrite Et. pose proof blk_base4 as Eb. unfold addr, contents in *. rewrite Eb. split; [destruct p; cbn [pidx]; unfold PAGE_SIZE; lia|]. split; [destruct p; cbn [pidx]; unfold PAGE_SIZE in *; lia|].
  intro Hab. rewrite <- (Hb Hab) at 2. unfold bytes, addr, contents. rewrite Eb. reflexivity.
Qed.
(** A jump table entry of a label bound once, by the block or after it. *)
Lemma table_found x t p m : In x (body_labels body) -> made (KAbs t) (lenv x) s -> unbound_by lenv body ops (lenv x) ->
  loc_of s t = None -> fixed_label s1 t -> loc_of s1 t = Some (p, m) -> (forall o', In o' ops -> ~ binds_label o' t) ->
  read (mem s4) (target x) 8 = le 8 (addr s4 p m).
Proof.
  intros Hx Hm Hu Hn Hf Hl Hnb.
  destruct (blk_const x (KAbs t) Hx Hm Hu) as (sc & sd & before & u & v & q & off & u0 & v1 & t1 & t2 & sm & R & E0 & Ha & Er & Eo & Em & Ev & Eq & Et & _ & _ & _ & Es & C & E1 & Hloc).
  pose proof (Inv_reached _ R) as I. destruct (create_inv _ _ _ _ I E0) as [I0 _]. pose proof (lb_api _ _ _ _ _ _ _ _ _ B) as Hao.
  pose proof (Inv_reached _ blk_reached1) as I1.
  pose proof C as (sd' & E0' & Ha0 & Hf0 & Er1 & Er2). assert (sd' = sd) by congruence. subst sd'.
  assert (Eall : before ++ o :: ops = u0 ++ OFinalize :: v1 ++ v) by (transitivity (((before ++ o :: u) ++ [OFinalize]) ++ v); [rewrite Eo, <- !app_assoc; reflexivity|rewrite Es, <- app_assoc; reflexivity]).
  assert (Av : forallb api (v1 ++ v) = true).
  { assert (A : forallb api (before ++ o :: ops) = true) by (apply api_app; split; [exact Ha|exact Hao]). rewrite Eall in A. apply api_app in A. apply A. }
  (* every state of the history in which t is bound binds it there *)
  assert (S : forall P Q sx a, before ++ o :: ops = P ++ Q -> run P sd = Some sx -> label_addr sx t = Some a -> a = addr s4 p m).
  { intros P Q sx a EP EQ La. symmetry in EP. destruct (app_eq_app _ _ _ _ EP) as (M & [[-> HM]|[-> HM]]).
    - apply run_app in EQ. destruct EQ as (s' & Es' & EQ). assert (s' = s) by congruence. subst s'. destruct M as [|o' M].
      + inversion EQ; subst. unfold label_addr in La. rewrite Hn in La. discriminate.
      + injection HM as <- HM. apply run_cons in EQ. destruct EQ as (s' & Es'' & EQ). rewrite blk_after in Es''. inversion Es''; subst s'.
        assert (AM : forallb api M = true) by (rewrite HM in Hao; apply api_app in Hao; apply Hao).
        unfold label_addr in La. rewrite (loc_run M s1 sx t I1 AM EQ Hf), Hl in La.
        * inversion La. unfold addr, contents. rewrite (base_run _ _ _ I1 AM EQ), blk_base1, blk_base4. reflexivity.
        * intros o' Ho Hb. apply (Hnb o'); [rewrite HM; apply in_or_app; left; exact Ho|]. apply (proj1 (binds_agree _ _) Hb).
    - apply run_app in Er. destruct Er as (s' & Es' & Er'). assert (s' = sx) by congruence. subst s'. exfalso.
      apply api_app in Ha. destruct Ha as [HaP HaM]. refine (bound_run M sx s t (Inv_run _ _ _ I0 HaP EQ) HaM Er' _ Hn).
      intro K. unfold label_addr in La. rewrite K in La. discriminate. }
  assert (Bm : label_addr sm t <> None).
  { unfold label_addr. rewrite Eo in Hao, Hnb. apply api_app in Hao. rewrite (loc_run _ s1 sm t I1 (proj1 Hao) Em Hf), Hl; [discriminate|].
    intros o' Ho Hb. apply (Hnb o'); [apply in_or_app; left; exact Ho|]. apply (proj1 (binds_agree _ _) Hb). }
  destruct (abs_later _ _ _ _ _ _ (v1 ++ v) s4 R C Av) as (x' & Hx' & K); [apply run_app; eauto|].
  rewrite Hloc in Hx'. inversion Hx'; subst x'. assert (Eqc : q = cur sc) by congruence. rewrite <- Eqc in K.
  assert (Eb : bytes s4 q off 8 = read (mem s4) (target x) 8) by (rewrite Et; reflexivity). rewrite Eb in K.
  destruct K as [(N0 & N1 & _)|[(a & La & Hb)|(_ & w & z & sa & sb & a & Ew & Erw & _ & Ef & La & Hb)]].
  - exfalso. apply Bm. destruct v1 as [|z0 v1']; [inversion E1; subst; exact N0|]. destruct (@exists_last _ (z0 :: v1')) as (w & z & Ez); [discriminate|].
    rewrite Ez in *. clear Ez. rewrite app_comm_cons, app_assoc in Es. apply app_inj_tail in Es. destruct Es as [_ <-].
    apply (N1 w v); [rewrite <- app_assoc; reflexivity|exact E1].
  - rewrite Hb. f_equal. apply (S (u0 ++ [OFinalize]) (v1 ++ v) t2); [rewrite Eall, <- app_assoc; reflexivity| |exact La].
    apply run_app. exists t1. split; [exact Er1|]. cbn [run]. rewrite Er2. reflexivity.
  - rewrite Hb. f_equal. apply (S (u0 ++ OFinalize :: w ++ [OFinalize]) z sb); [rewrite Eall, Ew, <- app_assoc; cbn [app]; rewrite <- app_assoc; reflexivity| |exact La].
    apply run_app. exists t1. split; [exact Er1|]. cbn [run]. rewrite Er2. apply run_app. exists sa. split; [exact Erw|]. cbn [run]. rewrite Ef. reflexivity.
Qed.
End Block.

(** ** The operand [rip + x] *)
Lemma taken_at_label val x : taken_mem val (at_label x) = at_label x. Proof. reflexivity. Qed.
Lemma denoted_at_label val rel x : d_mem val rel (at_label x) = Some (OMem (mkMem (Some BRip) None (rel x))). Proof. reflexivity. Qed.
Lemma no_slip i : is_roundpd_label i = false -> slip i = 0.
Proof. destruct i; try reflexivity. destruct b as [|[b sc [| |]]]; try reflexivity. discriminate. Qed.
Lemma at_label_linked val rel i x ins : In (at_label x) (mems_of i) -> is_roundpd_label i = false -> as_linked val rel i = Some ins ->
  In (OMem (mkMem (Some BRip) None (rel x))) (i_ops ins).
Proof.
  intros Hin Hr H. unfold as_linked in H. rewrite (no_slip i Hr) in H. clear Hr. assert (Ex : rel x + 0 = rel x) by lia.
  unfold mems_of in Hin. destruct i; cbn [operands snd] in Hin;
    repeat match goal with
    | o : rm_operand |- _ => destruct o
    | o : rmi_operand |- _ => destruct o
    | o : ri_operand |- _ => destruct o
    | o : xm_operand |- _ => destruct o
    | o : mov_operand |- _ => destruct o
    | o : dest |- _ => destruct o
    end; cbn [rm_mems rmi_mems xm_mems mov_mems app In] in Hin;
    try (destruct Hin as [Hin|Hin]; [|destruct Hin as [Hin|Hin]; [|contradiction] || contradiction]); try contradiction; try rewrite Hin in H;
    cbn [assembled taken taken_rm taken_rmi taken_xm taken_mov taken_dest taken_ri taken_count denote d_rm d_rmi d_xm d_dest d_movq] in H; try discriminate H;
    rewrite taken_at_label in H;
    unfold d_alu, d_shift, d_one, d_fp, d_two in H; cbn [d_rm d_rmi d_xm d_ri] in H; rewrite denoted_at_label in H;
    cbn [obind] in H;
    repeat match type of H with
           | obind ?e _ = Some _ => destruct e; cbn [obind] in H; [|discriminate H]
           | match ?e with _ => _ end = Some _ => destruct e; cbn [obind] in H; try discriminate H
           end;
    try (injection H as <-; cbn [i_ops In]; rewrite Ex; solve [auto]).
Qed.

(** ** On the processor *)
Section Reads.
Variables (ev : list tok -> env -> Z) (lenv : string -> label) (r : env) (body : list inst) (s s1 : jit) (ops : list op) (s4 : jit) (target : string -> Z).
Hypothesis B : linked_block ev lenv r body s s1 ops s4 target.
Lemma load_const x d n st : In x (body_labels body) -> made d (lenv x) s -> unbound_by lenv body ops (lenv x) -> is_abs d = false ->
  Z.of_nat n <= dat_len d -> holds (mem s4) (target x) (target x + dat_len d) st -> load n (target x) st = Some (unle (firstn n (dat_bytes d))).
Proof.
  intros Hx Hm Hu Hd Hn Hh. destruct (const_found _ _ _ _ _ _ _ _ _ B x d Hx Hm Hu) as (Hlo & Hhi & Hr). specialize (Hr Hd).
  pose proof (lb_base _ _ _ _ _ _ _ _ _ B). unfold load. replace (target x + Z.of_nat n <=? 2 ^ 64) with true by (symmetry; apply Z.leb_le; lia).
  do 2 f_equal. rewrite <- Hr. unfold dat_len in *. replace (length (dat_bytes d)) with (n + (length (dat_bytes d) - n))%nat by lia.
  rewrite read_app, firstn_app, read_length, Nat.sub_diag, firstn_O, app_nil_r, firstn_all2 by (rewrite read_length; lia).
  apply read_ext. intros z Hz. apply Hh. lia.
Qed.
Lemma target_u64 x d : In x (body_labels body) -> made d (lenv x) s -> unbound_by lenv body ops (lenv x) -> 0 < dat_len d -> u64 (target x) = target x.
Proof.
  intros Hx Hm Hu Hl. destruct (const_found _ _ _ _ _ _ _ _ _ B x d Hx Hm Hu) as (Hlo & Hhi & _). pose proof (lb_base _ _ _ _ _ _ _ _ _ B).
  unfold u64. apply Z.mod_small. lia.
Qed.

Notation at_ marks := (fun k => addr s4 (cur s) (nth k marks 0)).
Lemma block_marks : exists marks, listing (as_linked (eval ev r)) target s4 (cur s) marks body /\ hd_error marks = Some (cursor s) /\ last marks 0 = cursor s1 /\
  (forall j y, nth_error body j = Some (ILabel y) -> fixed_label s1 (lenv y) /\ loc_of s1 (lenv y) = Some (cur s, nth j marks 0)) /\
  (forall j y, nth_error body j = Some (ILabel y) -> In y (body_labels body) -> target y = at_mark s4 (cur s) marks j).
Proof.
  destruct B as [R Hp Es Ha E HL Ho Hb]. pose proof Ho as [Hnd Hown]. destruct (block_after _ _ _ _ _ _ _ Es) as (gs & r' & Hc & He).
  destruct (block_linked ev lenv r target ops s4 Ha body r gs s r' s1 R (same_refl r) Hp Hc He E HL) as (marks & L & Hh & Hl & Hcur & Hlab).
  exists marks. split; [exact L|]. split; [exact Hh|]. split; [exact Hl|].
  assert (A : after (OAsm ev lenv r body) s = Some s1) by (eapply after_block; eauto).
  assert (R1 : reached s1) by (apply (reached_run [OAsm ev lenv r body] s); [exact R|reflexivity|cbn [run]; rewrite A; reflexivity]).
  assert (G : forall j y, nth_error body j = Some (ILabel y) -> fixed_label s1 (lenv y) /\ loc_of s1 (lenv y) = Some (cur s, nth j marks 0)).
  { intros j y Hj. destruct (Hown y (defined_in _ _ _ Hj)) as (Hlt & Hw & Hbb). pose proof (waiting_fixed s (lenv y) Hlt Hw) as Hf.
    split; [eapply (fixed_step (OAsm ev lenv r body) s s1); eauto using Inv_reached|]. apply (Hlab j y); auto.
    - destruct L as [Ln _]. apply nth_error_nth'. rewrite Ln. assert (j < length body)%nat by (apply nth_error_Some; congruence). lia.
    - intros j' z Hj' Hz. eapply unique_def; eauto. }
  split; [exact G|]. intros j y Hj Hy. destruct (G j y Hj) as [Hf Hloc]. destruct (Hown y (defined_in _ _ _ Hj)) as (_ & _ & Hbb).
  unfold at_mark. replace (addr s4 (cur s) (nth j marks 0)) with (addr s1 (cur s) (nth j marks 0)) by (unfold addr, contents; rewrite (base_run _ _ _ (Inv_reached _ R1) Ha E); reflexivity).
  apply (linked_loc ops s1 (lenv y)); auto using Inv_reached.
Qed.
(** One statement on the processor. *)
Lemma stmt_step marks k i st : listing (as_linked (eval ev r)) target s4 (cur s) marks body -> hd_error marks = Some (cursor s) -> last marks 0 = cursor s1 ->
  (forall j y, nth_error body j = Some (ILabel y) -> In y (body_labels body) -> target y = at_mark s4 (cur s) marks j) ->
  nth_error body k = Some i -> is_instr i = true -> holds (mem s4) (addr s4 (cur s) (cursor s)) (addr s4 (cur s) (cursor s1)) st ->
  exists x, as_linked (eval ev r) (fun l => target l - at_ marks (S k)) i = Some x /\
    cpu_step (at_ marks k) st = match x86 x (at_ marks (S k)) st with
      | None => None | Some (st', Fall) => Some (at_ marks (S k), st')
      | Some (st', Taken) => match rel_of x with Some d => Some (at_ marks (S k) + d, st') | None => None end
      | Some (st', Jump a') => Some (a', st') end.
Proof.
  intros L Hh Hl HT Hi Hin Hc. pose proof (stmt_k _ target s4 (cur s) marks body L (linked_branch _) HT k i Hi) as St.
  destruct (mstep_stmt mach x86 x86_same _ target s4 (cur s) marks (linked_branch _) i _ _ st Hin St) as (x & D & M). exists x. split; [exact D|].
  rewrite <- M. unfold cpu_step. refine (fetch_same _ target s4 (cur s) marks (linked_branch _) (mm st) i _ _ st Hin St _). intros z Hz. apply Hc.
  assert (Hk : (k < length body)%nat) by (apply nth_error_Some; congruence).
  pose proof (marks_mono _ target s4 (cur s) marks body L (linked_branch _) HT k 0 ltac:(lia)) as M1.
  pose proof (marks_mono _ target s4 (cur s) marks body L (linked_branch _) HT (length body - S k) (S k) ltac:(lia)) as M2.
  replace (S k + (length body - S k))%nat with (length body) in M2 by lia. cbn [Nat.add] in M1.
  assert (E0 : nth 0 marks 0 = cursor s) by (destruct marks; [discriminate Hh|inversion Hh; reflexivity]).
  assert (E1 : nth (length body) marks 0 = cursor s1).
  { rewrite <- Hl. destruct L as [Ln _]. destruct (@exists_last _ marks) as (l' & z' & ->); [destruct marks; discriminate|].
    rewrite last_last. rewrite app_length in Ln. cbn [length] in Ln. rewrite app_nth2 by lia. replace (length body - length l')%nat with O by lia. reflexivity. }
  unfold addr in *. lia.
Qed.
Lemma mem_label k i x : nth_error body k = Some i -> In (at_label x) (mems_of i) -> In x (body_labels body).
Proof.
  intros Hk Hi. unfold body_labels. apply in_flat_map. exists i. split; [eapply nth_error_In; eauto|]. unfold inst_labels. apply in_or_app. left.
  apply in_flat_map. exists (at_label x). split; [exact Hi|left; reflexivity].
Qed.
Lemma gpr_of n : 0 <= n < 16 -> is_gpr n = true.
Proof. intro H. unfold is_gpr. apply andb_true_iff. split; apply Z.leb_le; lia. Qed.
Lemma marks_range marks j : listing (as_linked (eval ev r)) target s4 (cur s) marks body -> hd_error marks = Some (cursor s) -> last marks 0 = cursor s1 ->
  (forall j y, nth_error body j = Some (ILabel y) -> In y (body_labels body) -> target y = at_mark s4 (cur s) marks j) -> (j <= length body)%nat ->
  0 <= at_ marks j < 2 ^ 64.
Proof.
  intros L Hh Hl HT Hj. pose proof (marks_mono _ target s4 (cur s) marks body L (linked_branch _) HT j 0 ltac:(lia)) as M1.
  pose proof (marks_mono _ target s4 (cur s) marks body L (linked_branch _) HT (length body - j) j ltac:(lia)) as M2. cbn [Nat.add] in M1.
  replace (j + (length body - j))%nat with (length body) in M2 by lia.
  assert (E0 : nth 0 marks 0 = cursor s) by (destruct marks; [discriminate Hh|inversion Hh; reflexivity]).
  assert (E1 : nth (length body) marks 0 = cursor s1).
  { rewrite <- Hl. destruct L as [Ln _]. destruct (@exists_last _ marks) as (l' & z' & ->); [destruct marks; discriminate|].
    rewrite last_last. rewrite app_length in Ln. cbn [length] in Ln. rewrite app_nth2 by lia. replace (length body - length l')%nat with O by lia. reflexivity. }
  pose proof (ri_cnt _ (iv_r _ (Inv_reached _ (lb_reached _ _ _ _ _ _ _ _ _ B))) (cur s)) as K. pose proof (ri_cnt _ (iv_r _ (Inv_reached _ (blk_reached1 _ _ _ _ _ _ _ _ _ B))) (cur s1)) as K1.
  pose proof (lb_base _ _ _ _ _ _ _ _ _ B) as Hb. pose proof (blk_base4 _ _ _ _ _ _ _ _ _ B) as Eb. unfold cursor, cnt in *.
  rewrite <- E0 in K. rewrite <- E1 in K1.
  pose proof (marks_mono _ target s4 (cur s) marks body L (linked_branch _) HT j 0%nat ltac:(lia)) as M3. cbn [Nat.add] in M3.
  unfold addr, contents. rewrite Eb. destruct (cur s); cbn [pidx]; unfold PAGE_SIZE in *; lia.
Qed.
Lemma ea_label rf next x d : In x (body_labels body) -> made d (lenv x) s -> unbound_by lenv body ops (lenv x) -> 0 < dat_len d ->
  ea rf next (mkMem (Some BRip) None (target x - next)) = target x.
Proof. intros Hx Hm Hu Hl. unfold ea. cbn [m_base m_index m_disp]. replace (next + 0 + (target x - next)) with (target x) by lia. eapply target_u64; eauto. Qed.
Lemma block_reads : exists marks, listing (as_linked (eval ev r)) target s4 (cur s) marks body /\ hd_error marks = Some (cursor s) /\ last marks 0 = cursor s1 /\
  (forall k i x d w st, nth_error body k = Some i -> In (at_label x) (mems_of i) -> is_roundpd_label i = false ->
     made d (lenv x) s -> unbound_by lenv body ops (lenv x) -> is_abs d = false -> Z.of_nat (size w) <= dat_len d ->
     holds (mem s4) (target x) (target x + dat_len d) st ->
     exists ins o, as_linked (eval ev r) (fun l => target l - at_ marks (S k)) i = Some ins /\ In o (i_ops ins) /\
       get w (at_ marks (S k)) st o = Some (unle (firstn (size w) (dat_bytes d)))) /\
  (forall k n x d st, nth_error body k = Some (IMovq (MovReg (RReg n)) (MovInd (at_label x))) -> 0 <= n < 16 ->
     made d (lenv x) s -> unbound_by lenv body ops (lenv x) -> is_abs d = false -> 8 <= dat_len d ->
     holds (mem s4) (addr s4 (cur s) (cursor s)) (addr s4 (cur s) (cursor s1)) st -> holds (mem s4) (target x) (target x + dat_len d) st ->
     cpu_step (at_ marks k) st = Some (at_ marks (S k), put_reg W64 n (unle (firstn 8 (dat_bytes d))) st)) /\
  (forall k n x d st, nth_error body k = Some (IMovsd (XmXmm (ELit n)) (XmInd (at_label x))) -> 0 <= n < 16 ->
     made d (lenv x) s -> unbound_by lenv body ops (lenv x) -> is_abs d = false -> 8 <= dat_len d ->
     holds (mem s4) (addr s4 (cur s) (cursor s)) (addr s4 (cur s) (cursor s1)) st -> holds (mem s4) (target x) (target x + dat_len d) st ->
     cpu_step (at_ marks k) st = Some (at_ marks (S k), put_xmm n (unle (firstn 8 (dat_bytes d))) st)) /\
  (forall k n x d st, nth_error body k = Some (IMovq (MovInd (at_label x)) (MovReg (RReg n))) -> 0 <= n < 16 ->
     made d (lenv x) s -> unbound_by lenv body ops (lenv x) -> is_abs d = false -> 8 <= dat_len d ->
     holds (mem s4) (addr s4 (cur s) (cursor s)) (addr s4 (cur s) (cursor s1)) st ->
     cpu_step (at_ marks k) st = Some (at_ marks (S k), set_mm (poke (mm st) (target x) (le 8 (regs st n))) st)) /\
  (forall k x j y st, nth_error body k = Some (IJmp (DestInd (at_label x))) -> nth_error body j = Some (ILabel y) ->
     made (KAbs (lenv y)) (lenv x) s -> unbound_by lenv body ops (lenv x) -> loc_of s (lenv y) = None ->
     holds (mem s4) (addr s4 (cur s) (cursor s)) (addr s4 (cur s) (cursor s1)) st -> holds (mem s4) (target x) (target x + 8) st ->
     cpu_step (at_ marks k) st = Some (at_ marks j, st)).
Proof.
  destruct block_marks as (marks & L & Hh & Hl & Hlab & HT). exists marks. split; [exact L|]. split; [exact Hh|]. split; [exact Hl|].
  split; [|split; [|split; [|split]]].
  - intros k i x d w st Hk Hi Hr Hm Hu Hd Hs Hc. pose proof (mem_label k i x Hk Hi) as Hx.
    pose proof (stmt_k _ target s4 (cur s) marks body L (linked_branch _) HT k i Hk) as St.
    assert (Hin : is_instr i = true) by (destruct i; try reflexivity; destruct Hi).
    destruct (mstep_stmt mach x86 x86_same _ target s4 (cur s) marks (linked_branch _) i _ _ st Hin St) as (ins & D & _). exists ins, (OMem (mkMem (Some BRip) None (target x - at_ marks (S k)))).
    split; [exact D|]. split; [exact (at_label_linked _ _ _ _ _ Hi Hr D)|]. cbn [get]. erewrite ea_label; eauto; [|destruct w; cbn [size] in Hs; lia]. eapply load_const; eauto.
  - intros k n x d st Hk Hn Hm Hu Hd Hs Hc Hh2. assert (Hx : In x (body_labels body)) by (eapply mem_label; [exact Hk|left; reflexivity]).
    destruct (stmt_step marks k _ st L Hh Hl HT Hk eq_refl Hc) as (ins & D & M). rewrite M.
    unfold as_linked in D. cbn [assembled taken taken_mov denote slip] in D. rewrite taken_at_label in D. unfold d_movq in D. rewrite denoted_at_label in D.
    unfold taken_reg, d_two, d_reg in D. cbn [reg_no] in D. rewrite (reg_taken_id ev target n (gpr_of n Hn)), (gpr_of n Hn) in D.
    cbn [obind guard] in D. injection D as <-. cbn [x86 i_width i_mnem i_ops get put size]. rewrite Z.add_0_r. erewrite ea_label by (eauto; lia). erewrite load_const by (eauto; lia). reflexivity.
  - intros k n x d st Hk Hn Hm Hu Hd Hs Hc Hh2. assert (Hx : In x (body_labels body)) by (eapply mem_label; [exact Hk|left; reflexivity]).
    destruct (stmt_step marks k _ st L Hh Hl HT Hk eq_refl Hc) as (ins & D & M). rewrite M.
    unfold as_linked in D. cbn [assembled taken taken_xm denote slip] in D. rewrite taken_at_label in D. cbn [d_xm is_mem_xm andb negb guard obind] in D. rewrite denoted_at_label in D.
    unfold taken_xmm, d_two, d_xmm in D. cbn [eval] in D. rewrite (reg_taken_id ev target n (gpr_of n Hn)), (gpr_of n Hn) in D.
    cbn [obind guard] in D. injection D as <-. cbn [x86 i_width i_mnem i_ops get put size]. rewrite Z.add_0_r. erewrite ea_label by (eauto; lia). erewrite load_const by (eauto; lia). reflexivity.
  - intros k n x d st Hk Hn Hm Hu Hd Hs Hc. assert (Hx : In x (body_labels body)) by (eapply mem_label; [exact Hk|left; reflexivity]).
    destruct (stmt_step marks k _ st L Hh Hl HT Hk eq_refl Hc) as (ins & D & M). rewrite M.
    unfold as_linked in D. cbn [assembled taken taken_mov denote slip] in D. rewrite taken_at_label in D. unfold d_movq in D. rewrite denoted_at_label in D.
    unfold taken_reg, d_two, d_reg in D. cbn [reg_no] in D. rewrite (reg_taken_id ev target n (gpr_of n Hn)), (gpr_of n Hn) in D.
    cbn [obind guard] in D. injection D as <-. cbn [x86 i_width i_mnem i_ops get put size obind]. rewrite Z.add_0_r. erewrite ea_label by (eauto; lia).
    destruct (const_found _ _ _ _ _ _ _ _ _ B x d Hx Hm Hu) as (Hlo & Hhi & _). pose proof (lb_base _ _ _ _ _ _ _ _ _ B).
    unfold store. replace (target x + Z.of_nat 8 <=? 2 ^ 64) with true by (symmetry; apply Z.leb_le; lia). rewrite le_trunc. reflexivity.
  - intros k x j y st Hk Hj Hm Hu Hn Hc Hh2. assert (Hx : In x (body_labels body)) by (eapply mem_label; [exact Hk|left; reflexivity]).
    destruct (Hlab j y Hj) as [Hf Hloc]. pose proof (lb_base _ _ _ _ _ _ _ _ _ B) as Hb. destruct (const_found _ _ _ _ _ _ _ _ _ B x _ Hx Hm Hu) as (Hlo & Hhi & _).
    assert (T : read (mem s4) (target x) 8 = le 8 (at_ marks j)).
    { apply (table_found _ _ _ _ _ _ _ _ _ B x (lenv y)); auto. destruct (lb_own _ _ _ _ _ _ _ _ _ B) as [_ Ho]. apply (Ho y (defined_in _ _ _ Hj)). }
    destruct (stmt_step marks k _ st L Hh Hl HT Hk eq_refl Hc) as (ins & D & M). rewrite M.
    unfold as_linked in D. cbn [assembled taken taken_dest denote slip] in D. rewrite taken_at_label in D. unfold d_dest in D. rewrite denoted_at_label in D.
    cbn [obind] in D. injection D as <-. cbn [x86 i_width i_mnem i_ops get put size obind]. rewrite Z.add_0_r. erewrite ea_label; eauto; [|reflexivity].
    assert (dat_len (KAbs (lenv y)) = 8) by reflexivity.
    unfold load. replace (target x + Z.of_nat 8 <=? 2 ^ 64) with true by (symmetry; apply Z.leb_le; lia). cbn [obind].
    rewrite (read_ext (mm st) (mem s4)) by (intros z Hz; apply Hh2; lia). rewrite T, unle_le. do 2 f_equal. apply Z.mod_small.
    change (256 ^ Z.of_nat 8) with (2 ^ 64). apply marks_range; auto. assert (j < length body)%nat by (apply nth_error_Some; congruence). lia.
Qed.
End Reads.
