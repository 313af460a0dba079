(** Bytes, labels, repeated finalize, code blocks, slices, patches, raw emission. *)
From Verif Require Import Base ModelMem ModelEnc ModelSyntax ModelMacro Trace Emit StateFid SpecX86 EncDec SpecState SpecHist MemInv MemStep MemFinal MemFill MemHist MemRun MemSafe MemOut MemFacts MemLocal MemPlace.
Local Notation length := List.length.

(** ** Bytes (C13) *)
Lemma run_effects (P : jit -> jit -> Prop) : (forall s, Inv s -> P s s) ->
  (forall o s s1 s', Inv s -> api o = true -> after o s = Some s1 -> P s1 s' -> P s s') ->
  forall ops s s', Inv s -> forallb api ops = true -> run ops s = Some s' -> P s s'.
Proof.
  intros Hr Hs. induction ops as [|o ops IH]; intros s s' I Ha E; [inversion E; subst; apply Hr, I|].
  apply run_cons in E. destruct E as (s1 & E1 & E). cbn [forallb] in Ha. apply andb_true_iff in Ha. destruct Ha as [Ha1 Ha].
  eapply Hs; eauto. eapply IH; eauto. eapply Inv_step; eauto.
Qed.
Lemma cursor_mono ops s s' p : Inv s -> forallb api ops = true -> run ops s = Some s' -> counter (pages s p) <= counter (pages s' p).
Proof.
  apply (run_effects (fun s s' => cnt s p <= cnt s' p)); [intros; lia|].
  intros o a b c I Ha E H. pose proof (effect_cnt _ _ _ (step_effect _ _ _ I Ha E) p). lia.
Qed.
Lemma base_run ops s s' : Inv s -> forallb api ops = true -> run ops s = Some s' -> base s' = base s.
Proof.
  apply (run_effects (fun s s' => base s' = base s)); [reflexivity|].
  intros o a b c I Ha E H. rewrite H. apply (effect_base _ _ _ (step_effect _ _ _ I Ha E)).
Qed.
Lemma len_run ops s s' : Inv s -> forallb api ops = true -> run ops s = Some s' -> (length (labels s) <= length (labels s'))%nat.
Proof.
  apply (run_effects (fun s s' => (length (labels s) <= length (labels s'))%nat)); [reflexivity|].
  intros o a b c I Ha E H. pose proof (effect_len _ _ _ (step_effect _ _ _ I Ha E)). lia.
Qed.
Lemma nofin_cons o ops : no_finalize (o :: ops) = true -> is_finalize o = false /\ no_finalize ops = true.
Proof. unfold no_finalize. cbn [forallb]. intro H. apply andb_true_iff in H. destruct H as [H1 H2]. apply negb_true_iff in H1. auto. Qed.
Lemma byte_kept : forall ops s s' p i, Inv s -> forallb api ops = true -> no_finalize ops = true -> run ops s = Some s' ->
  0 <= i < counter (pages s p) -> byte s' p i = byte s p i.
Proof.
  induction ops as [|o ops IH]; intros s s' p i I Ha Hf E Hi; [inversion E; reflexivity|].
  apply run_cons in E. destruct E as (s1 & E1 & E). cbn [forallb] in Ha. apply andb_true_iff in Ha. destruct Ha as [Ha1 Ha].
  apply nofin_cons in Hf. destruct Hf as [Hf1 Hf].
  pose proof (step_effect _ _ _ I Ha1 E1) as Ef. pose proof (effect_cnt _ _ _ Ef p). unfold cnt in *.
  rewrite (IH s1 s' p i); auto; [|eapply Inv_step; eauto|lia].
  destruct Ef as [_ X|s2 -> _]; [|discriminate]. apply (ext_byte _ _ _ _ _ X Hi).
Qed.
Lemma in_field_dec t p i : {in_field t p i} + {~ in_field t p i}.
Proof.
  unfold in_field. destruct (pid_dec (fpage t) p); [|right; tauto]. destruct (Z_le_dec (fpos t) i); [|right; lia].
  destruct (Z_lt_dec i (fpos t + flen t)); [left; auto|right; lia].
Qed.
Lemma pending_dec s p i : pending s p i \/ ~ pending s p i.
Proof.
  assert (H : forall ls, (exists k inf t, nth_error ls k = Some inf /\ In t (targets inf) /\ in_field t p i) \/
    ~ (exists k inf t, nth_error ls k = Some inf /\ In t (targets inf) /\ in_field t p i)).
  { induction ls as [|a ls IH].
    - right. intros (k & inf & t & H & _). destruct k; discriminate.
    - destruct (Exists_dec (fun t => in_field t p i) (targets a) (fun t => in_field_dec t p i)) as [H|H].
      + left. apply Exists_exists in H. destruct H as (t & H1 & H2). exists 0%nat, a, t. auto.
      + destruct IH as [(k & inf & t & H1 & H2)|IH]; [left; exists (S k), inf, t; auto|]. right.
        intros (k & inf & t & H1 & H2 & H3). destruct k as [|k]; cbn [nth_error] in H1.
        * inversion H1; subst. apply H. apply Exists_exists. eauto.
        * apply IH. exists k, inf, t. auto. }
  destruct (H (labels s)) as [(k & inf & t & H1 & H2 & H3)|Hn].
  - left. exists k, t. unfold refs. rewrite H1. auto.
  - right. intros (l & t & H1 & H2). unfold refs in H1. destruct (nth_error (labels s) l) eqn:E; [|contradiction]. apply Hn. eauto 6.
Qed.
Lemma byte_changed ops s s' p i : Inv s -> forallb api ops = true -> run ops s = Some s' -> 0 <= i < counter (pages s p) ->
  byte s' p i <> byte s p i -> pending s p i /\ no_finalize ops = false.
Proof.
  intros I Ha E Hi Hne. destruct (no_finalize ops) eqn:Hf; [contradiction Hne; eapply byte_kept; eauto|]. split; [|reflexivity].
  destruct (pending_dec s p i) as [H|H]; [exact H|]. contradiction Hne. apply (settled_run ops s s' p i I Ha E). split; auto.
Qed.
Lemma finalize_changed s s' p i : Inv s -> after OFinalize s = Some s' -> 0 <= i < counter (pages s p) -> byte s' p i <> byte s p i ->
  exists l t, In t (refs s l) /\ in_field t p i /\ label_addr s' l <> None.
Proof.
  intros I E Hi Hne. apply finalize_after in E. destruct (finalize_spec _ _ I E) as [s1 F].
  pose proof (fn_ext _ _ _ F) as X. pose proof (ex_cnt _ _ _ X p) as HX. unfold cnt in HX.
  assert (Hd : (exists l t, In t (refs s1 l) /\ in_field t p i /\ loc_of s1 l <> None) \/ ~ (exists l t, In t (refs s1 l) /\ in_field t p i /\ loc_of s1 l <> None)).
  { destruct (pending_dec s1 p i) as [(l & t & H1 & H2)|H].
    - destruct (loc_of s1 l) as [x|] eqn:El; [left; exists l, t; split; [exact H1|split; [exact H2|congruence]]|]. right. intros (l2 & t2 & H3 & H4 & H5).
      apply In_nth_error in H1. apply In_nth_error in H3. destruct H1 as [k1 H1], H3 as [k2 H3].
      refine (ri_disj _ (fn_inv _ _ _ F) l k1 t l2 k2 t2 H1 H3 _ p i H2 H4). congruence.
    - right. intros (l & t & H1 & H2 & _). apply H. exists l, t. auto. }
  destruct Hd as [(l & t & H1 & H2 & H3)|Hn].
  - exists l, t. assert (Ht : In t (refs s l)).
    { apply In_nth_error in H1. destruct H1 as [k Hk]. destruct (old_or_new _ _ _ _ _ _ X Hk) as [Ho|Hn]; [eapply nth_error_In; exact Ho|].
      destruct (ex_new _ _ _ X _ _ _ Hn Hk) as (A & _). destruct H2 as [H2 H2']. unfold cnt in A. rewrite H2 in A. lia. }
    split; [exact Ht|]. split; [exact H2|]. rewrite label_addr_none, (fn_loc _ _ _ F). exact H3.
  - contradiction Hne. rewrite (fin_byte _ _ _ p i F); [apply (ext_byte _ _ _ _ _ X Hi)|unfold cnt; lia|].
    intros l t Hl Ht Hf. apply Hn. eauto.
Qed.

(** ** Labels (C19) *)
Lemma step_returns o s l s' : Inv s -> api o = true -> step o s = Ok (Some l) s' -> l = length (labels s) /\ length (labels s') = S (length (labels s)).
Proof.
  intros I Ha E. destruct o; try discriminate Ha; cbn [step] in E;
    try (unfold nolabel, bind, ret in E; match type of E with match ?x with _ => _ end = _ => destruct x; discriminate end).
  - destruct n; unfold nolabel, bind, ret in E; match type of E with match ?x with _ => _ end = _ => destruct x; discriminate end.
  - destruct (compile_all body); [|discriminate]. unfold bind, ret in E. match type of E with match ?x with _ => _ end = _ => destruct x; discriminate end.
  - destruct c; try discriminate; unfold nolabel, bind, ret in E; match type of E with match ?x with _ => _ end = _ => destruct x; discriminate end.
  - unfold bind, new_label, ret in E. inversion E; subst. split; [reflexivity|]. cbn [labels set_labels]. rewrite app_length. cbn. lia.
  - unfold bind in E. rewrite create_eq in E. cbn in E. inversion E; subst. split; [reflexivity|]. unfold created. cbn [labels set_page set_labels]. rewrite app_length. cbn. lia.
Qed.
Lemma returned_range : forall ops s, Inv s -> forallb api ops = true -> NoDup (returned ops s) /\ forall l, In l (returned ops s) -> (length (labels s) <= l)%nat.
Proof.
  induction ops as [|o ops IH]; intros s I Ha; [split; [constructor|contradiction]|].
  cbn [forallb] in Ha. apply andb_true_iff in Ha. destruct Ha as [Ha1 Ha]. cbn [returned].
  assert (Hrest : NoDup (match after o s with Some s' => returned ops s' | None => [] end) /\
    forall l s1, after o s = Some s1 -> In l (match after o s with Some s' => returned ops s' | None => [] end) -> (length (labels s1) <= l)%nat).
  { destruct (after o s) as [s1|] eqn:E; [|split; [constructor|contradiction]].
    destruct (IH s1 (Inv_step _ _ _ I Ha1 E) Ha) as [H1 H2]. split; [exact H1|]. intros l s2 Hs. inversion Hs; subst. apply H2. }
  destruct Hrest as [R1 R2].
  assert (Hge : forall l, In l (match after o s with Some s' => returned ops s' | None => [] end) -> (length (labels s) <= l)%nat).
  { intros l Hl. destruct (after o s) as [s1|] eqn:E; [|contradiction]. specialize (R2 l s1 eq_refl Hl).
    pose proof (effect_len _ _ _ (step_effect _ _ _ I Ha1 E)). lia. }
  destruct (step o s) as [[l0|] s0|e s0] eqn:Es; cbn [app].
  - destruct (step_returns _ _ _ _ I Ha1 Es) as [-> Hl].
    assert (Ea : after o s = Some s0) by (unfold after; rewrite Es; reflexivity).
    split.
    + constructor; [|exact R1]. intro Hin. specialize (R2 _ s0 Ea Hin). lia.
    + intros l [<-|Hin]; [lia|apply Hge, Hin].
  - auto.
  - auto.
Qed.
Lemma bind_sets l s s' : bind_label l s = Ok tt s' -> loc_of s' l = Some (cur s, cursor s).
Proof.
  unfold bind_label, on_cur, bind_label_on, bind, get_counter, modify_label. destruct (l <? length (labels s))%nat eqn:El; [|discriminate].
  intro H. inversion H; subst. unfold loc_of. cbn [labels set_labels]. rewrite upd_nth_nth, Nat.eqb_refl.
  destruct (nth_error (labels s) l) eqn:F; [reflexivity|]. apply nth_error_None in F. lia.
Qed.
Lemma bind_page_sets n l s s' : bind_label_with_page n l s = Ok tt s' -> exists p, pid_of n = Some p /\ loc_of s' l = Some (p, counter (pages s p)).
Proof.
  unfold bind_label_with_page, on_page. destruct (pid_of n) as [p|]; [|discriminate]. intro H. exists p. split; [reflexivity|].
  unfold bind_label_on, bind, get_counter, modify_label in H. destruct (l <? length (labels s))%nat eqn:El; [|discriminate].
  inversion H; subst. unfold loc_of. cbn [labels set_labels]. rewrite upd_nth_nth, Nat.eqb_refl.
  destruct (nth_error (labels s) l) eqn:F; [reflexivity|]. apply nth_error_None in F. lia.
Qed.
Lemma label_stable s l s0 ops1 s1 ops2 s2 : Inv s -> step OLabel s = Ok (Some l) s0 ->
  forallb api (ops1 ++ ops2) = true -> run ops1 s0 = Some s1 -> run ops2 s1 = Some s2 -> (forall o, In o ops2 -> ~ binds_label o l) ->
  loc_of s2 l = loc_of s1 l.
Proof.
  intros I E0 Ha E1 E2 Hn. rewrite forallb_app in Ha. apply andb_true_iff in Ha. destruct Ha as [Ha1 Ha2].
  assert (Ea : after OLabel s = Some s0) by (unfold after; rewrite E0; reflexivity).
  pose proof (Inv_step _ _ _ I (eq_refl : api OLabel = true) Ea) as I0. pose proof (Inv_run _ _ _ I0 Ha1 E1) as I1.
  assert (F0 : fixed_label s0 l).
  { cbn [step] in E0. unfold bind, new_label, ret in E0. inversion E0; subst. split.
    - cbn [labels set_labels]. rewrite app_length. cbn. lia.
    - change (queue (set_labels (labels s ++ [label_new]) s)) with (queue s). intro Hin. pose proof (in_queue_lt _ _ I Hin). lia. }
  assert (F1 : fixed_label s1 l).
  { refine (run_ind (fun t => fixed_label t l) _ ops1 s0 s1 I0 Ha1 E1 F0). intros o t t' It Hao Ht Est. eapply fixed_step; eauto. }
  eapply loc_run; eauto. intros o Ho Hr. apply (Hn o Ho). apply binds_agree, Hr.
Qed.
Lemma getters s l : match loc_of s l with
  | Some (p, x) =>
      get_label_pos l s = Ok (p, x) s /\ get_label_u64 l s = Ok (addr s p x) s /\ get_label_addr l s = Ok (addr s p x) s /\
      get_label_addr2 l s = Ok (addr s p x) s /\ (addr s p x <> 0 -> get_label_address l s = Ok (addr s p x) s)
  | None =>
      exists e, get_label_pos l s = Panic e s /\ get_label_u64 l s = Panic e s /\ get_label_addr l s = Panic e s /\
      get_label_addr2 l s = Panic e s /\ get_label_address l s = Panic e s
  end.
Proof.
  unfold get_label_addr, get_label_addr2, get_label_u64, get_label_address, get_label_pos, loc_of, bind, ModelMem.get, ret, codeptr, fail.
  destruct (nth_error (labels s) l) as [i|]; [|exists IndexOOB; auto 6]. destruct (loc i) as [[p x]|]; [|exists NoBinding; auto 6].
  cbn [fst snd]. repeat (split; [reflexivity|]). intro H. destruct (addr s p x =? 0) eqn:E; [lia|reflexivity].
Qed.

(** ** finalize again (C20) *)
Definition idle (s : jit) : Prop := (forall p, waiting s p = []) /\ (forall l, loc_of s l <> None -> refs s l = []).
Lemma finalize_idle s s' : Inv s -> after OFinalize s = Some s' -> idle s'.
Proof.
  intros I E. split; [intro p; apply (finalize_end _ _ p I E)|]. apply finalize_after in E. destruct (finalize_spec _ _ I E) as [s1 F].
  intros l. rewrite (fn_loc _ _ _ F), (fn_refs _ _ _ F). destruct (loc_of s1 l); [reflexivity|congruence].
Qed.
Lemma idle_finalize s : reached s -> idle s -> exists s', after OFinalize s = Some s' /\ (forall x, mem s' x = mem s x) /\
  (forall p, counter (pages s' p) = counter (pages s p)) /\ (forall l, loc_of s' l = loc_of s l) /\ (forall l, refs s' l = refs s l) /\
  base s' = base s /\ cur s' = cur s.
Proof.
  intros R [Hw Hr]. pose proof (Inv_reached _ R) as I. destruct (proj2 (finalize_succeeds s R)) as [s' E].
  { pose proof (ri_cnt _ (iv_r _ I)) as K. pose proof (Hw P0) as W0. pose proof (Hw P1) as W1. pose proof (Hw P2) as W2. cbn [waiting] in *. split.
    - unfold room_for_constants. rewrite W0, W1, W2. cbn [layout_end]. unfold cnt_ok, cnt in K. repeat split; apply K.
    - intros p l k Hin. pose proof (iv_q _ I) as [_ [Q2 _] _ _]. destruct p; [rewrite W0 in Hin|rewrite W1 in Hin|rewrite Q2 in Hin]; contradiction. }
  exists s'. split; [exact E|]. assert (HE : forall p, counter (pages s' p) = counter (pages s p)).
  { intro p. rewrite (proj1 (finalize_end _ _ p I E)), Hw. reflexivity. }
  apply finalize_after in E. destruct (finalize_spec _ _ I E) as [s1 F]. pose proof (fn_ext _ _ _ F) as X.
  assert (Hc : forall p, cnt s1 p = cnt s p) by (intro p; rewrite <- (fin_cnt _ _ _ F); apply HE).
  assert (Hq : queue s = []).
  { unfold queue. pose proof (Hw P0) as W0. pose proof (Hw P1) as W1. pose proof (Hw P2) as W2. cbn [waiting] in *. rewrite W0, W1, W2. reflexivity. }
  assert (Hloc : forall l, loc_of s1 l = loc_of s l).
  { intro l. destruct (ex_loc _ _ _ X l) as [H|[H _]]; [exact H|rewrite Hq in H; contradiction]. }
  assert (Hrefs : forall l, refs s1 l = refs s l).
  { intro l. destruct (ex_refs _ _ _ X l) as [ts Ht]. destruct ts as [|t ts]; [rewrite app_nil_r in Ht; exact Ht|]. exfalso.
    assert (Hk : nth_error (refs s1 l) (length (refs s l)) = Some t) by (rewrite Ht, nth_error_app2, Nat.sub_diag by lia; reflexivity).
    destruct (ex_new _ _ _ X _ _ _ (le_n _) Hk) as (A & B & _). pose proof (flen_pos t). rewrite Hc in B. lia. }
  split; [|split; [exact HE|split; [|split; [|split; [apply (fn_base _ _ _ F)|apply (fn_cur _ _ _ F)]]]]].
  - intro x. rewrite (fn_frame _ _ _ F).
    + apply (ex_mem _ _ _ X). intro p. rewrite Hc. lia.
    + intros l t Hl Ht. rewrite Hloc in Hl. rewrite Hrefs, (Hr l Hl) in Ht. contradiction.
  - intro l. rewrite (fn_loc _ _ _ F). apply Hloc.
  - intro l. rewrite (fn_refs _ _ _ F), Hloc, Hrefs. destruct (loc_of s l) as [x|] eqn:El; [|reflexivity]. symmetry. apply Hr. congruence.
Qed.
Lemma inert_api o : inert o = true -> api o = true. Proof. destruct o; discriminate || reflexivity. Qed.
Lemma inert_step o s s' : inert o = true -> after o s = Some s' -> mem s' = mem s /\ base s' = base s /\ pages s' = pages s /\ (forall l, loc_of s' l = loc_of s l) /\ (forall l, refs s' l = refs s l).
Proof.
  intros Ho E. apply after_leaves in E. destruct o; try discriminate.
  - apply select_leaves in E. destruct E as [-> |[-> | ->]]; cbn [mem base pages set_cur]; auto 6.
  - cbn in E. subst. cbn [mem base pages set_labels]. split; [reflexivity|]. split; [reflexivity|]. split; [reflexivity|].
    assert (H : forall l, nth_error (labels s ++ [label_new]) l = nth_error (labels s) l \/ (nth_error (labels s) l = None /\ nth_error (labels s ++ [label_new]) l = Some label_new)).
    { intro k. destruct (Compare_dec.lt_dec k (length (labels s))) as [H|H]; [left; apply nth_error_app1; exact H|].
      rewrite nth_error_app2 by lia. assert (nth_error (labels s) k = None) as -> by (apply nth_error_None; lia).
      destruct (k - length (labels s))%nat as [|j]; [right; auto|left; destruct j; reflexivity]. }
    split; intro l; unfold loc_of, refs; cbn [labels set_labels]; destruct (H l) as [->|[-> ->]]; reflexivity.
Qed.
Lemma inert_run : forall ops s s', forallb inert ops = true -> run ops s = Some s' ->
  mem s' = mem s /\ base s' = base s /\ pages s' = pages s /\ (forall l, loc_of s' l = loc_of s l) /\ (forall l, refs s' l = refs s l).
Proof.
  induction ops as [|o ops IH]; intros s s' Ho E; [inversion E; auto 6|].
  apply run_cons in E. destruct E as (s1 & E1 & E). cbn [forallb] in Ho. apply andb_true_iff in Ho. destruct Ho as [Ho1 Ho].
  destruct (inert_step _ _ _ Ho1 E1) as (A & B & C & D & F). destruct (IH _ _ Ho E) as (A' & B' & C' & D' & F').
  repeat split; congruence.
Qed.
Lemma finalize_twice s s1 ops s2 : reached s -> after OFinalize s = Some s1 -> forallb inert ops = true -> run ops s1 = Some s2 ->
  exists s3, after OFinalize s2 = Some s3 /\ (forall x, mem s3 x = mem s1 x) /\
    (forall p, counter (pages s3 p) = counter (pages s1 p)) /\ (forall l, label_addr s3 l = label_addr s1 l).
Proof.
  intros R E Ho Er. pose proof (Inv_reached _ R) as I. destruct (finalize_idle _ _ I E) as [W1 W2].
  destruct (inert_run _ _ _ Ho Er) as (A & B & C & D & F).
  assert (R1 : reached s1) by (eapply (reached_api OFinalize); eauto).
  assert (Ha : forallb api ops = true) by (rewrite forallb_forall in *; intros o Hin; apply inert_api, Ho, Hin).
  pose proof (reached_run _ _ _ R1 Ha Er) as R2.
  destruct (idle_finalize s2 R2) as (s3 & E3 & H1 & H2 & H3 & _ & H5 & _).
  { split; [intro p; rewrite <- (W1 p); destruct p; cbn [waiting]; rewrite C; reflexivity|]. intros l Hl. rewrite D in Hl. rewrite F. apply W2, Hl. }
  exists s3. split; [exact E3|]. split; [intro x; rewrite H1, A; reflexivity|]. split; [intro p; rewrite H2, C; reflexivity|].
  intro l. unfold label_addr. rewrite H3, D. destruct (loc_of s1 l) as [[p x]|]; [|reflexivity]. rewrite (addr_base s1 s3) by congruence. reflexivity.
Qed.

(** ** Code blocks (C21) *)
Lemma chain_blocks a bs e : chain a bs e <-> blocks a bs e.
Proof. revert a. induction bs as [|[[x y] z] bs IH]; intro a; cbn [chain blocks]; [tauto|]. rewrite IH. tauto. Qed.
Lemma page_record_kept o s s' p : Inv s -> api o = true -> is_finalize o = false -> after o s = Some s' ->
  code_block (pages s' p) = code_block (pages s p) /\ code_block_top (pages s' p) = code_block_top (pages s p) /\ code_len (pages s' p) = code_len (pages s p).
Proof.
  intros I Ha Hf E. pose proof (after_leaves _ _ _ E) as L. destruct (plain o) eqn:Hp.
  - pose proof (plain_leaves _ _ _ (ri_cnt _ (iv_r _ I)) Hp L) as G. rewrite (go_pages _ _ _ G). auto.
  - destruct o; try discriminate.
    + apply select_leaves in L. destruct L as [-> |[-> | ->]]; cbn [pages set_cur]; auto.
    + cbn [step] in L. unfold bind in L. rewrite create_eq in L. cbn in L. subst. unfold created. cbn [pages set_page].
      destruct (pid_eqb p (cur s)); [|auto]. destruct (is_data d); auto.
Qed.
Lemma record_kept : forall ops s s' p, Inv s -> forallb api ops = true -> no_finalize ops = true -> run ops s = Some s' ->
  code_block (pages s' p) = code_block (pages s p) /\ code_block_top (pages s' p) = code_block_top (pages s p) /\ code_len (pages s' p) = code_len (pages s p).
Proof.
  induction ops as [|o ops IH]; intros s s' p I Ha Hf E; [inversion E; auto|].
  apply run_cons in E. destruct E as (s1 & E1 & E). cbn [forallb] in Ha. apply andb_true_iff in Ha. destruct Ha as [Ha1 Ha].
  apply nofin_cons in Hf. destruct Hf as [Hf1 Hf].
  destruct (page_record_kept _ _ _ p I Ha1 Hf1 E1) as (A & B & C). destruct (IH _ _ p (Inv_step _ _ _ I Ha1 E1) Ha Hf E) as (A' & B' & C').
  repeat split; congruence.
Qed.
Lemma finalize_record s s' p : Inv s -> after OFinalize s = Some s' ->
  code_block (pages s' p) = code_block (pages s p) ++ [(code_block_top (pages s p), counter (pages s p), counter (pages s' p))] /\
  code_block_top (pages s' p) = counter (pages s' p) /\ code_len (pages s' p) = counter (pages s p).
Proof.
  intros I E. apply finalize_after in E. destruct (finalize_spec _ _ I E) as [s1 F]. rewrite (fn_pages _ _ _ F). unfold finish_page, cnt. cbn. auto.
Qed.
Lemma blocks_partition s s1 ops s2 p : Inv s -> after OFinalize s = Some s1 -> forallb api ops = true -> no_finalize ops = true -> run ops s1 = Some s2 ->
  blocks 0 (code_block (pages s2 p)) (counter (pages s1 p)).
Proof.
  intros I E Ha Hf Er. pose proof (Inv_step _ _ _ I (eq_refl : api OFinalize = true) E) as I1.
  destruct (record_kept _ _ _ p I1 Ha Hf Er) as (-> & _). destruct (finalize_record _ _ p I E) as (_ & T & _).
  apply chain_blocks. rewrite <- T. apply (bi_chain _ (iv_b _ I1)).
Qed.
Lemma blocks_new b m ops s2 p : forallb api ops = true -> no_finalize ops = true -> run ops (jit_new b m) = Some s2 -> code_block (pages s2 p) = [].
Proof. intros Ha Hf Er. destruct (record_kept _ _ _ p (Inv_new b m) Ha Hf Er) as (-> & _). reflexivity. Qed.
Lemma blocks_reached s p : Inv s -> exists e, blocks 0 (code_block (pages s p)) e /\ 0 <= e <= counter (pages s p).
Proof.
  intros I. exists (code_block_top (pages s p)). rewrite <- chain_blocks. split; [apply (bi_chain _ (iv_b _ I))|apply (bi_top _ (iv_b _ I))].
Qed.

(** ** Slices (C22) *)
Lemma skipn_read m a : forall n k, (k <= n)%nat -> skipn k (read m a n) = read m (a + Z.of_nat k) (n - k).
Proof.
  intros n k. revert n a. induction k as [|k IH]; intros n a H; [cbn [skipn]; rewrite Nat.sub_0_r; f_equal; lia|].
  destruct n as [|n]; [lia|]. cbn [read skipn Nat.sub]. rewrite IH by lia. f_equal. lia.
Qed.
Lemma firstn_read m a : forall n k, (k <= n)%nat -> firstn k (read m a n) = read m a k.
Proof.
  intros n k. revert n a. induction k as [|k IH]; intros n a H; [reflexivity|].
  destruct n as [|n]; [lia|]. cbn [read firstn]. f_equal. apply IH. lia.
Qed.
Lemma addr0 s p : addr s p 0 = contents s p. Proof. unfold addr. lia. Qed.
Lemma as_slice_spec s s1 ops s2 : Inv s -> after OFinalize s = Some s1 -> forallb api ops = true -> no_finalize ops = true -> run ops s1 = Some s2 ->
  as_slice s2 = bytes s2 (cur s2) 0 (Z.to_nat (counter (pages s (cur s2)))).
Proof.
  intros I E Ha Hf Er. pose proof (Inv_step _ _ _ I (eq_refl : api OFinalize = true) E) as I1.
  destruct (record_kept _ _ _ (cur s2) I1 Ha Hf Er) as (_ & _ & Hl). destruct (finalize_record _ _ (cur s2) I E) as (_ & _ & Hl1).
  unfold as_slice, bytes. rewrite Hl, Hl1, addr0. reflexivity.
Qed.
Lemma dump_spec s s1 ops s2 : Inv s -> after OFinalize s = Some s1 -> forallb api ops = true -> no_finalize ops = true -> run ops s1 = Some s2 ->
  dump_slice s2 = Some (bytes s2 (cur s2) (code_block_top (pages s (cur s2))) (Z.to_nat (counter (pages s (cur s2)) - code_block_top (pages s (cur s2))))).
Proof.
  intros I E Ha Hf Er. pose proof (Inv_step _ _ _ I (eq_refl : api OFinalize = true) E) as I1.
  destruct (record_kept _ _ _ (cur s2) I1 Ha Hf Er) as (Hb & _ & Hl). destruct (finalize_record _ _ (cur s2) I E) as (Hb1 & _ & Hl1).
  pose proof (bi_top _ (iv_b _ I) (cur s2)) as HT. unfold cnt in HT.
  unfold dump_slice. rewrite Hb, Hb1, rev_app_distr. cbn [rev app]. rewrite Hl, Hl1.
  destruct (_ && _) eqn:C; [|lia]. f_equal. rewrite (as_slice_spec _ _ _ _ I E Ha Hf Er). unfold bytes.
  rewrite skipn_read by lia. rewrite firstn_read by lia. unfold addr. f_equal. lia.
Qed.
Lemma dump_between s0 s1 ops s2 s3 ops' s4 : Inv s0 -> after OFinalize s0 = Some s1 -> forallb api ops = true -> no_finalize ops = true -> run ops s1 = Some s2 ->
  after OFinalize s2 = Some s3 -> forallb api ops' = true -> no_finalize ops' = true -> run ops' s3 = Some s4 ->
  dump_slice s4 = Some (bytes s4 (cur s4) (counter (pages s1 (cur s4))) (Z.to_nat (counter (pages s2 (cur s4)) - counter (pages s1 (cur s4))))).
Proof.
  intros I E Ha Hf Er E2 Ha' Hf' Er'. pose proof (Inv_step _ _ _ I (eq_refl : api OFinalize = true) E) as I1. pose proof (Inv_run _ _ _ I1 Ha Er) as I2.
  rewrite (dump_spec _ _ _ _ I2 E2 Ha' Hf' Er'). destruct (record_kept _ _ _ (cur s4) I1 Ha Hf Er) as (_ & -> & _).
  destruct (finalize_record _ _ (cur s4) I E) as (_ & -> & _). reflexivity.
Qed.
Lemma dump_first b m ops s2 s3 ops' s4 : forallb api ops = true -> no_finalize ops = true -> run ops (jit_new b m) = Some s2 ->
  after OFinalize s2 = Some s3 -> forallb api ops' = true -> no_finalize ops' = true -> run ops' s3 = Some s4 ->
  dump_slice s4 = Some (bytes s4 (cur s4) 0 (Z.to_nat (counter (pages s2 (cur s4))))).
Proof.
  intros Ha Hf Er E2 Ha' Hf' Er'. pose proof (Inv_run _ _ _ (Inv_new b m) Ha Er) as I2.
  rewrite (dump_spec _ _ _ _ I2 E2 Ha' Hf' Er'). destruct (record_kept _ _ _ (cur s4) (Inv_new b m) Ha Hf Er) as (_ & -> & _).
  cbn [code_block_top pages jit_new page_new]. rewrite Z.sub_0_r. reflexivity.
Qed.
