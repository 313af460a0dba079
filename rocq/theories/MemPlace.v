(** Constants and data: from creation to placement and beyond. *)
From Verif Require Import Base ModelMem ModelEnc ModelSyntax ModelMacro Trace Emit StateFid SpecState SpecHist MemInv MemStep MemFinal MemFill MemHist MemRun MemSafe MemOut MemFacts MemLocal.
Local Notation length := List.length.

Lemma fn_laid s s1 s' p : finalized s s1 s' -> laid s1 p (cnt s p) (waiting s p).
Proof. intro F. destruct p; [apply (fn_laid0 _ _ _ F)|apply (fn_laid1 _ _ _ F)|apply (fn_laid2 _ _ _ F)]. Qed.
Lemma fn_end s s1 s' p : finalized s s1 s' -> cnt s1 p = laid_end (cnt s p) (waiting s p).
Proof. intro F. destruct p; [apply (fn_end0 _ _ _ F)|apply (fn_end1 _ _ _ F)|apply (fn_end2 _ _ _ F)]. Qed.
Lemma laid_in s p : forall es c e, laid s p c es -> In e es ->
  exists x, placed s p x e /\ c <= x /\ x + d_len (fst e) <= laid_end c es.
Proof.
  induction es as [|a es IH]; intros c e L Hin; [contradiction|]. cbn [laid laid_end] in *. destruct L as [P L].
  assert (Ha : 0 < d_align (fst a)) by (destruct (fst a); cbn; lia). destruct (align_up_spec (d_align (fst a)) c Ha) as [A _].
  pose proof (d_len_nonneg (fst a)).
  destruct Hin as [->|Hin].
  - exists (align_up (d_align (fst e)) c). split; [exact P|]. split; [lia|]. apply laid_end_ge.
  - destruct (IH _ e L Hin) as (x & Hp & H1 & H2). exists x. split; [exact Hp|]. split; [lia|exact H2].
Qed.
Lemma laid_two s p : forall es c i j e1 e2, laid s p c es -> nth_error es i = Some e1 -> nth_error es j = Some e2 -> (i < j)%nat ->
  exists x y, placed s p x e1 /\ placed s p y e2 /\ x + d_len (fst e1) <= y.
Proof.
  induction es as [|a es IH]; intros c i j e1 e2 L H1 H2 Hij; [destruct i; discriminate|]. cbn [laid] in L. destruct L as [P L].
  destruct j as [|j]; [lia|]. cbn [nth_error] in H2. destruct i as [|i].
  - inversion H1; subst. apply nth_error_In in H2. destruct (laid_in _ _ _ _ _ L H2) as (y & Hy & H & _). eauto.
  - cbn [nth_error] in H1. eapply IH; eauto. lia.
Qed.
Lemma queue_step o s s' : Inv s -> api o = true -> is_finalize o = false -> after o s = Some s' ->
  forall p, (exists ts, constants (pages s' p) = constants (pages s p) ++ ts) /\ (exists ts, data (pages s' p) = data (pages s p) ++ ts).
Proof.
  intros I Ha Hf E p. pose proof (after_leaves _ _ _ E) as L. 
  assert (Same : forall A (l : list A), exists ts, l = l ++ ts) by (intros A l; exists []; rewrite app_nil_r; reflexivity).
  destruct (plain o) eqn:Hp.
  - destruct (grow_queues _ _ _ (plain_leaves _ _ _ (ri_cnt _ (iv_r _ I)) Hp L) p) as [-> ->]. auto.
  - destruct o; try discriminate.
    + apply select_leaves in L. destruct L as [-> |[-> | ->]]; cbn [pages set_cur]; auto.
    + cbn [step] in L. unfold bind in L. rewrite create_eq in L. cbn in L. subst. unfold created. cbn [pages set_page].
      destruct (pid_eqb p (cur s)); [|auto]. destruct (is_data d); cbn [data constants with_data with_constants pages set_labels]; split; eauto.
Qed.
Lemma queue_run : forall ops s s', Inv s -> forallb api ops = true -> no_finalize ops = true -> run ops s = Some s' ->
  forall p, (exists ts, constants (pages s' p) = constants (pages s p) ++ ts) /\ (exists ts, data (pages s' p) = data (pages s p) ++ ts).
Proof.
  induction ops as [|o ops IH]; intros s s' I Ha Hf E p.
  - inversion E; subst. split; exists []; rewrite app_nil_r; reflexivity.
  - apply run_cons in E. destruct E as (s1 & E1 & E). cbn [forallb no_finalize] in Ha, Hf. apply andb_true_iff in Ha. destruct Ha as [Ha1 Ha].
    unfold no_finalize in Hf. cbn [forallb] in Hf. apply andb_true_iff in Hf. destruct Hf as [Hf1 Hf]. apply negb_true_iff in Hf1.
    destruct (queue_step _ _ _ I Ha1 Hf1 E1 p) as [[a Ea] [b Eb]].
    destruct (IH s1 s' (Inv_step _ _ _ I Ha1 E1) Ha Hf E p) as [[a' Ea'] [b' Eb']].
    split; [exists (a ++ a'); rewrite Ea', Ea, app_assoc; reflexivity|exists (b ++ b'); rewrite Eb', Eb, app_assoc; reflexivity].
Qed.
Lemma waiting_mono s s' p e : (forall q, (exists ts, constants (pages s' q) = constants (pages s q) ++ ts) /\ (exists ts, data (pages s' q) = data (pages s q) ++ ts)) ->
  In e (waiting s p) -> In e (waiting s' p).
Proof.
  intros H Hin. destruct p; cbn [waiting] in *.
  - destruct (H P0) as [[ts ->] _]. apply in_or_app. auto.
  - destruct (H P1) as [[ts ->] _]. apply in_or_app. auto.
  - destruct (H P0) as [_ [ts ->]]. destruct (H P1) as [_ [ts' ->]]. rewrite !in_app_iff in *. tauto.
Qed.
Lemma waiting_run ops s s' p e : Inv s -> forallb api ops = true -> no_finalize ops = true -> run ops s = Some s' -> In e (waiting s p) -> In e (waiting s' p).
Proof. intros I Ha Hf E. apply waiting_mono. intro q. eapply queue_run; eauto. Qed.
Lemma created_waiting d s : cur s <> P2 -> In (dtype_of d, length (labels s)) (waiting (created d s) (dat_page d s)).
Proof.
  intro Hc. unfold dat_page, created. change (is_datum d) with (is_data d).
  destruct (is_data d), (cur s); try congruence; cbn [waiting pages set_page pid_eqb pidx Z.eqb Pos.eqb data constants with_data with_constants set_labels]; rewrite !in_app_iff; cbn [In]; auto.
Qed.
(** Entries waiting on a page have distinct labels. *)
Lemma waiting_nodup s p : Inv s -> NoDup (map snd (waiting s p)).
Proof.
  intros [_ [_ [Q2 Q2'] Q3 _] _]. unfold queue in Q3. rewrite !map_app, !NoDup_app_iff in Q3.
  destruct Q3 as (N1 & (N2 & (N3 & N4 & D34) & D2) & D1). destruct p; cbn [waiting]; auto. rewrite map_app, NoDup_app_iff. auto.
Qed.
Lemma waiting_queue s p e : In e (waiting s p) -> In (snd e) (queue s).
Proof.
  intros Hin. unfold queue. rewrite !map_app, !in_app_iff. destruct p; cbn [waiting] in Hin; rewrite ?in_app_iff in Hin.
  - left. apply in_map, Hin.
  - right; left. apply in_map, Hin.
  - destruct Hin; [right; right; left|right; right; right]; apply in_map; assumption.
Qed.
(** A placed entry after the references have been filled. *)
Lemma placed_fin s s1 s' p x e : Inv s -> finalized s s1 s' -> placed s1 p x e ->
  loc_of s' (snd e) = Some (p, x) /\ 0 <= x /\ x + d_len (fst e) <= cnt s' p /\ x mod d_align (fst e) = 0 /\
  (d_abs (fst e) = None -> bytes s' p x (length (d_bytes (fst e))) = d_bytes (fst e) /\
     forall i, x <= i < x + d_len (fst e) -> settled s' p i) /\
  (forall t, fst e = DAbsAddress t ->
     match loc_of s' t with
     | Some (q, y) => bytes s' p x 8 = le 8 (addr s' q y) /\ forall i, x <= i < x + 8 -> settled s' p i
     | None => In (Abs p x) (refs s' t)
     end).
Proof.
  intros I F [L A R Y Ab C]. pose proof (fin_cnt _ _ _ F p) as HC. rewrite (fn_loc _ _ _ F). rewrite HC.
  split; [exact L|]. split; [lia|]. split; [lia|]. split; [exact A|]. split.
  - intro Hn.
    assert (Hfree : forall l t i, In t (refs s1 l) -> x <= i < x + d_len (fst e) -> in_field t p i -> False).
    { intros l t i Ht Hi [Hp Hf]. destruct (C l t Ht Hp ltac:(lia) ltac:(lia)) as [He _]. rewrite He in Hn. discriminate. }
    split.
    + rewrite <- Y at 2. unfold bytes. rewrite (addr_base s1 s') by apply (fin_base1 _ _ _ F). apply read_ext. intros y Hy.
      pose proof (fin_byte _ _ _ p (y - contents s1 p) F) as Hb. unfold byte in Hb. rewrite (addr_base s1 s') in Hb by apply (fin_base1 _ _ _ F).
      unfold addr in *. replace (contents s1 p + (y - contents s1 p)) with y in Hb by lia. unfold d_len in *. apply Hb; [lia|].
      intros l t _ Ht Hf. eapply (Hfree l t); eauto. lia.
    + intros i Hi. split; [fold (cnt s' p); lia|]. intros (l & t & Ht & Hf). rewrite (fn_refs _ _ _ F) in Ht.
      destruct (loc_of s1 l); [contradiction|]. eapply (Hfree l t); eauto.
  - intros t Ht. specialize (Ab t Ht). rewrite (fn_loc _ _ _ F).
    destruct (loc_of s1 t) as [[q y]|] eqn:El.
    + rewrite (addr_base s1 s') by apply (fin_base1 _ _ _ F). split; [apply (fn_value _ _ _ F t q y (Abs p x) El Ab)|].
      intros i Hi. rewrite Ht in R. unfold d_len in R. cbn [d_bytes] in R. rewrite le_length in R. split; [fold (cnt s' p); lia|].
      intros (l2 & u & Hu & Hf). rewrite (fn_refs _ _ _ F) in Hu. destruct (loc_of s1 l2) eqn:El2; [contradiction|].
      destruct Hf as [Hf1 Hf2]. rewrite Ht in C. unfold d_len in C. cbn [d_bytes] in C. rewrite le_length in C.
      destruct (C l2 u Hu Hf1 ltac:(lia) ltac:(lia)) as [He _]. inversion He; subst. congruence.
    + rewrite (fn_refs _ _ _ F), El. exact Ab.
Qed.
Lemma dat_dtype d : d_align (dtype_of d) = dat_align d /\ d_bytes (dtype_of d) = dat_bytes d /\ d_len (dtype_of d) = dat_len d /\
  (is_abs d = false -> d_abs (dtype_of d) = None).
Proof.
  assert (H : d_bytes (dtype_of d) = dat_bytes d).
  { destruct d; cbn [dtype_of d_bytes dat_bytes]; try reflexivity; apply le_mod; reflexivity. }
  split; [destruct d; reflexivity|]. split; [exact H|]. split; [unfold d_len, dat_len; rewrite H; reflexivity|].
  destruct d; try reflexivity; discriminate.
Qed.
Lemma create_step d s l s0 : step (OCreate d) s = Ok (Some l) s0 -> l = length (labels s) /\ s0 = created d s.
Proof. cbn [step]. unfold bind. rewrite create_eq. cbn [ret]. intro H. inversion H. auto. Qed.
Lemma create_inv d s l s0 : Inv s -> step (OCreate d) s = Ok (Some l) s0 -> Inv s0 /\ In (dtype_of d, l) (waiting s0 (dat_page d s)).
Proof.
  intros I E. destruct (create_step _ _ _ _ E) as [-> ->]. split; [apply Inv_created, I|]. apply created_waiting, I.
Qed.
Lemma constant_placed s d l ops s1 s2 : Inv s -> created_then s d l ops s1 s2 ->
  exists x, loc_of s2 l = Some (dat_page d s, x) /\ x mod dat_align d = 0 /\
    counter (pages s1 (dat_page d s)) <= x /\ x + dat_len d <= counter (pages s2 (dat_page d s)) /\
    (is_abs d = false -> bytes s2 (dat_page d s) x (length (dat_bytes d)) = dat_bytes d /\
        forall i, x <= i < x + dat_len d -> settled s2 (dat_page d s) i).
Proof.
  intros I (s0 & E0 & Ha & Hf & E1 & E2). destruct (create_inv _ _ _ _ I E0) as [I0 W0].
  pose proof (Inv_run _ _ _ I0 Ha E1) as I1. apply finalize_after in E2. destruct (finalize_spec _ _ I1 E2) as [sm F].
  pose proof (waiting_run _ _ _ _ _ I0 Ha Hf E1 W0) as W1.
  destruct (laid_in _ _ _ _ _ (fn_laid _ _ _ _ F) W1) as (x & P & H1 & H2).
  destruct (placed_fin _ _ _ _ _ _ I1 F P) as (A1 & A2 & A3 & A4 & A5 & _). cbn [fst snd] in *.
  destruct (dat_dtype d) as (D1 & D2 & D3 & D4). rewrite D1, D2, D3 in *. exists x. repeat (split; [assumption|]).
  intro Hab. apply A5, D4, Hab.
Qed.
Lemma abs_placed s t l ops s1 s2 : Inv s -> created_then s (KAbs t) l ops s1 s2 ->
  exists x, loc_of s2 l = Some (cur s, x) /\ x mod 8 = 0 /\
    match label_addr s2 t with
    | Some a => bytes s2 (cur s) x 8 = le 8 a /\ forall i, x <= i < x + 8 -> settled s2 (cur s) i
    | None => In (Abs (cur s) x) (refs s2 t)
    end.
Proof.
  intros I (s0 & E0 & Ha & Hf & E1 & E2). destruct (create_inv _ _ _ _ I E0) as [I0 W0].
  pose proof (Inv_run _ _ _ I0 Ha E1) as I1. apply finalize_after in E2. destruct (finalize_spec _ _ I1 E2) as [sm F].
  pose proof (waiting_run _ _ _ _ _ I0 Ha Hf E1 W0) as W1.
  destruct (laid_in _ _ _ _ _ (fn_laid _ _ _ _ F) W1) as (x & P & H1 & H2).
  destruct (placed_fin _ _ _ _ _ _ I1 F P) as (A1 & A2 & A3 & A4 & _ & A6). cbn [fst snd dtype_of d_align] in *.
  change (dat_page (KAbs t) s) with (cur s) in *. exists x. split; [exact A1|]. split; [exact A4|].
  specialize (A6 t eq_refl). unfold label_addr. destruct (loc_of s2 t) as [[q y]|]; exact A6.
Qed.
(** Two creations: no overlap. *)
Lemma app_nth_lt {A} : forall (a b : list A) e1 e2, In e1 a -> In e2 b -> exists i j, nth_error (a ++ b) i = Some e1 /\ nth_error (a ++ b) j = Some e2 /\ (i < j)%nat.
Proof.
  intros a b e1 e2 H1 H2. apply In_nth_error in H1. apply In_nth_error in H2. destruct H1 as [i Hi], H2 as [j Hj].
  assert (i < length a)%nat by (apply nth_error_Some; congruence).
  exists i, (length a + j)%nat. rewrite nth_error_app1 by assumption. rewrite nth_error_app2 by lia.
  replace (length a + j - length a)%nat with j by lia. repeat split; auto. lia.
Qed.
Lemma laid_disjoint s p c es e1 e2 : laid s p c es -> In e1 es -> In e2 es -> e1 <> e2 ->
  exists x y, placed s p x e1 /\ placed s p y e2 /\ (x + d_len (fst e1) <= y \/ y + d_len (fst e2) <= x).
Proof.
  intros L H1 H2 Hne. apply In_nth_error in H1. apply In_nth_error in H2. destruct H1 as [i Hi], H2 as [j Hj].
  destruct (Compare_dec.lt_eq_lt_dec i j) as [[H|H]|H].
  - destruct (laid_two _ _ _ _ _ _ _ _ L Hi Hj H) as (x & y & P & Q & D). eauto 6.
  - congruence.
  - destruct (laid_two _ _ _ _ _ _ _ _ L Hj Hi H) as (x & y & P & Q & D). eauto 6.
Qed.
Lemma no_overlap s d1 l1 ops1 sa d2 l2 ops2 s1 s2 : Inv s ->
  forall s0, step (OCreate d1) s = Ok (Some l1) s0 -> forallb api ops1 = true -> no_finalize ops1 = true -> run ops1 s0 = Some sa ->
  created_then sa d2 l2 ops2 s1 s2 ->
  exists p x q y, loc_of s2 l1 = Some (p, x) /\ loc_of s2 l2 = Some (q, y) /\
    (p <> q \/ x + dat_len d1 <= y \/ y + dat_len d2 <= x).
Proof.
  intros I s0 E0 Ha0 Hf0 Er0 C. pose proof C as (sb & E1 & Ha & Hf & Er & E2).
  destruct (create_inv _ _ _ _ I E0) as [I0 W0]. pose proof (Inv_run _ _ _ I0 Ha0 Er0) as Ia.
  destruct (create_inv _ _ _ _ Ia E1) as [Ib Wb]. pose proof (Inv_run _ _ _ Ib Ha Er) as I1.
  pose proof (waiting_run _ _ _ _ _ I0 Ha0 Hf0 Er0 W0) as Wa.
  assert (Wb0 : In (dtype_of d1, l1) (waiting sb (dat_page d1 s))).
  { eapply waiting_mono; [|exact Wa]. intro q.
    assert (Ec : after (OCreate d2) sa = Some sb) by (unfold after; rewrite E1; reflexivity).
    apply (queue_step _ _ _ Ia (eq_refl : api (OCreate d2) = true) eq_refl Ec). }
  pose proof (waiting_run _ _ _ _ _ Ib Ha Hf Er Wb0) as W1. pose proof (waiting_run _ _ _ _ _ Ib Ha Hf Er Wb) as W2.
  apply finalize_after in E2. destruct (finalize_spec _ _ I1 E2) as [sm F].
  destruct (dat_dtype d1) as (_ & _ & D1 & _). destruct (dat_dtype d2) as (_ & _ & D2 & _).
  destruct (pid_dec (dat_page d1 s) (dat_page d2 sa)) as [Heq|Hne].
  - rewrite Heq in *. assert (Hl : l1 <> l2).
    { destruct (create_step _ _ _ _ E0) as [-> ->]. destruct (create_step _ _ _ _ E1) as [-> ->].
      assert (Hlt : (length (labels (created d1 s)) <= length (labels sa))%nat).
      { revert Er0. refine (fun Er0 => run_ind (fun t => (length (labels (created d1 s)) <= length (labels t))%nat) _ ops1 _ _ I0 Ha0 Er0 (le_n _)).
        intros o t t' It Hao Hle Est. pose proof (effect_len _ _ _ (step_effect _ _ _ It Hao Est)). lia. }
      unfold created in Hlt at 1. cbn [labels set_page set_labels] in Hlt. rewrite app_length in Hlt. cbn [length] in Hlt. lia. }
    destruct (laid_disjoint _ _ _ _ _ _ (fn_laid _ _ _ _ F) W1 W2) as (x & y & P & Q & D); [congruence|].
    destruct (placed_fin _ _ _ _ _ _ I1 F P) as (A1 & _). destruct (placed_fin _ _ _ _ _ _ I1 F Q) as (A2 & _). cbn [fst snd] in *. rewrite D1, D2 in D.
    exists (dat_page d2 sa), x, (dat_page d2 sa), y. auto.
  - destruct (laid_in _ _ _ _ _ (fn_laid _ _ _ _ F) W1) as (x & P & _). destruct (laid_in _ _ _ _ _ (fn_laid _ _ _ _ F) W2) as (y & Q & _).
    destruct (placed_fin _ _ _ _ _ _ I1 F P) as (A1 & _). destruct (placed_fin _ _ _ _ _ _ I1 F Q) as (A2 & _). cbn [fst snd] in *.
    exists (dat_page d1 s), x, (dat_page d2 sa), y. auto.
Qed.
Lemma finalize_end s s' p : Inv s -> after OFinalize s = Some s' ->
  counter (pages s' p) = layout_end (counter (pages s p)) (waiting s p) /\ waiting s' p = [].
Proof.
  intros I E. apply finalize_after in E. destruct (finalize_spec _ _ I E) as [s1 F]. split.
  - fold (cnt s' p). rewrite (fin_cnt _ _ _ F), (fn_end _ _ _ _ F). apply laid_end_layout.
  - destruct p; cbn [waiting]; rewrite !(fn_pages _ _ _ F); reflexivity.
Qed.
(** Placed labels stay where they are. *)
Lemma in_queue_lt s l : Inv s -> In l (queue s) -> (l < length (labels s))%nat. Proof. intros [_ [_ _ _ Q] _]. apply Q. Qed.
Lemma fin_fixed s s' l : Inv s -> after OFinalize s = Some s' -> (l < length (labels s))%nat -> fixed_label s' l.
Proof.
  intros I E Hl. apply finalize_after in E. destruct (finalize_spec _ _ I E) as [s1 F]. split; [rewrite (fn_len _ _ _ F); exact Hl|].
  unfold queue. rewrite !(fn_pages _ _ _ F). cbn. tauto.
Qed.
Lemma binds_agree o l : op_binds o l <-> binds_label o l.
Proof.
  destruct o; cbn [op_binds binds_label]; try tauto.
  - unfold block_binds, binds. split.
    + intros (i & Hi & Hb). destruct i; try contradiction. eauto.
    + intros (x & Hx & Hb). exists (ILabel x). auto.
Qed.
Lemma constant_stays s d l ops s1 s2 ops' s3 : Inv s -> created_then s d l ops s1 s2 -> forallb api ops' = true -> run ops' s2 = Some s3 ->
  (forall o, In o ops' -> ~ binds_label o l) ->
  loc_of s3 l = loc_of s2 l /\
  (is_abs d = false -> forall p x, loc_of s2 l = Some (p, x) -> bytes s3 p x (length (dat_bytes d)) = dat_bytes d).
Proof.
  intros I C Ha' Er' Hn. pose proof (constant_placed _ _ _ _ _ _ I C) as (x & Hl & _ & _ & _ & Hb).
  destruct C as (s0 & E0 & Ha & Hf & E1 & E2). destruct (create_inv _ _ _ _ I E0) as [I0 W0].
  pose proof (Inv_run _ _ _ I0 Ha E1) as I1. pose proof (Inv_step _ _ _ I1 (eq_refl : api OFinalize = true) E2) as I2.
  assert (Fx : fixed_label s2 l).
  { refine (fin_fixed s1 s2 l I1 E2 _). apply (in_queue_lt _ _ I1). exact (waiting_queue _ _ _ (waiting_run _ _ _ _ _ I0 Ha Hf E1 W0)). }
  split.
  - eapply loc_run; eauto. intros o Ho Hr. apply (Hn o Ho). apply binds_agree, Hr.
  - intros Hab p y Hp. rewrite Hl in Hp. inversion Hp; subst. destruct (Hb Hab) as [Hb1 Hb2].
    rewrite <- Hb1 at 2. eapply settled_bytes; eauto. 
Qed.
