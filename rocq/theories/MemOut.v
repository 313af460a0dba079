(** When finalize succeeds. *)
From Verif Require Import Base ModelMem ModelEnc ModelSyntax ModelMacro Trace Emit SpecState SpecHist MemInv MemStep MemFinal MemFill MemHist MemRun.
Local Notation length := List.length.

Definition abs_ok (n : nat) (e : dtype * label) : bool := match fst e with DAbsAddress t => (t <? n)%nat | _ => true end.
Lemma d_len_nonneg d : 0 <= d_len d. Proof. unfold d_len. lia. Qed.
Lemma laid_end_ge : forall es c, c <= laid_end c es.
Proof.
  induction es as [|e es IH]; intro c; cbn [laid_end]; [lia|]. specialize (IH (align_up (d_align (fst e)) c + d_len (fst e))).
  pose proof (d_len_nonneg (fst e)). assert (0 < d_align (fst e)) by (destruct (fst e); cbn; lia).
  pose proof (align_up_spec (d_align (fst e)) c ltac:(assumption)). lia.
Qed.
Lemma entry_outcome p d (l : label) s : RInv s -> (l < length (labels s))%nat ->
  let x := align_up (d_align d) (cnt s p) in
  (exists s', resolve_constant_entry p (d, l) s = Ok tt s' /\ x + d_len d <= PAGE_SIZE /\ abs_ok (length (labels s)) (d, l) = true) \/
  (exists e s', resolve_constant_entry p (d, l) s = Panic e s' /\
     (e = PageOverflow /\ PAGE_SIZE < x + d_len d \/ e = IndexOOB /\ abs_ok (length (labels s)) (d, l) = false)).
Proof.
  intros I Hl x. rewrite entry_eq. destruct (l <? length (labels s))%nat eqn:El; [|lia]. clear El. pose proof (ri_cnt _ I) as K.
  set (s1 := e_pre p (d_align d) l s).
  assert (Ha : In (d_align d) [1; 4; 8; 16; 4096]) by (destruct d; cbn; auto 6).
  assert (Hx : x <= PAGE_SIZE) by (apply align_up_max; [exact Ha|apply K]).
  assert (Hc1 : cnt s1 p = x) by (unfold cnt, s1, e_pre; cbn [pages set_labels set_cnt set_page]; rewrite pid_eqb_refl; reflexivity).
  assert (Hn1 : length (labels s1) = length (labels s)) by (unfold s1, e_pre; cbn [labels set_labels]; apply upd_nth_length).
  destruct (d_abs d) as [t|] eqn:Hd.
  - destruct d; try discriminate Hd. inversion Hd; subst t. unfold abs_ok. cbn [fst].
    cbn [e_tail]. unfold save_absolute_reloc, bind, get_counter, modify_label. rewrite Hn1.
    destruct (l0 <? length (labels s))%nat eqn:E; [|right; eauto 6].
    set (s2 := set_labels _ s1). pose proof (emitq_on_appends p 0 s2) as A. rewrite le_length in A. cbn [Nat.eqb] in A. rewrite orb_false_r in A.
    change (counter (pages s2 p)) with (cnt s1 p) in A. rewrite Hc1 in A. unfold d_len. cbn [d_bytes]. rewrite le_length.
    destruct (x + Z.of_nat 8 <=? PAGE_SIZE) eqn:F.
    + destruct A as (s3 & E3 & _). left. exists s3. split; [exact E3|]. split; [lia|reflexivity].
    + destruct A as (s3 & E3 & _). right. exists PageOverflow, s3. split; [exact E3|]. left. split; [reflexivity|lia].
  - pose proof (tail_appends p d Hd s1) as T. change (counter (pages s1 p)) with (cnt s1 p) in T. rewrite Hc1 in T. unfold d_len.
    assert (Hok : abs_ok (length (labels s)) (d, l) = true) by (destruct d; try reflexivity; discriminate).
    destruct ((_ <=? _) || _) eqn:F in T.
    + destruct T as (s3 & E3 & _). left. exists s3. split; [exact E3|]. split; [|exact Hok]. apply orb_true_iff in F. destruct F as [F|F]; [lia|].
      apply Nat.eqb_eq in F. rewrite F. lia.
    + destruct T as (s3 & E3 & _). right. exists PageOverflow, s3. split; [exact E3|]. left. split; [reflexivity|]. apply orb_false_iff in F. lia.
Qed.
Lemma entries_outcome p n : forall (es : list (dtype * label)) s, RInv s -> NoDup (map snd es) -> (forall l, In l (map snd es) -> (l < length (labels s))%nat) ->
  length (labels s) = n ->
  (exists s', forM es (resolve_constant_entry p) s = Ok tt s' /\ laid_end (cnt s p) es <= PAGE_SIZE /\ forallb (abs_ok n) es = true) \/
  (exists e s', forM es (resolve_constant_entry p) s = Panic e s' /\
     (e = PageOverflow /\ PAGE_SIZE < laid_end (cnt s p) es \/ e = IndexOOB /\ forallb (abs_ok n) es = false)).
Proof.
  induction es as [|[d l] es IH]; intros s I Hn Hl Hlen.
  - left. exists s. split; [reflexivity|]. split; [apply I|reflexivity].
  - cbn [forM]. unfold bind. cbn [map snd] in Hn, Hl. inversion Hn as [|? ? Hnin Hn']; subst.
    cbn [laid_end forallb fst].
    destruct (entry_outcome p d l s I (Hl l (or_introl eq_refl))) as [(s1 & E1 & H1 & H2)|(e & s1 & E1 & H)].
    + rewrite E1. destruct (entry_spec _ _ _ _ _ I E1) as (G1 & P1 & C1 & O1).
      assert (I1 : RInv s1) by (eapply RInv_ext; [exact I|apply G1]).
      assert (Hlen1 : length (labels s1) = length (labels s)).
      { apply (grow_len_entries p [(d, l)] s s1). cbn [forM]. unfold bind. rewrite E1. reflexivity. }
      rewrite H2. cbn [andb]. rewrite <- C1. apply IH; auto. intros k Hk. rewrite Hlen1. apply Hl. right. exact Hk.
    + rewrite E1. right. exists e, s1. split; [reflexivity|]. destruct H as [[-> H]|[-> H]].
      * left. split; [reflexivity|]. pose proof (laid_end_ge es (align_up (d_align d) (cnt s p) + d_len d)). lia.
      * right. split; [reflexivity|]. rewrite H. reflexivity.
Qed.
(** What finalize needs. *)
Definition fits (s : jit) : bool :=
  (laid_end (cnt s P0) (constants (pages s P0)) <=? PAGE_SIZE) && (laid_end (cnt s P1) (constants (pages s P1)) <=? PAGE_SIZE) &&
  (laid_end (cnt s P2) (data (pages s P0) ++ data (pages s P1)) <=? PAGE_SIZE).
Definition abs_all (s : jit) : bool :=
  forallb (abs_ok (length (labels s))) (constants (pages s P0) ++ constants (pages s P1) ++ data (pages s P0) ++ data (pages s P1)).
Lemma stage p q f (es : list (dtype * label)) s n : RInv s -> NoDup (map snd es) -> (forall g, counter (f g) = counter g) ->
  (forall l, In l (map snd es) -> (l < n)%nat) -> length (labels s) = n ->
  (exists s', forM es (resolve_constant_entry p) (set_page q f s) = Ok tt s' /\ laid_end (cnt s p) es <= PAGE_SIZE /\ forallb (abs_ok n) es = true) \/
  (exists e s', forM es (resolve_constant_entry p) (set_page q f s) = Panic e s' /\
     (e = PageOverflow /\ PAGE_SIZE < laid_end (cnt s p) es \/ e = IndexOOB /\ forallb (abs_ok n) es = false)).
Proof.
  intros I Hn Hf Hl Hlen. set (s0 := set_page q f s).
  assert (Hc : forall r, cnt s0 r = cnt s r) by (intro r; unfold cnt, s0; cbn [pages set_page]; destruct (pid_eqb r q); auto).
  assert (X0 : ext (fun _ => False) s s0) by (apply ext_meta; auto; apply I).
  assert (I0 : RInv s0) by (eapply RInv_ext; eauto).
  rewrite <- (Hc p). apply entries_outcome; auto. intros k Hk. change (labels s0) with (labels s). rewrite Hlen. apply Hl, Hk.
Qed.
Definition good (e : panic) (s : jit) : Prop := e = PageOverflow /\ fits s = false \/ e = IndexOOB /\ abs_all s = false.
Lemma place_outcome s : Inv s ->
  match place_all (opened s) with Ok _ _ => fits s = true /\ abs_all s = true | Panic e _ => good e s end.
Proof.
  intros [R [Q1 [Q2c Q2d] Q3 Q4] Bv]. pose proof (ri_cnt _ R) as K. unfold place_all.
  set (sa := opened s).
  assert (Xa : ext (fun l => In l (queue s)) s sa) by (apply opened_ext, K).
  assert (Ia : RInv sa) by (eapply RInv_ext; eauto).
  assert (Hca : forall p, cnt sa p = cnt s p) by (intro p; unfold cnt, sa; rewrite opened_pages; reflexivity).
  unfold queue in Q3. rewrite !map_app, !NoDup_app_iff in Q3. destruct Q3 as (N1 & (N2 & (N3 & N4 & D34) & D2) & D1).
  assert (Q : (forall l, In l (map snd (constants (pages s P0))) -> (l < length (labels s))%nat) /\ (forall l, In l (map snd (constants (pages s P1))) -> (l < length (labels s))%nat) /\
    (forall l, In l (map snd (data (pages s P0))) -> (l < length (labels s))%nat) /\ (forall l, In l (map snd (data (pages s P1))) -> (l < length (labels s))%nat)).
  { unfold queue in Q4. rewrite !map_app in Q4. repeat split; intros l Hl; apply Q4; rewrite !in_app_iff; auto. }
  destruct Q as (L1 & L2 & L3 & L4).
  assert (Hno : forall e, (e = PageOverflow /\ fits s = false \/ e = IndexOOB /\ abs_all s = false) -> good e s) by (intros e H; exact H).
  assert (Fa : abs_all s = forallb (abs_ok (length (labels s))) (constants (pages s P0)) && (forallb (abs_ok (length (labels s))) (constants (pages s P1)) &&
    (forallb (abs_ok (length (labels s))) (data (pages s P0)) && forallb (abs_ok (length (labels s))) (data (pages s P1))))) by (unfold abs_all; rewrite !forallb_app; reflexivity).
  (* constants of page 0 *)
  assert (Eb : forall s0 : jit, resolve_constants_of P0 s0 = forM (constants (pages s0 P0)) (resolve_constant_entry P0) (set_page P0 (with_constants []) s0)) by reflexivity.
  unfold resolve_constants. cbn [forM]. unfold bind at 1 2. rewrite Eb. clear Eb.
  assert (Hc0 : constants (pages sa P0) = constants (pages s P0)) by (unfold sa; rewrite opened_pages; reflexivity). rewrite Hc0.
  destruct (stage P0 P0 (with_constants []) (constants (pages s P0)) sa (length (labels s)) Ia N1 ltac:(reflexivity) L1 eq_refl) as [(sb & Eb & F1 & A1)|(e & sb & Eb & H)].
  2:{ rewrite Eb. apply Hno. rewrite Hca in H. destruct H as [[-> H]|[-> H]].
      - left. split; [reflexivity|]. unfold fits. assert (X : (laid_end (cnt s P0) (constants (pages s P0)) <=? PAGE_SIZE) = false) by lia. rewrite X. reflexivity.
      - right. split; [reflexivity|]. rewrite Fa, H. reflexivity. }
  rewrite Eb.
  destruct (resolve_step P0 P0 (with_constants []) _ sa sb Ia N1 ltac:(reflexivity) Eb) as (Xb & Ib & Lb & Cb & Ob & Ub & Nb & Pb).
  (* constants of page 1 *)
  assert (Ec : forall s0 : jit, resolve_constants_of P1 s0 = forM (constants (pages s0 P1)) (resolve_constant_entry P1) (set_page P1 (with_constants []) s0)) by reflexivity.
  unfold bind at 1. rewrite Ec. clear Ec.
  assert (Hcb : constants (pages sb P1) = constants (pages s P1)) by (rewrite Pb; unfold sa; rewrite opened_pages; reflexivity).
  rewrite Hcb.
  assert (Cb1 : cnt sb P1 = cnt s P1) by (rewrite Ob by discriminate; apply Hca).
  destruct (stage P1 P1 (with_constants []) (constants (pages s P1)) sb (length (labels s)) Ib N2 ltac:(reflexivity) L2 Nb) as [(sc & Ec & F2 & A2)|(e & sc & Ec & H)].
  2:{ rewrite Ec. apply Hno. rewrite Cb1 in H. destruct H as [[-> H]|[-> H]].
      - left. split; [reflexivity|]. unfold fits. assert (X : (laid_end (cnt s P1) (constants (pages s P1)) <=? PAGE_SIZE) = false) by lia. rewrite X, andb_false_r. reflexivity.
      - right. split; [reflexivity|]. rewrite Fa, H, A1. reflexivity. }
  rewrite Ec. unfold ret at 1.
  destruct (resolve_step P1 P1 (with_constants []) _ sb sc Ib N2 ltac:(reflexivity) Ec) as (Xc & Ic & Lc & Cc & Oc & Uc & Nc & Pc).
  assert (Nsc : length (labels sc) = length (labels s)) by (rewrite Nc; exact Nb).
  (* data of page 0 *)
  assert (Ed : forall s0 : jit, resolve_data_of P0 s0 = forM (data (pages s0 P0)) (resolve_constant_entry P2) (set_page P0 (with_data []) s0)).
  { intro s0. unfold resolve_data_of, bind, ModelMem.get, modify. apply forM_meq. apply data_entry_eq. }
  unfold resolve_data. cbn [forM]. unfold bind at 1. rewrite Ed. clear Ed.
  assert (Hdc : data (pages sc P0) = data (pages s P0)) by (rewrite Pc, Pb; unfold sa; rewrite opened_pages; reflexivity).
  rewrite Hdc.
  assert (Cc2 : cnt sc P2 = cnt s P2) by (rewrite Oc, Ob by discriminate; apply Hca).
  destruct (stage P2 P0 (with_data []) (data (pages s P0)) sc (length (labels s)) Ic N3 ltac:(reflexivity) L3 Nsc) as [(sd & Ed & F3 & A3)|(e & sd & Ed & H)].
  2:{ rewrite Ed. apply Hno. rewrite Cc2 in H. destruct H as [[-> H]|[-> H]].
      - left. split; [reflexivity|]. unfold fits. rewrite laid_end_app. pose proof (laid_end_ge (data (pages s P1)) (laid_end (cnt s P2) (data (pages s P0)))).
        assert (X : (laid_end (laid_end (cnt s P2) (data (pages s P0))) (data (pages s P1)) <=? PAGE_SIZE) = false) by lia. rewrite X, andb_false_r. reflexivity.
      - right. split; [reflexivity|]. rewrite Fa, H, A1, A2. reflexivity. }
  rewrite Ed.
  destruct (resolve_step P2 P0 (with_data []) _ sc sd Ic N3 ltac:(reflexivity) Ed) as (Xd & Id & Ld & Cd & Od & Ud & Nd & Pd).
  assert (Nsd : length (labels sd) = length (labels s)) by (rewrite Nd; exact Nsc).
  (* data of page 1 *)
  assert (Ee : forall s0 : jit, resolve_data_of P1 s0 = forM (data (pages s0 P1)) (resolve_constant_entry P2) (set_page P1 (with_data []) s0)).
  { intro s0. unfold resolve_data_of, bind, ModelMem.get, modify. apply forM_meq. apply data_entry_eq. }
  unfold bind at 1. rewrite Ee. clear Ee.
  assert (Hdd : data (pages sd P1) = data (pages s P1)) by (rewrite Pd, Pc, Pb; unfold sa; rewrite opened_pages; reflexivity).
  rewrite Hdd.
  assert (Cd2 : laid_end (cnt sd P2) (data (pages s P1)) = laid_end (cnt s P2) (data (pages s P0) ++ data (pages s P1))) by (rewrite Cd, Cc2, laid_end_app; reflexivity).
  destruct (stage P2 P1 (with_data []) (data (pages s P1)) sd (length (labels s)) Id N4 ltac:(reflexivity) L4 Nsd) as [(se & Ee & F4 & A4)|(e & se & Ee & H)].
  2:{ rewrite Ee. apply Hno. rewrite Cd2 in H. destruct H as [[-> H]|[-> H]].
      - left. split; [reflexivity|]. unfold fits.
        assert (X : (laid_end (cnt s P2) (data (pages s P0) ++ data (pages s P1)) <=? PAGE_SIZE) = false) by lia. rewrite X, andb_false_r. reflexivity.
      - right. split; [reflexivity|]. rewrite Fa, H, A1, A2, A3. reflexivity. }
  rewrite Ee. rewrite Fa, A1, A2, A3, A4. split; [|reflexivity].
  rewrite Hca in F1. rewrite Cb1 in F2. rewrite Cd2 in F4. unfold fits. apply andb_true_iff. split; [apply andb_true_iff; split|]; lia.
Qed.
Lemma finalize_outcome s : Inv s ->
  (exists s' s1, finalize s = Ok tt s' /\ finalized s s1 s' /\ fits s = true /\ abs_all s = true) \/
  (exists e s', finalize s = Panic e s' /\ good e s).
Proof.
  intro I. rewrite finalize_split. pose proof (place_outcome s I) as H. destruct (place_all (opened s)) as [[] se|e se] eqn:E.
  - destruct H as [F A]. left. destruct (place_spec _ _ I E) as (s' & s1 & E1 & Fn). exists s', s1. auto.
  - right. exists e, se. auto.
Qed.
