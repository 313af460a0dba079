(** Runs of API calls: preservation of the invariant, fate of bytes, bindings and
    references. *)
From Verif Require Import Base ModelMem ModelEnc ModelSyntax ModelMacro Trace Emit SpecState SpecHist MemInv MemStep MemFinal MemFill MemHist.
Local Notation length := List.length.

Lemma fin_cnt s s1 s' : finalized s s1 s' -> forall p, cnt s' p = cnt s1 p.
Proof. intros F p. unfold cnt at 1. rewrite (fn_pages _ _ _ F). reflexivity. Qed.
Lemma fin_base1 s s1 s' : finalized s s1 s' -> base s' = base s1.
Proof. intros F. rewrite (fn_base _ _ _ F). symmetry. apply (ex_base _ _ _ (fn_ext _ _ _ F)). Qed.
Lemma at_in_field s t p i : RInv s -> (exists l, In t (refs s l)) -> 0 <= i < PAGE_SIZE -> at_field s t (addr s p i) -> in_field t p i.
Proof.
  intros I [l Ht] Hi Ha. apply In_nth_error in Ht. destruct Ht as [k Hk]. destruct (ri_ref _ I _ _ _ Hk) as (A & B & _).
  pose proof (ri_cnt _ I (fpage t)). unfold at_field, faddr in Ha.
  destruct (addr_inj s (fpage t) p (addr s p i - contents s (fpage t)) i) as [Ep Ex]; unfold addr in *; try lia.
  split; [exact Ep|]. rewrite Ep in *. lia.
Qed.
Lemma fin_byte s s1 s' p i : finalized s s1 s' -> 0 <= i < cnt s1 p ->
  (forall l t, loc_of s1 l <> None -> In t (refs s1 l) -> ~ in_field t p i) -> byte s' p i = byte s1 p i.
Proof.
  intros F Hi Hn. unfold byte. rewrite (addr_base s1 s') by apply (fin_base1 _ _ _ F). apply (fn_frame _ _ _ F).
  intros l t Hl Ht Ha. apply (Hn l t Hl Ht). eapply at_in_field; [apply (fn_inv _ _ _ F)|eauto| |exact Ha].
  pose proof (ri_cnt _ (fn_inv _ _ _ F) p). lia.
Qed.
Lemma chain_app a b c bs cs : chain a bs b -> chain b cs c -> chain a (bs ++ cs) c.
Proof.
  revert a. induction bs as [|[[x y] z] bs IH]; intros a H1 H2; cbn [app chain] in *; [subst; exact H2|].
  destruct H1 as (E & H & H1). split; [exact E|]. split; [exact H|]. apply IH; assumption.
Qed.
Lemma Inv_finalized s s1 s' : Inv s -> finalized s s1 s' -> Inv s'.
Proof.
  intros [R Q Bv] F. pose proof (fn_inv _ _ _ F) as R1. pose proof (fin_cnt _ _ _ F) as HC. pose proof (ex_cnt _ _ _ (fn_ext _ _ _ F)) as HX.
  assert (Hsub : forall l k t, nth_error (refs s' l) k = Some t -> loc_of s1 l = None /\ nth_error (refs s1 l) k = Some t).
  { intros l k t H. rewrite (fn_refs _ _ _ F) in H. destruct (loc_of s1 l); [destruct k; discriminate|auto]. }
  constructor.
  - constructor.
    + intro p. rewrite HC. apply R1.
    + intros l k t H. destruct (Hsub _ _ _ H) as [Hl Ht]. destruct (ri_ref _ R1 _ _ _ Ht) as (A & B & Z0 & O). rewrite HC.
      split; [exact A|]. split; [exact B|]. split; [|exact O]. intros i Hi. rewrite <- (Z0 i Hi). apply (fin_byte _ _ _ _ _ F); [lia|].
      intros l2 u Hl2 Hu Hf. apply In_nth_error in Hu. destruct Hu as [k2 Hk2].
      refine (ri_disj _ R1 l2 k2 u l k t Hk2 Ht _ _ i Hf _); [congruence|split; auto].
    + intros l1 k1 t1 l2 k2 t2 H1 H2 Hne. destruct (Hsub _ _ _ H1) as [_ T1]. destruct (Hsub _ _ _ H2) as [_ T2].
      eapply (ri_disj _ R1 l1 k1 t1 l2 k2 t2); eauto.
    + intros l p x H. rewrite (fn_loc _ _ _ F) in H. rewrite HC. apply (ri_loc _ R1 l); exact H.
  - constructor.
    + rewrite (fn_cur _ _ _ F). apply Q.
    + rewrite (fn_pages _ _ _ F). split; reflexivity.
    + unfold queue. rewrite !(fn_pages _ _ _ F). constructor.
    + unfold queue. rewrite !(fn_pages _ _ _ F). contradiction.
  - constructor; intro p; rewrite (fn_pages _ _ _ F); cbn [finish_page code_block_top code_block code_len counter].
    + pose proof (ri_cnt _ R1 p). rewrite HC. lia.
    + eapply chain_app; [apply (bi_chain _ Bv p)|]. cbn [chain]. pose proof (bi_top _ Bv p). specialize (HX p). repeat split; lia.
    + unfold last_code_end. rewrite rev_app_distr. reflexivity.
Qed.
Lemma finalize_after s s' : after OFinalize s = Some s' -> finalize s = Ok tt s'.
Proof. unfold after. cbn [step]. unfold nolabel, bind, ret. destruct (finalize s) as [[] s1|]; [congruence|discriminate]. Qed.
Lemma Inv_meta s s' : Inv s -> base s' = base s -> (forall x, mem s' x = mem s x) -> pages s' = pages s -> labels s' = labels s ->
  (cur s' <> P2) -> Inv s'.
Proof.
  intros [R [Q1 Q2 Q3 Q4] [B1 B2 B3]] Hb Hm Hp Hl Hc. constructor.
  - eapply RInv_ext; [exact R|]. apply (ext_meta (fun _ => False)); auto; [apply R|]. intro p. unfold cnt. rewrite Hp. reflexivity.
  - constructor; unfold queue in *; rewrite ?Hp, ?Hl; auto.
  - constructor; unfold cnt in *; rewrite ?Hp; auto.
Qed.
Lemma Inv_step o s s' : Inv s -> api o = true -> after o s = Some s' -> Inv s'.
Proof.
  intros I Ha E. pose proof (after_leaves _ _ _ E) as L. destruct (plain o) eqn:Hp.
  - eapply Inv_grow; [exact I|]. eapply plain_leaves; eauto. apply I.
  - destruct o; try discriminate.
    + apply select_leaves in L. destruct L as [-> |[-> | ->]]; [| |exact I]; apply (Inv_meta s); auto; discriminate.
    + cbn [step] in L. unfold bind in L. rewrite create_eq in L. cbn in L. subst. apply Inv_created, I.
    + apply finalize_after in E. destruct (finalize_spec s s' I E) as [s1 F]. eapply Inv_finalized; eauto.
Qed.
Lemma run_cons o ops s s' : run (o :: ops) s = Some s' -> exists s1, after o s = Some s1 /\ run ops s1 = Some s'.
Proof. cbn [run]. destruct (after o s) as [s1|]; [eauto|discriminate]. Qed.
Lemma run_app a : forall b s s', run (a ++ b) s = Some s' <-> exists s1, run a s = Some s1 /\ run b s1 = Some s'.
Proof.
  induction a as [|o a IH]; intros b s s'; cbn [app].
  - split; [intro H; exists s; auto|intros (s1 & H & H'); inversion H; subst; exact H'].
  - cbn [run]. destruct (after o s) as [s1|].
    + apply IH.
    + split; [discriminate|intros (s1 & H & _); discriminate].
Qed.
Lemma Inv_run : forall ops s s', Inv s -> forallb api ops = true -> run ops s = Some s' -> Inv s'.
Proof.
  induction ops as [|o ops IH]; intros s s' I Ha E; [inversion E; subst; exact I|].
  apply run_cons in E. destruct E as (s1 & E1 & E). cbn [forallb] in Ha. apply andb_true_iff in Ha. destruct Ha as [Ha1 Ha].
  eapply IH; [|exact Ha|exact E]. eapply Inv_step; eauto.
Qed.

(** Overwriting settled bytes. *)
Record rewritten (s s' : jit) : Prop := mkRewritten {
  rw_base : base s' = base s;
  rw_cur : cur s' = cur s;
  rw_pages : pages s' = pages s;
  rw_labels : labels s' = labels s;
  rw_mem : forall x, mem s' x = mem s x \/ exists p i, x = addr s p i /\ settled s p i
}.
Lemma rewritten_refl s : rewritten s s. Proof. constructor; auto. Qed.
Lemma Inv_rewritten s s' : Inv s -> rewritten s s' -> Inv s'.
Proof.
  intros I [Hb Hc Hp Hl Hm]. destruct I as [[K R D L] [Q1 Q2 Q3 Q4] [B1 B2 B3]].
  assert (Hrefs : forall l, refs s' l = refs s l) by (intro l; unfold refs; rewrite Hl; reflexivity).
  assert (Hcnt : forall p, cnt s' p = cnt s p) by (intro p; unfold cnt; rewrite Hp; reflexivity).
  constructor.
  - constructor.
    + intro p. rewrite Hcnt. apply K.
    + intros l k t Ht. rewrite Hrefs in Ht. destruct (R l k t Ht) as (A1 & A2 & A3 & A4). rewrite Hcnt. split; [exact A1|]. split; [exact A2|].
      split; [|exact A4]. intros i Hi. rewrite <- (A3 i Hi). unfold byte. rewrite (addr_base s s') by exact Hb.
      destruct (Hm (addr s (fpage t) i)) as [E|(p & j & E & S1 & S2)]; [exact E|]. exfalso.
      pose proof (K (fpage t)). pose proof (K p) as Kp. unfold cnt in Kp. destruct (addr_inj s (fpage t) p i j) as [<- <-]; try lia.
      apply S2. exists l, t. split; [eapply nth_error_In; exact Ht|]. split; auto.
    + intros l1 k1 t1 l2 k2 t2 H1 H2. rewrite Hrefs in *. eapply D; eauto.
    + intros l p x H. rewrite Hcnt. apply (L l). unfold loc_of in *. rewrite Hl in H. exact H.
  - constructor; unfold queue in *; rewrite ?Hp, ?Hl, ?Hc; auto.
  - constructor; unfold cnt in *; rewrite ?Hp; auto.
Qed.
Lemma label_address_ok l s a s' : get_label_address l s = Ok a s' -> s' = s /\ exists p x, loc_of s l = Some (p, x) /\ a = addr s p x.
Proof.
  unfold get_label_address, bind, get_label_pos, loc_of, ModelMem.get, codeptr, ret, fail. destruct (nth_error (labels s) l) as [i|]; [|discriminate].
  destruct (loc i) as [[p x]|]; [|discriminate]. cbn [fst snd]. destruct (_ =? 0); intro H; inversion H; subst. split; [reflexivity|]. exists p, x. auto.
Qed.
Lemma label_address_panic l s e s' : get_label_address l s = Panic e s' -> s' = s.
Proof.
  unfold get_label_address, bind, get_label_pos, ModelMem.get, codeptr, ret, fail. destruct (nth_error (labels s) l) as [i|]; [|congruence].
  destruct (loc i) as [[p x]|]; [|congruence]. cbn [fst snd]. destruct (_ =? 0); congruence.
Qed.
Lemma upd_out m a v x : x <> a -> upd m a v x = m x.
Proof. intro H. unfold upd. destruct (x =? a) eqn:E; [lia|reflexivity]. Qed.
Lemma raw4_out a v s x : x < a \/ a + 4 <= x ->
  match raw_write4 a v s with Ok _ s' => mem s' x = mem s x | Panic _ _ => True end.
Proof. intro H. cbn. rewrite !upd_out by lia. reflexivity. Qed.
Lemma patch_rewritten p x d s : (forall i, x + 1 <= i < x + 5 -> settled s p i) ->
  match apply_jmp_patch_address (addr s p x) d s with Ok _ s' => rewritten s s' | Panic _ s' => s' = s end.
Proof.
  intro Hs. unfold apply_jmp_patch_address, bind. destruct (get_label_address d s) as [a s1|e s1] eqn:E; [|eapply label_address_panic; exact E].
  destruct (label_address_ok _ _ _ _ E) as [-> _]. cbv zeta. constructor; try reflexivity. intro y.
  destruct (Z_lt_le_dec y (addr s p x + 1)) as [H|H]; [left; apply (raw4_out (addr s p x + 1) _ s y); lia|].
  destruct (Z_le_gt_dec (addr s p x + 5) y) as [H2|H2]; [left; apply (raw4_out (addr s p x + 1) _ s y); lia|].
  right. exists p, (y - contents s p). unfold addr in *. split; [lia|]. apply Hs. lia.
Qed.
Lemma over_rewritten o s s' : overwrites o s -> after o s = Some s' -> rewritten s s'.
Proof.
  intros Ho E. apply after_leaves in E. destruct o; try contradiction; cbn [step overwrites] in *; apply nolabel_leaves in E.
  - destruct Ho as (q & x & Hl & Hs). unfold apply_jmp_patch in E. apply leaves_bind in E. destruct E as [(a & s1 & E1 & E)|(e & E1 & _)].
    + destruct (label_address_ok _ _ _ _ E1) as (-> & p' & x' & Hl' & ->). rewrite Hl in Hl'. inversion Hl'; subst p' x'.
      pose proof (patch_rewritten q x d s Hs) as P. destruct (apply_jmp_patch_address (addr s q x) d s); cbn [leaves] in E; [subst; exact P|].
      destruct E as [<- _]. subst. apply rewritten_refl.
    + rewrite (label_address_panic _ _ _ _ E1). apply rewritten_refl.
  - destruct Ho as (q & x & -> & Hs). pose proof (patch_rewritten q x d s Hs) as P.
    destruct (apply_jmp_patch_address (addr s q x) d s); cbn [leaves] in E; [subst; exact P|].
    destruct E as [<- _]. subst. apply rewritten_refl.
  - unfold poke, on_cur, put in E. destruct (PAGE_SIZE <=? u64 pos); cbn [leaves] in E; [destruct E; congruence|]. subst s'.
    constructor; try reflexivity. intro y. cbn [mem set_mem]. destruct (Z.eq_dec y (addr s (cur s) (u64 pos))) as [->|Hy].
    + right. eauto.
    + left. apply upd_out, Hy.
Qed.
Lemma Inv_mem m s : Inv s -> (forall p pos, pending s p pos -> m (addr s p pos) = mem s (addr s p pos)) -> Inv (mkJit (base s) m (cur s) (pages s) (labels s)).
Proof.
  intros [[K R D L] [Q1 Q2 Q3 Q4] [B1 B2 B3]] H. constructor; [constructor|constructor|constructor]; try assumption.
  intros l k t Ht. destruct (R l k t Ht) as (A1 & A2 & A3 & A4). split; [exact A1|]. split; [exact A2|]. split; [|exact A4].
  intros i Hi. rewrite <- (A3 i Hi). apply (H (fpage t) i). exists l, t. split; [eapply nth_error_In; exact Ht|]. split; auto.
Qed.
Lemma Inv_reached s : reached s -> Inv s.
Proof.
  induction 1 as [b m|o s s' R I Ha E|o s s' R I Ho E|m s R I H]; [apply Inv_new|eapply Inv_step; eauto| |apply Inv_mem; assumption].
  eapply Inv_rewritten; [exact I|]. eapply over_rewritten; eauto.
Qed.
Lemma reached_run : forall ops s s', reached s -> forallb api ops = true -> run ops s = Some s' -> reached s'.
Proof.
  induction ops as [|o ops IH]; intros s s' R Ha E; [inversion E; subst; exact R|].
  apply run_cons in E. destruct E as (s1 & E1 & E). cbn [forallb] in Ha. apply andb_true_iff in Ha. destruct Ha as [Ha1 Ha].
  eapply IH; [|exact Ha|exact E]. eapply reached_api; eauto.
Qed.

(** ** Induction over runs: a property of a state that every call preserves. *)
Lemma run_ind (P : jit -> Prop) : (forall o s s', Inv s -> api o = true -> P s -> after o s = Some s' -> P s') ->
  forall ops s s', Inv s -> forallb api ops = true -> run ops s = Some s' -> P s -> P s'.
Proof.
  intros HP. induction ops as [|o ops IH]; intros s s' I Ha E Hp; [inversion E; subst; exact Hp|].
  apply run_cons in E. destruct E as (s1 & E1 & E). cbn [forallb] in Ha. apply andb_true_iff in Ha. destruct Ha as [Ha1 Ha].
  eapply (IH s1 s'); [eapply Inv_step; eauto|exact Ha|exact E|eapply HP; eauto].
Qed.

(** The effect of one call. *)
Inductive effect (o : op) (s s' : jit) : Prop :=
| EffExt (_ : is_finalize o = false) (_ : ext (op_binds o) s s')
| EffFin s1 (_ : o = OFinalize) (_ : finalized s s1 s').
Lemma step_effect o s s' : Inv s -> api o = true -> after o s = Some s' -> effect o s s'.
Proof.
  intros I Ha E. destruct (is_finalize o) eqn:Hf.
  - destruct o; try discriminate. apply finalize_after in E. destruct (finalize_spec _ _ I E) as [s1 F]. eapply EffFin; eauto.
  - apply EffExt; [exact Hf|]. eapply step_ext; eauto. apply I.
Qed.
Lemma effect_base o s s' : effect o s s' -> base s' = base s.
Proof. intros [Hf E|s1 _ F]; [apply (ex_base _ _ _ E)|apply (fn_base _ _ _ F)]. Qed.
Lemma effect_cnt o s s' : effect o s s' -> forall p, cnt s p <= cnt s' p.
Proof. intros [Hf E|s1 _ F] p; [apply (ex_cnt _ _ _ E)|rewrite (fin_cnt _ _ _ F); apply (ex_cnt _ _ _ (fn_ext _ _ _ F))]. Qed.
Lemma effect_len o s s' : effect o s s' -> (length (labels s) <= length (labels s'))%nat.
Proof. intros [Hf E|s1 _ F]; [apply (ex_len _ _ _ E)|rewrite (fn_len _ _ _ F); lia]. Qed.

(** Fixed bytes: below the cursor and in no pending field. *)
Lemma settled_effect o s s' p i : Inv s -> effect o s s' -> settled s p i -> settled s' p i /\ byte s' p i = byte s p i.
Proof.
  intros I F [Hi Hn]. fold (cnt s p) in Hi. assert (C : clean s p i (i + 1)).
  { intros l t Ht Hp. destruct (Z_le_gt_dec (fpos t + flen t) i); [left; assumption|]. destruct (Z_le_gt_dec (i + 1) (fpos t)); [right; assumption|].
    exfalso. apply Hn. exists l, t. split; [exact Ht|]. split; [exact Hp|lia]. }
  assert (HE : forall B s2, ext B s s2 -> settled s2 p i /\ byte s2 p i = byte s p i).
  { intros B s2 E. split; [split|].
    - fold (cnt s2 p). pose proof (ex_cnt _ _ _ E p). lia.
    - intros (l & t & Ht & Hp & Hf). destruct (clean_ext _ _ _ p i (i + 1) E ltac:(lia) C l t Ht Hp); lia.
    - apply (ext_byte _ _ _ _ _ E Hi). }
  destruct F as [Hf E|s1 _ F].
  - eapply HE; eauto.
  - destruct (HE _ _ (fn_ext _ _ _ F)) as [[S1 S2] B1].
    assert (Hb : byte s' p i = byte s1 p i).
    { apply (fin_byte _ _ _ _ _ F S1). intros l t Hl Ht Hf. apply S2. exists l, t. auto. }
    split; [|congruence]. split.
    + fold (cnt s' p). rewrite (fin_cnt _ _ _ F). exact S1.
    + intros (l & t & Ht & Hf). apply S2. exists l, t. split; [|exact Hf]. rewrite (fn_refs _ _ _ F) in Ht.
      destruct (loc_of s1 l); [contradiction|exact Ht].
Qed.
Lemma settled_run ops s s' p i : Inv s -> forallb api ops = true -> run ops s = Some s' -> settled s p i ->
  settled s' p i /\ byte s' p i = byte s p i.
Proof.
  intros I Ha E Hs. refine (run_ind (fun t => settled t p i /\ byte t p i = byte s p i) _ ops s s' I Ha E (conj Hs eq_refl)).
  intros o t t' It Hao [Hst Hb] Est. destruct (settled_effect o t t' p i It (step_effect _ _ _ It Hao Est) Hst). split; congruence.
Qed.
Lemma settled_bytes ops s s' p x n : Inv s -> forallb api ops = true -> run ops s = Some s' ->
  (forall i, x <= i < x + Z.of_nat n -> settled s p i) -> bytes s' p x n = bytes s p x n.
Proof.
  intros I Ha E Hs. assert (Hb : base s' = base s).
  { refine (run_ind (fun t => base t = base s) _ ops s s' I Ha E eq_refl).
    intros o t t' It Hao Hst Est. rewrite (effect_base _ _ _ (step_effect _ _ _ It Hao Est)). exact Hst. }
  unfold bytes. rewrite (addr_base s s') by exact Hb. apply read_ext. intros y Hy.
  destruct (settled_run ops s s' p (y - contents s p) I Ha E) as [_ Hbb]. { apply Hs. unfold addr in Hy. lia. }
  unfold byte in Hbb. rewrite (addr_base s s') in Hbb by exact Hb. unfold addr in Hbb.
  replace (contents s p + (y - contents s p)) with y in Hbb by lia. exact Hbb.
Qed.

(** ** References *)
Lemma ref_ext B s s' l t : ext B s s' -> In t (refs s l) -> In t (refs s' l).
Proof. intros E H. destruct (ex_refs _ _ _ E l) as [ts ->]. apply in_or_app. auto. Qed.
(** A pending reference at a finalize. *)
Lemma ref_finalize s s1 s' l t : Inv s -> finalized s s1 s' -> In t (refs s l) ->
  match loc_of s' l with
  | Some (p, x) => refs s' l = [] /\ bytes s' (fpage t) (fpos t) (Z.to_nat (flen t)) = fval s' (addr s' p x) t /\
      (forall i, fpos t <= i < fpos t + flen t -> settled s' (fpage t) i)
  | None => In t (refs s' l)
  end.
Proof.
  intros I F Ht. pose proof (ref_ext _ _ _ _ _ (fn_ext _ _ _ F) Ht) as Ht1. pose proof (fn_refs _ _ _ F l) as Hr. rewrite (fn_loc _ _ _ F).
  destruct (loc_of s1 l) as [[p x]|] eqn:El.
  - split; [exact Hr|]. rewrite (fval_base s1 s') by apply (fin_base1 _ _ _ F). rewrite (addr_base s1 s') by apply (fin_base1 _ _ _ F).
    split; [apply (fn_value _ _ _ F l p x t El Ht1)|]. intros i Hi.
    apply In_nth_error in Ht1. destruct Ht1 as [k Hk]. destruct (ri_ref _ (fn_inv _ _ _ F) _ _ _ Hk) as (A & B & _).
    split; [fold (cnt s' (fpage t)); rewrite (fin_cnt _ _ _ F); lia|]. intros (l2 & u & Hu & Hf). rewrite (fn_refs _ _ _ F) in Hu.
    destruct (loc_of s1 l2) eqn:El2; [contradiction|]. apply In_nth_error in Hu. destruct Hu as [k2 Hk2].
    refine (ri_disj _ (fn_inv _ _ _ F) l2 k2 u l k t Hk2 Hk _ _ i Hf _); [congruence|]. split; auto.
  - rewrite Hr. exact Ht1.
Qed.
Definition resolved_at (s : jit) (l : label) (t : target) (p : pid) (x : Z) : Prop :=
  loc_of s l = Some (p, x) /\ bytes s (fpage t) (fpos t) (Z.to_nat (flen t)) = fval s (addr s p x) t.
Lemma zero_of_ref s l t : Inv s -> In t (refs s l) -> bytes s (fpage t) (fpos t) (Z.to_nat (flen t)) = le (Z.to_nat (flen t)) 0.
Proof.
  intros I Ht. apply In_nth_error in Ht. destruct Ht as [k Hk]. destruct (ri_ref _ (iv_r _ I) _ _ _ Hk) as (_ & _ & Z0 & _).
  unfold bytes. replace (Z.to_nat (flen t)) with (length (le (Z.to_nat (flen t)) 0)) at 1 by apply le_length.
  apply read_eq. intros j Hj. rewrite le_length in Hj. replace (le (Z.to_nat (flen t)) 0) with (repeat 0 (Z.to_nat (flen t))).
  - rewrite nth_repeat. specialize (Z0 (fpos t + Z.of_nat j)). unfold byte, addr in *. rewrite <- Z0 by lia. f_equal. lia.
  - generalize (Z.to_nat (flen t)). induction n; cbn [repeat le]; [reflexivity|]. rewrite IHn. reflexivity.
Qed.
Lemma ref_history : forall ops s s' l t, Inv s -> In t (refs s l) -> forallb api ops = true -> run ops s = Some s' ->
  (In t (refs s' l)) \/
  (exists a b s1 s2 p x, ops = a ++ OFinalize :: b /\ run a s = Some s1 /\ In t (refs s1 l) /\
     after OFinalize s1 = Some s2 /\ run b s2 = Some s' /\ resolved_at s2 l t p x /\
     bytes s' (fpage t) (fpos t) (Z.to_nat (flen t)) = fval s2 (addr s2 p x) t).
Proof.
  induction ops as [|o ops IH]; intros s s' l t I Ht Ha E.
  - left. inversion E; subst. exact Ht.
  - apply run_cons in E. destruct E as (s1 & E1 & E). cbn [forallb] in Ha. apply andb_true_iff in Ha. destruct Ha as [Ha1 Ha].
    pose proof (Inv_step _ _ _ I Ha1 E1) as I1.
    assert (Hnext : In t (refs s1 l) -> (In t (refs s' l)) \/
      (exists a b s2 s3 p x, o :: ops = a ++ OFinalize :: b /\ run a s = Some s2 /\ In t (refs s2 l) /\
       after OFinalize s2 = Some s3 /\ run b s3 = Some s' /\ resolved_at s3 l t p x /\
       bytes s' (fpage t) (fpos t) (Z.to_nat (flen t)) = fval s3 (addr s3 p x) t)).
    { intro H1. destruct (IH s1 s' l t I1 H1 Ha E) as [H|(a' & b & s2 & s3 & p & x & H)]; [left; exact H|]. right.
      destruct H as (Ho & Hr & Hrest). exists (o :: a'), b, s2, s3, p, x. split; [rewrite Ho; reflexivity|].
      split; [cbn [run]; rewrite E1; exact Hr|exact Hrest]. }
    destruct (step_effect _ _ _ I Ha1 E1) as [Hf X|s2 -> F].
    + apply Hnext. eapply ref_ext; eauto.
    + pose proof (ref_finalize _ _ _ l t I F Ht) as Hr. destruct (loc_of s1 l) as [[p x]|] eqn:El; [|apply Hnext; exact Hr].
      destruct Hr as (Hr & Hv & Hs). right. exists [], ops, s, s1, p, x. split; [reflexivity|]. split; [reflexivity|]. split; [exact Ht|].
      split; [exact E1|]. split; [exact E|]. split; [split; assumption|]. rewrite <- Hv. eapply settled_bytes; eauto.
      intros i Hi. apply Hs. pose proof (flen_pos t). lia.
Qed.

(** ** Bindings *)
Definition rebinds (l : label) (o : op) : Prop := op_binds o l.
Lemma queue_created d s l : Inv s -> In l (queue (created d s)) -> In l (queue s) \/ l = length (labels s).
Proof.
  intros [_ [Q1 _ _ _] _]. unfold queue, created. cbn [pages set_page set_labels]. destruct (cur s); [| |congruence];
    cbn [pid_eqb pidx Z.eqb Pos.eqb]; destruct (is_data d); cbn [constants data with_constants with_data];
    rewrite !map_app, !in_app_iff; cbn [map snd In]; intuition.
Qed.
(** A label with a binding that only binding calls can change. *)
Definition fixed_label (s : jit) (l : label) : Prop := (l < length (labels s))%nat /\ ~ In l (queue s).
Lemma fixed_step o s s' l : Inv s -> api o = true -> after o s = Some s' -> fixed_label s l -> fixed_label s' l.
Proof.
  intros I Ha E [Hl Hq]. pose proof (step_effect _ _ _ I Ha E) as F. pose proof (effect_len _ _ _ F). split; [lia|].
  destruct (plain o) eqn:Hp.
  - pose proof (grow_queues _ _ _ (plain_leaves _ _ _ (ri_cnt _ (iv_r _ I)) Hp (after_leaves _ _ _ E))) as SQ.
    assert (queue s' = queue s) by (unfold queue; rewrite !(proj1 (SQ _)), !(proj2 (SQ _)); reflexivity). congruence.
  - destruct o; try discriminate.
    + apply after_leaves, select_leaves in E. destruct E as [-> |[-> | ->]]; exact Hq.
    + apply after_leaves in E. cbn [step] in E. unfold bind in E. rewrite create_eq in E. cbn in E. subst. intro Hin.
      destruct (queue_created _ _ _ I Hin); [contradiction|lia].
    + destruct F as [Hf _|s1 _ F]; [discriminate|]. unfold queue. rewrite !(fn_pages _ _ _ F). cbn. tauto.
Qed.
Lemma loc_step o s s' l : Inv s -> api o = true -> after o s = Some s' -> fixed_label s l -> ~ rebinds l o -> loc_of s' l = loc_of s l.
Proof.
  intros I Ha E [Hl Hq] Hn. destruct (step_effect _ _ _ I Ha E) as [Hf X|s1 _ F].
  - destruct (ex_loc _ _ _ X l) as [H|[H _]]; [exact H|contradiction].
  - rewrite (fn_loc _ _ _ F). destruct (ex_loc _ _ _ (fn_ext _ _ _ F) l) as [H|[H _]]; [exact H|contradiction].
Qed.
Lemma loc_run : forall ops s s' l, Inv s -> forallb api ops = true -> run ops s = Some s' -> fixed_label s l ->
  (forall o, In o ops -> ~ rebinds l o) -> loc_of s' l = loc_of s l.
Proof.
  induction ops as [|o ops IH]; intros s s' l I Ha E Hf Hn; [inversion E; reflexivity|].
  apply run_cons in E. destruct E as (s1 & E1 & E). cbn [forallb] in Ha. apply andb_true_iff in Ha. destruct Ha as [Ha1 Ha].
  rewrite (IH s1 s' l); auto.
  - eapply loc_step; eauto. apply Hn. left. reflexivity.
  - eapply Inv_step; eauto.
  - eapply fixed_step; eauto.
  - intros o' Ho'. apply Hn. right. exact Ho'.
Qed.
