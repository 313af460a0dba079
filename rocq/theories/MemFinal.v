(** finalize: placing constants and data, then filling the pending references. *)
From Verif Require Import Base ModelMem ModelEnc ModelSyntax ModelMacro Trace Emit SpecState SpecHist MemInv MemStep.
Local Notation length := List.length.

(** ** Invariant of references and bindings *)
Record RInv (s : jit) : Prop := mkRInv {
  ri_cnt : cnt_ok s;
  ri_ref : forall l k t, nth_error (refs s l) k = Some t ->
     0 <= fpos t /\ fpos t + flen t <= cnt s (fpage t) /\ zero_field s t /\ off_ok t;
  ri_disj : forall l1 k1 t1 l2 k2 t2, nth_error (refs s l1) k1 = Some t1 -> nth_error (refs s l2) k2 = Some t2 ->
     (l1, k1) <> (l2, k2) -> disjoint t1 t2;
  ri_loc : forall l p x, loc_of s l = Some (p, x) -> 0 <= x <= cnt s p
}.
Lemma old_or_new B s s' l k t : ext B s s' -> nth_error (refs s' l) k = Some t ->
  nth_error (refs s l) k = Some t \/ (length (refs s l) <= k)%nat.
Proof.
  intros E H. destruct (ex_refs _ _ _ E l) as [ts Hl]. destruct (Compare_dec.le_lt_dec (length (refs s l)) k) as [Hk|Hk]; [right; exact Hk|].
  left. rewrite Hl, nth_error_app1 in H by exact Hk. exact H.
Qed.
Lemma RInv_ext B s s' : RInv s -> ext B s s' -> RInv s'.
Proof.
  intros [K R D L] E. pose proof (ex_cnt _ _ _ E) as HC. constructor.
  - apply (ex_ok _ _ _ E).
  - intros l k t Ht. destruct (old_or_new _ _ _ _ _ _ E Ht) as [Ho|Hn].
    + destruct (R _ _ _ Ho) as (A & Bd & Z0 & O). split; [exact A|]. split; [specialize (HC (fpage t)); lia|]. split; [|exact O].
      intros i Hi. rewrite <- (Z0 i Hi). apply (ext_byte _ _ _ _ _ E). lia.
    + destruct (ex_new _ _ _ E _ _ _ Hn Ht) as (A & Bd & Z0 & O). split; [specialize (K (fpage t)); lia|]. auto.
  - intros l1 k1 t1 l2 k2 t2 H1 H2 Hne.
    destruct (old_or_new _ _ _ _ _ _ E H1) as [O1|N1]; destruct (old_or_new _ _ _ _ _ _ E H2) as [O2|N2].
    + eapply (D l1 k1 t1 l2 k2 t2); eauto.
    + destruct (R _ _ _ O1) as (A & Bd & _). destruct (ex_new _ _ _ E _ _ _ N2 H2) as (A' & _).
      intros p x [<- Hx] [Hp Hy]. rewrite Hp in *. lia.
    + destruct (R _ _ _ O2) as (A & Bd & _). destruct (ex_new _ _ _ E _ _ _ N1 H1) as (A' & _).
      intros p x [<- Hx] [Hp Hy]. rewrite Hp in *. lia.
    + eapply (ex_disj _ _ _ E l1 k1 t1 l2 k2 t2); eauto.
  - intros l p x Hl. destruct (ex_loc _ _ _ E l) as [Hs|(_ & q & y & Hs & Hr)].
    + rewrite Hs in Hl. specialize (L _ _ _ Hl). specialize (HC p). lia.
    + rewrite Hs in Hl. inversion Hl; subst. specialize (K p). lia.
Qed.

(** No pending field meets positions [a..b) of page [p]. *)
Definition clean (s : jit) (p : pid) (a b : Z) : Prop :=
  forall l t, In t (refs s l) -> fpage t = p -> fpos t + flen t <= a \/ b <= fpos t.
Lemma clean_ext B s s' p a b : ext B s s' -> b <= cnt s p -> clean s p a b -> clean s' p a b.
Proof.
  intros E Hb C l t Ht Hp. apply In_nth_error in Ht. destruct Ht as [k Hk].
  destruct (old_or_new _ _ _ _ _ _ E Hk) as [Ho|Hn].
  - apply nth_error_In in Ho. apply (C _ _ Ho Hp).
  - right. destruct (ex_new _ _ _ E _ _ _ Hn Hk) as (A & _). rewrite Hp in A. lia.
Qed.
Lemma clean_top s p b : RInv s -> clean s p (cnt s p) b.
Proof.
  intros I l t Ht Hp. apply In_nth_error in Ht. destruct Ht as [k Hk]. left.
  destruct (ri_ref _ I _ _ _ Hk) as (_ & A & _). rewrite Hp in A. exact A.
Qed.

(** ** One constant *)
Definition d_align (d : dtype) : Z := match d with DU64 _ | DBytes _ => 16 | DU32 _ => 4 | DAbsAddress _ | DAlign8 => 8 end.
Definition d_bytes (d : dtype) : list Z :=
  match d with
  | DU64 v => le 8 v | DU32 v => le 4 v | DBytes n => repeat 0 (Z.to_nat n) | DAbsAddress _ => le 8 0 | DAlign8 => []
  end.
Definition d_len (d : dtype) : Z := Z.of_nat (length (d_bytes d)).
Definition d_abs (d : dtype) : option label := match d with DAbsAddress l => Some l | _ => None end.
Definition e_pre (p : pid) (a : Z) (l : label) (s : jit) : jit :=
  set_labels (upd_nth l (with_loc (Some (p, align_up a (cnt s p)))) (labels s)) (set_cnt p (align_up a (cnt s p)) s).
Definition e_tail (p : pid) (d : dtype) : M unit :=
  match d with
  | DU64 v => emitq_on p v | DU32 v => emitl_on p v | DBytes n => repeatM (Z.to_nat n) (emitb_on p 0)
  | DAbsAddress l => save_absolute_reloc p l ;; emitq_on p 0 | DAlign8 => ret tt
  end.
Lemma entry_eq p d l s : resolve_constant_entry p (d, l) s =
  if (l <? length (labels s))%nat then e_tail p d (e_pre p (d_align d) l s) else Panic IndexOOB (set_cnt p (align_up (d_align d) (cnt s p)) s).
Proof.
  destruct d; unfold resolve_constant_entry; cbn [fst snd d_align e_tail]; unfold bind at 1;
    rewrite ?align16_eq, ?align8_eq, ?align4_eq; unfold bind_label_on, bind at 1; unfold bind, get_counter, modify_label;
    change (labels (set_cnt p ?c s)) with (labels s);
    cbn [set_cnt set_page pages]; rewrite pid_eqb_refl; cbn [with_counter counter];
    destruct (l <? length (labels s))%nat; reflexivity.
Qed.
Lemma data_entry_eq e s : resolve_data_entry e s = resolve_constant_entry P2 e s.
Proof. destruct e as [[] l]; reflexivity. Qed.

Lemma pre_grow (B : label -> Prop) p a l s : cnt_ok s -> In a [1; 4; 8; 16; 4096] -> B l -> (l < length (labels s))%nat -> grow B s (e_pre p a l s).
Proof.
  intros K Ha Hb Hl. eapply grow_trans; [apply (align_grow _ p a); assumption|]. eapply (bind_grow B p l).
  - apply grow_ok with (B := B) (s := s). apply align_grow; assumption.
  - exact Hb.
  - unfold bind_label_on, bind, get_counter, modify_label. change (labels (set_cnt p _ s)) with (labels s).
    destruct (l <? length (labels s))%nat eqn:E; [|lia]. cbn [set_cnt set_page pages]. rewrite pid_eqb_refl. reflexivity.
Qed.
Lemma zeros_appends p n : appends p (repeat 0 n) (repeatM n (emitb_on p 0)).
Proof.
  induction n as [|n IH]; cbn [repeat repeatM].
  - intro s. cbn [length Nat.eqb]. rewrite orb_true_r. exists s; split; [reflexivity|apply adv_nil].
  - change (0 :: repeat 0 n) with ([u8 0] ++ repeat 0 n). apply appends_seq; [apply emitb_on_appends|exact IH].
Qed.
Lemma ret_appends p : appends p [] (ret tt).
Proof. intro s. cbn [length Nat.eqb]. rewrite orb_true_r. exists s; split; [reflexivity|apply adv_nil]. Qed.
Lemma tail_appends p d : d_abs d = None -> appends p (d_bytes d) (e_tail p d).
Proof.
  intro H. destruct d; try discriminate H; cbn [d_bytes e_tail].
  - apply emitq_on_appends.
  - apply emitl_on_appends.
  - apply zeros_appends.
  - apply ret_appends.
Qed.
Lemma abs_tail p t s a s' : e_tail p (DAbsAddress t) s = Ok a s' ->
  (t < length (labels s))%nat /\ adv p (le 8 0) (set_labels (upd_nth t (add_target (Abs p (cnt s p))) (labels s)) s) s' /\
  cnt s p + 8 <= PAGE_SIZE.
Proof.
  cbn [e_tail]. unfold save_absolute_reloc, bind, get_counter, modify_label.
  destruct (t <? length (labels s))%nat eqn:E; [|discriminate]. intro H.
  set (s1 := set_labels _ s) in *. pose proof (emitq_on_appends p 0 s1) as A. rewrite le_length in A. cbn [Nat.eqb] in A. rewrite orb_false_r in A.
  destruct (_ <=? PAGE_SIZE) eqn:F in A.
  - destruct A as (s2 & E2 & A). rewrite E2 in H. inversion H; subst. split; [lia|]. split; [exact A|].
    change (counter (pages s1 p)) with (cnt s p) in F. lia.
  - destruct A as (s2 & E2 & _). rewrite E2 in H. discriminate.
Qed.

(** A placed entry: bound at [x], aligned, holding its bytes, and met by no pending
    field other than its own. *)
Record placed (s : jit) (p : pid) (x : Z) (e : dtype * label) : Prop := mkPlaced {
  pl_loc : loc_of s (snd e) = Some (p, x);
  pl_align : x mod d_align (fst e) = 0;
  pl_range : 0 <= x /\ x + d_len (fst e) <= cnt s p;
  pl_bytes : bytes s p x (length (d_bytes (fst e))) = d_bytes (fst e);
  pl_abs : forall t, fst e = DAbsAddress t -> In (Abs p x) (refs s t);
  pl_clean : forall l t, In t (refs s l) -> fpage t = p -> fpos t < x + d_len (fst e) -> x < fpos t + flen t ->
     fst e = DAbsAddress l /\ t = Abs p x
}.
Lemma ext_bytes B s s' p x n : ext B s s' -> 0 <= x -> x + Z.of_nat n <= cnt s p -> bytes s' p x n = bytes s p x n.
Proof.
  intros E H0 Hn. unfold bytes. rewrite (addr_base s s') by apply (ex_base _ _ _ E). apply read_ext. intros y Hy.
  pose proof (ext_byte _ _ _ p (y - contents s p) E) as H. unfold byte in H. rewrite (addr_base s s') in H by apply (ex_base _ _ _ E).
  unfold addr in *. replace (contents s p + (y - contents s p)) with y in H by lia. apply H. lia.
Qed.
Lemma placed_ext B s s' p x e : placed s p x e -> ext B s s' -> ~ B (snd e) -> placed s' p x e.
Proof.
  intros [L A R Y Ab C] E Hb. pose proof (ex_cnt _ _ _ E p) as HC. constructor; auto.
  - destruct (ex_loc _ _ _ E (snd e)) as [H|[H _]]; [congruence|contradiction].
  - lia.
  - rewrite (ext_bytes _ _ _ _ _ _ E); auto; unfold d_len in *; lia.
  - intros t Ht. destruct (ex_refs _ _ _ E t) as [ts ->]. apply in_or_app. left. auto.
  - intros l t Ht Hp H1 H2. apply In_nth_error in Ht. destruct Ht as [k Hk].
    destruct (old_or_new _ _ _ _ _ _ E Hk) as [Ho|Hn].
    + apply nth_error_In in Ho. eauto.
    + destruct (ex_new _ _ _ E _ _ _ Hn Hk) as (A' & _). rewrite Hp in A'. lia.
Qed.

Lemma entry_spec p d l s s' : RInv s -> resolve_constant_entry p (d, l) s = Ok tt s' ->
  let x := align_up (d_align d) (cnt s p) in
  grow (eq l) s s' /\ placed s' p x (d, l) /\ cnt s' p = x + d_len d /\ (forall q, q <> p -> cnt s' q = cnt s q).
Proof.
  intros I E x. rewrite entry_eq in E. destruct (l <? length (labels s))%nat eqn:El; [|discriminate].
  assert (Hl : (l < length (labels s))%nat) by lia. clear El. pose proof (ri_cnt _ I) as K.
  set (s1 := e_pre p (d_align d) l s) in *.
  assert (Ha : In (d_align d) [1; 4; 8; 16; 4096]) by (destruct d; cbn; auto 6).
  assert (G1 : grow (eq l) s s1) by (apply pre_grow; auto).
  assert (Ha0 : 0 < d_align d) by (destruct d; cbn; lia).
  destruct (align_up_spec (d_align d) (cnt s p) Ha0) as [Hx1 Hx2]. fold x in Hx1, Hx2.
  assert (Hc1 : cnt s1 p = x) by (unfold cnt, s1, e_pre; cbn [pages set_labels set_cnt set_page]; rewrite pid_eqb_refl; reflexivity).
  assert (Hq1 : forall q, q <> p -> cnt s1 q = cnt s q)
    by (intros q Hq; unfold cnt, s1, e_pre; cbn [pages set_labels set_cnt set_page]; rewrite pid_eqb_neq by exact Hq; reflexivity).
  assert (Hloc1 : loc_of s1 l = Some (p, x)).
  { unfold loc_of, s1, e_pre. cbn [labels set_labels]. rewrite upd_nth_nth, Nat.eqb_refl.
    destruct (nth_error (labels s) l) eqn:F; [reflexivity|]. apply nth_error_None in F. lia. }
  assert (I1 : RInv s1) by (eapply RInv_ext; [exact I|apply G1]).
  assert (Hp0 := K p).
  destruct (d_abs d) as [t|] eqn:Hd.
  - destruct d; try discriminate Hd. inversion Hd; subst. destruct (abs_tail _ _ _ _ _ E) as (Ht & A & Hr).
    set (s2 := set_labels _ s1) in A.
    assert (X : ext (eq l) s1 s').
    { eapply (ext_ref (eq l) p (Abs p (cnt s1 p)) t s1 (le 8 0)); try reflexivity; auto. apply G1. }
    assert (Hlab : labels s' = labels s2) by apply (adv_labels _ _ _ _ A).
    pose proof (cnt_adv _ _ _ _ A) as HC. change (cnt s2) with (cnt s1) in HC. rewrite le_length in HC.
    assert (Hrefs : forall k, refs s' k = if (k =? t)%nat then refs s1 k ++ [Abs p x] else refs s1 k).
    { intro k. unfold refs. rewrite Hlab. cbn [s2 labels set_labels]. rewrite upd_nth_nth.
      destruct (k =? t)%nat eqn:Ek; [|reflexivity]. apply Nat.eqb_eq in Ek. subst k.
      destruct (nth_error (labels s1) t) eqn:F; [rewrite Hc1; reflexivity|]. apply nth_error_None in F. lia. }
    split; [|split; [|split]].
    + eapply grow_trans; [exact G1|]. constructor; [exact X|apply (adv_cur _ _ _ _ A)|].
      intro q. rewrite (adv_pages _ _ _ _ A q). reflexivity.
    + constructor; cbn [fst snd d_align] in *; auto.
      * unfold loc_of. rewrite Hlab. cbn [s2 labels set_labels]. rewrite upd_nth_nth. unfold loc_of in Hloc1.
        destruct (l =? t)%nat; [|exact Hloc1]. destruct (nth_error (labels s1) l); [exact Hloc1|discriminate].
      * rewrite HC, pid_eqb_refl, Hc1. unfold d_len. cbn [d_bytes]. rewrite le_length. lia.
      * unfold bytes. cbn [d_bytes]. rewrite (read_ext _ (wr (mem s2) (addr s2 p (counter (pages s2 p))) (le 8 0))) by (intros; apply (adv_mem _ _ _ _ A)).
        rewrite (addr_base s2 s') by apply (adv_base _ _ _ _ A). change (counter (pages s2 p)) with (cnt s1 p). rewrite Hc1. apply read_wr.
      * intros t0 Ht0. inversion Ht0; subst. rewrite Hrefs, Nat.eqb_refl. apply in_or_app. right. left. reflexivity.
      * intros k u Hu Hpu H1 H2. rewrite Hrefs in Hu. unfold d_len in H1. cbn [d_bytes] in H1. rewrite le_length in H1.
        assert (Hold : In u (refs s1 k) -> False).
        { intro Hi. destruct (clean_top s1 p (x + 8) I1 _ _ Hi Hpu) as [Hx|Hx]; lia. }
        destruct (k =? t)%nat eqn:Ek; [|contradiction (Hold Hu)]. apply Nat.eqb_eq in Ek. subst k.
        apply in_app_or in Hu. destruct Hu as [Hu|[<-|[]]]; [contradiction (Hold Hu)|]. split; reflexivity.
    + rewrite HC, pid_eqb_refl, Hc1. unfold d_len. cbn [d_bytes]. rewrite le_length. reflexivity.
    + intros q Hq. rewrite HC, pid_eqb_neq by exact Hq. apply Hq1, Hq.
  - pose proof (tail_appends p d Hd) as T. destruct (appends_ext (eq l) p _ _ _ _ _ (ri_cnt _ I1) T E) as [X A].
    pose proof (cnt_adv _ _ _ _ A) as HC.
    assert (Hrefs : forall k, refs s' k = refs s1 k) by (intro k; unfold refs; rewrite (adv_labels _ _ _ _ A); reflexivity).
    split; [|split; [|split]].
    + eapply grow_trans; [exact G1|]. eapply appends_grow; [exact (ri_cnt _ I1)|exact T|exact E].
    + constructor; cbn [fst snd]; auto.
      * unfold loc_of in *. rewrite (adv_labels _ _ _ _ A). exact Hloc1.
      * rewrite HC, pid_eqb_refl, Hc1. unfold d_len. lia.
      * unfold bytes. rewrite (read_ext _ (wr (mem s1) (addr s1 p (counter (pages s1 p))) (d_bytes d))) by (intros; apply (adv_mem _ _ _ _ A)).
        rewrite (addr_base s1 s') by apply (adv_base _ _ _ _ A). change (counter (pages s1 p)) with (cnt s1 p). rewrite Hc1. apply read_wr.
      * intros t Ht. subst d. discriminate Hd.
      * intros k u Hu Hpu H1 H2. rewrite Hrefs in Hu. destruct (clean_top s1 p (x + d_len d) I1 _ _ Hu Hpu) as [Hx|Hx]; lia.
    + rewrite HC, pid_eqb_refl, Hc1. reflexivity.
    + intros q Hq. rewrite HC, pid_eqb_neq by exact Hq. apply Hq1, Hq.
Qed.

(** A list of entries laid out from position [c] on. *)
Fixpoint laid (s : jit) (p : pid) (c : Z) (es : list (dtype * label)) : Prop :=
  match es with
  | [] => True
  | e :: r => placed s p (align_up (d_align (fst e)) c) e /\ laid s p (align_up (d_align (fst e)) c + d_len (fst e)) r
  end.
Fixpoint laid_end (c : Z) (es : list (dtype * label)) : Z :=
  match es with [] => c | e :: r => laid_end (align_up (d_align (fst e)) c + d_len (fst e)) r end.
Lemma laid_ext B p s s' : ext B s s' -> forall es c, (forall e, In e es -> ~ B (snd e)) -> laid s p c es -> laid s' p c es.
Proof.
  intros E. induction es as [|e es IH]; intros c Hb H; cbn [laid] in *; [exact I|]. destruct H as [H1 H2]. split.
  - eapply placed_ext; eauto. apply Hb. left. reflexivity.
  - apply IH; auto. intros. apply Hb. right. assumption.
Qed.
Lemma entries_spec p : forall es s s', RInv s -> NoDup (map snd es) -> forM es (resolve_constant_entry p) s = Ok tt s' ->
  grow (fun l => In l (map snd es)) s s' /\ laid s' p (cnt s p) es /\ cnt s' p = laid_end (cnt s p) es /\
  (forall q, q <> p -> cnt s' q = cnt s q).
Proof.
  induction es as [|[d l] es IH]; intros s s' I Hn E.
  - inversion E; subst. split; [apply grow_refl, (ri_cnt _ I)|]. split; [exact Logic.I|]. split; reflexivity.
  - cbn [forM] in E. unfold bind in E. destruct (resolve_constant_entry p (d, l) s) as [[] s1|] eqn:E1; [|discriminate].
    destruct (entry_spec _ _ _ _ _ I E1) as (G1 & P1 & C1 & O1). cbn [map snd] in Hn. inversion Hn as [|? ? Hnin Hn']; subst.
    assert (I1 : RInv s1) by (eapply RInv_ext; [exact I|apply G1]).
    destruct (IH s1 s' I1 Hn' E) as (G2 & L2 & C2 & O2). split; [|split; [|split]].
    + eapply grow_trans; [eapply grow_weaken; [|exact G1]; intros k <-; left; reflexivity|].
      eapply grow_weaken; [|exact G2]. intros k Hk. right. exact Hk.
    + cbn [laid fst]. rewrite C1 in L2. split; [|exact L2]. eapply placed_ext; [exact P1|apply G2|exact Hnin].
    + cbn [laid_end fst]. rewrite C2, C1. reflexivity.
    + intros q Hq. rewrite O2, O1 by exact Hq. reflexivity.
Qed.
