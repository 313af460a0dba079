(** Facts about histories of calls in the vocabulary of SpecHist. *)
From Verif Require Import Base ModelMem ModelEnc ModelSyntax ModelMacro Trace Emit StateFid SpecX86 SpecState SpecHist MemInv MemStep MemFinal MemFill MemHist MemRun MemSafe MemOut.
Local Notation length := List.length.

(** ** References *)
Lemma fval_spec s t a : fval s a t = le (Z.to_nat (flen t)) (ref_value s t a).
Proof. destruct t; cbn [fval ref_value flen]; [|reflexivity]. reflexivity. Qed.
Lemma label_addr_some s l a : label_addr s l = Some a -> exists p x, loc_of s l = Some (p, x) /\ a = addr s p x.
Proof. unfold label_addr. destruct (loc_of s l) as [[p x]|]; [|discriminate]. intro H. inversion H. eauto. Qed.
Lemma label_addr_none s l : label_addr s l = None <-> loc_of s l = None.
Proof. unfold label_addr. destruct (loc_of s l) as [[p x]|]; split; intro H; try discriminate; reflexivity. Qed.
Lemma ref_in_range s l t p x : Inv s -> In t (refs s l) -> loc_of s l = Some (p, x) ->
  match t with Rel _ _ _ => in_i32 (ref_value s t (addr s p x)) = true | Abs _ _ => True end.
Proof.
  intros I Ht Hl. destruct t as [q off y|]; [|exact Logic.I]. apply In_nth_error in Ht. destruct Ht as [k Hk].
  destruct (ri_ref _ (iv_r _ I) _ _ _ Hk) as (A & B & _ & O). pose proof (ri_loc _ (iv_r _ I) _ _ _ Hl) as C.
  pose proof (ri_cnt _ (iv_r _ I) q). pose proof (ri_cnt _ (iv_r _ I) p). cbn [fpos flen fpage off_ok ref_value] in *.
  unfold in_i32, addr, contents, PAGE_SIZE in *. destruct p, q; cbn [pidx] in *; lia.
Qed.
Lemma finalize_links s s' l t a : Inv s -> In t (refs s l) -> after OFinalize s = Some s' -> label_addr s' l = Some a ->
  field s' t = le (Z.to_nat (flen t)) (ref_value s' t a) /\
  (match t with Rel _ _ _ => in_i32 (ref_value s' t a) = true | Abs _ _ => True end) /\ refs s' l = [].
Proof.
  intros I Ht E Ha. apply finalize_after in E. destruct (finalize_spec _ _ I E) as [s1 F].
  destruct (label_addr_some _ _ _ Ha) as (p & x & Hl & ->). pose proof (ref_finalize _ _ _ l t I F Ht) as R. rewrite Hl in R.
  destruct R as (R1 & R2 & _). split; [unfold field; rewrite R2; apply fval_spec|]. split; [|exact R1].
  pose proof (ref_ext _ _ _ _ _ (fn_ext _ _ _ F) Ht) as Ht1. rewrite (fn_loc _ _ _ F) in Hl.
  pose proof (fn_inv _ _ _ F) as I1. destruct t as [q off y|]; [|exact Logic.I]. apply In_nth_error in Ht1. destruct Ht1 as [k Hk].
  destruct (ri_ref _ I1 _ _ _ Hk) as (A & B & _ & O). pose proof (ri_loc _ I1 _ _ _ Hl) as C.
  pose proof (ri_cnt _ I1 q). pose proof (ri_cnt _ I1 p). cbn [fpos flen fpage off_ok ref_value] in *.
  unfold in_i32, addr, contents, PAGE_SIZE in *. destruct p, q; cbn [pidx] in *; lia.
Qed.
Lemma pending_zero s l t : Inv s -> In t (refs s l) -> field s t = repeat 0 (Z.to_nat (flen t)).
Proof.
  intros I Ht. unfold field. rewrite (zero_of_ref _ _ _ I Ht). destruct t; reflexivity.
Qed.
Lemma unbound_pending s s' l t : Inv s -> In t (refs s l) -> after OFinalize s = Some s' -> label_addr s' l = None ->
  In t (refs s' l) /\ field s' t = repeat 0 (Z.to_nat (flen t)).
Proof.
  intros I Ht E Ha. pose proof (Inv_step _ _ _ I (eq_refl : api OFinalize = true) E) as I'. apply finalize_after in E. destruct (finalize_spec _ _ I E) as [s1 F].
  pose proof (ref_finalize _ _ _ l t I F Ht) as R. apply label_addr_none in Ha. rewrite Ha in R. split; [exact R|]. apply (pending_zero _ l); assumption.
Qed.
Lemma ref_life : forall ops s s' l t, Inv s -> In t (refs s l) -> forallb api ops = true -> run ops s = Some s' ->
  (In t (refs s' l) /\ never_linked ops s l) \/
  (exists a b s1 s2 x, ops = a ++ OFinalize :: b /\ run a s = Some s1 /\ In t (refs s1 l) /\ never_linked a s l /\
     after OFinalize s1 = Some s2 /\ label_addr s2 l = Some x /\
     field s2 t = le (Z.to_nat (flen t)) (ref_value s2 t x) /\ run b s2 = Some s' /\ field s' t = field s2 t).
Proof.
  induction ops as [|o ops IH]; intros s s' l t I Ht Ha E.
  - left. inversion E; subst. split; [exact Ht|]. intros a b s2 H. destruct a; discriminate.
  - apply run_cons in E. destruct E as (s1 & E1 & E). cbn [forallb] in Ha. apply andb_true_iff in Ha. destruct Ha as [Ha1 Ha].
    pose proof (Inv_step _ _ _ I Ha1 E1) as I1.
    assert (Hnext : In t (refs s1 l) -> (o = OFinalize -> label_addr s1 l = None) -> (In t (refs s' l) /\ never_linked (o :: ops) s l) \/
      (exists a b s1 s2 x, o :: ops = a ++ OFinalize :: b /\ run a s = Some s1 /\ In t (refs s1 l) /\ never_linked a s l /\
         after OFinalize s1 = Some s2 /\ label_addr s2 l = Some x /\
         field s2 t = le (Z.to_nat (flen t)) (ref_value s2 t x) /\ run b s2 = Some s' /\ field s' t = field s2 t)).
    { intros H1 Hun. 
      assert (Hnl : forall ops', never_linked ops' s1 l -> never_linked (o :: ops') s l).
      { intros ops' Hn a b s3 Hab Hr. destruct a as [|o' a]; cbn [app] in Hab; inversion Hab; subst.
        - cbn [app run] in Hr. rewrite E1 in Hr. inversion Hr; subst. apply Hun. reflexivity.
        - cbn [app run] in Hr. rewrite E1 in Hr. eapply Hn; [reflexivity|exact Hr]. }
      destruct (IH s1 s' l t I1 H1 Ha E) as [[H Hn]|(a' & b & s2 & s3 & x & Ho & Hr & Hp & Hn & Hrest)].
      - left. split; [exact H|]. apply Hnl, Hn.
      - right. exists (o :: a'), b, s2, s3, x. split; [rewrite Ho; reflexivity|].
        split; [cbn [run]; rewrite E1; exact Hr|]. split; [exact Hp|]. split; [apply Hnl, Hn|exact Hrest]. }
    destruct (step_effect _ _ _ I Ha1 E1) as [Hf X|s2 -> F].
    + apply Hnext; [eapply ref_ext; eauto|]. intros ->. discriminate.
    + destruct (label_addr s1 l) as [x|] eqn:El.
      * right. exists [], ops, s, s1, x. split; [reflexivity|]. split; [reflexivity|]. split; [exact Ht|].
        split; [intros a b s3 H; destruct a; discriminate|]. split; [exact E1|]. split; [exact El|].
        split; [apply (finalize_links _ _ _ _ _ I Ht E1 El)|]. split; [exact E|].
        destruct (label_addr_some _ _ _ El) as (p & y & Hl & _). pose proof (ref_finalize _ _ _ l t I F Ht) as R. rewrite Hl in R.
        destruct R as (_ & _ & Hs). unfold field. eapply settled_bytes; eauto. intros i Hi. apply Hs. pose proof (flen_pos t). lia.
      * apply Hnext; [|auto]. apply (unbound_pending _ _ _ _ I Ht E1 El).
Qed.
(** Outcome of finalize. *)
Lemma laid_end_layout : forall es c, laid_end c es = layout_end c es.
Proof.
  induction es as [|[d l] es IH]; intro c; [reflexivity|]. cbn [laid_end layout_end fst]. rewrite IH. f_equal.
  unfold align_up, next_multiple, d_len, entry_len. destruct d; cbn [d_align entry_align d_bytes]; rewrite ?le_length, ?repeat_length; cbn [length]; lia.
Qed.
Lemma fits_room s : fits s = true <-> room_for_constants s.
Proof.
  unfold fits, room_for_constants. rewrite !laid_end_layout. unfold cnt. rewrite !andb_true_iff. rewrite !Z.leb_le. tauto.
Qed.
Lemma queue_kinds s : reached s -> forall p e, In e (data (pages s p)) -> match fst e with DAbsAddress _ => False | _ => True end.
Proof.
  assert (G : forall s s', (forall p, data (pages s' p) = data (pages s p)) -> (forall p e, In e (data (pages s p)) -> match fst e with DAbsAddress _ => False | _ => True end) ->
     forall p e, In e (data (pages s' p)) -> match fst e with DAbsAddress _ => False | _ => True end).
  { intros s0 s' H K p e He. rewrite H in He. eapply K; exact He. }
  induction 1 as [b m|o s s' R IH Ha E|o s s' R IH Ho E|m s R IH _]; [| | |exact IH].
  - cbn. contradiction.
  - pose proof (Inv_reached _ R) as I. pose proof (after_leaves _ _ _ E) as L. destruct (plain o) eqn:Hp.
    + eapply G; [|exact IH]. intro p. apply (grow_queues _ _ _ (plain_leaves _ _ _ (ri_cnt _ (iv_r _ I)) Hp L)).
    + destruct o; try discriminate.
      * apply select_leaves in L. destruct L as [-> |[-> | ->]]; exact IH.
      * cbn [step] in L. unfold bind in L. rewrite create_eq in L. cbn in L. subst. intros p e. unfold created. cbn [pages set_page].
        destruct (pid_eqb p (cur s)); [|apply IH]. destruct (is_data d) eqn:Ed; cbn [data with_data with_constants]; [|apply IH].
        rewrite in_app_iff. intros [H|[<-|[]]]; [eapply IH; exact H|]. cbn [fst]. destruct d; try discriminate; exact Logic.I.
      * apply finalize_after in E. destruct (finalize_spec s s' I E) as [s1 F]. intros p e He. rewrite (fn_pages _ _ _ F) in He. contradiction.
  - pose proof (over_rewritten _ _ _ Ho E) as W. eapply G; [|exact IH]. intro p. rewrite (rw_pages _ _ W). reflexivity.
Qed.
Lemma abs_known s : reached s -> (abs_all s = true <-> known_targets s).
Proof.
  intro R. pose proof (queue_kinds _ R) as Q. pose proof (iv_q _ (Inv_reached _ R)) as [_ [Q2 _] _ _].
  unfold abs_all, known_targets. rewrite forallb_forall. split.
  - intros H p l k Hin. assert (Hi : In (DAbsAddress l, k) (constants (pages s P0) ++ constants (pages s P1) ++ data (pages s P0) ++ data (pages s P1))).
    { rewrite !in_app_iff. destruct p; auto. rewrite Q2 in Hin. contradiction. }
    specialize (H _ Hi). cbn in H. apply Nat.ltb_lt in H. exact H.
  - intros H [d k] Hin. destruct d; try reflexivity. unfold abs_ok. cbn [fst]. apply Nat.ltb_lt. rewrite !in_app_iff in Hin.
    destruct Hin as [Hin|[Hin|[Hin|Hin]]]; [eapply H; exact Hin|eapply H; exact Hin| |]; apply Q in Hin; contradiction.
Qed.
Lemma finalize_succeeds s : reached s -> (exists s', after OFinalize s = Some s') <-> room_for_constants s /\ known_targets s.
Proof.
  intro R. rewrite <- fits_room, <- (abs_known _ R). unfold after. cbn [step]. unfold nolabel, bind, ret.
  destruct (finalize_outcome s (Inv_reached _ R)) as [(s' & s1 & E & F & Hf & Ha)|(e & s' & E & G)]; rewrite E.
  - split; [auto|]. intros _. eauto.
  - split; [intros [x H]; discriminate|]. intros [H1 H2]. destruct G as [[_ G]|[_ G]]; congruence.
Qed.
Lemma finalize_panics s e s' : reached s -> step OFinalize s = Panic e s' ->
  (e = PageOverflow /\ ~ room_for_constants s) \/ (e = IndexOOB /\ ~ known_targets s).
Proof.
  intros R E. rewrite <- fits_room, <- (abs_known _ R). cbn [step] in E. unfold nolabel, bind, ret in E.
  destruct (finalize_outcome s (Inv_reached _ R)) as [(s2 & s1 & E1 & _)|(e1 & s2 & E1 & G)]; rewrite E1 in E; [discriminate|].
  inversion E; subst. destruct G as [[-> G]|[-> G]]; [left|right]; (split; [reflexivity|congruence]).
Qed.
