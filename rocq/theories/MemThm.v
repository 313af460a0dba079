(** The statements of Props_Mem about reached states. *)
From Verif Require Import Base ModelMem ModelEnc ModelSyntax ModelMacro Trace Emit StateFid SpecX86 EncDec SpecState SpecHist MemInv MemStep MemFinal MemFill MemHist MemRun MemSafe MemOut MemFacts MemLocal MemPlace MemMisc MemCode.
Local Notation length := List.length.

(** ** C10, C11 *)
Lemma dest_of s t a : field s t = le (Z.to_nat (flen t)) (ref_value s t a) ->
  match t with Rel _ _ _ => in_i32 (ref_value s t a) = true | Abs _ _ => True end -> points_to s t a.
Proof.
  intros Hf Hr. unfold points_to, ref_dest. rewrite Hf. destruct t as [p off x|p x]; cbn [flen ref_value] in *; rewrite unle_le.
  - change (256 ^ Z.of_nat (Z.to_nat 4)) with 4294967296. unfold i32. rewrite signed_mod by lia. rewrite signed_small; [lia|lia|reflexivity|].
    unfold in_i32 in Hr. change (4294967296 / 2) with 2147483648. lia.
  - change (256 ^ Z.of_nat (Z.to_nat 8)) with 18446744073709551616. reflexivity.
Qed.
Lemma links s s' l t a : reached s -> In t (refs s l) -> after OFinalize s = Some s' -> label_addr s' l = Some a -> points_to s' t a /\ refs s' l = [].
Proof.
  intros R Ht E Ha. destruct (finalize_links _ _ _ _ _ (Inv_reached _ R) Ht E Ha) as (H1 & H2 & H3). split; [apply dest_of; assumption|exact H3].
Qed.
Lemma life ops s s' l t : reached s -> In t (refs s l) -> forallb api ops = true -> run ops s = Some s' ->
  (never_linked ops s l /\ In t (refs s' l) /\ field s' t = repeat 0 (Z.to_nat (flen t))) \/
  (exists a b s1 s2 x, ops = a ++ OFinalize :: b /\ run a s = Some s1 /\ never_linked a s l /\ after OFinalize s1 = Some s2 /\
     label_addr s2 l = Some x /\ points_to s2 t x /\ run b s2 = Some s' /\ field s' t = field s2 t).
Proof.
  intros R Ht Ha E. pose proof (Inv_reached _ R) as I. destruct (ref_life _ _ _ _ _ I Ht Ha E) as [[H1 H2]|(a & b & s1 & s2 & x & H1 & H2 & H3 & H4 & H5 & H6 & H7 & H8 & H9)].
  - left. split; [exact H2|]. split; [exact H1|]. eapply pending_zero; [|exact H1]. eapply Inv_run; eauto.
  - right. exists a, b, s1, s2, x. repeat (split; [assumption|]). split; [|auto].
    assert (I1 : Inv s1). { subst ops. rewrite forallb_app in Ha. apply andb_true_iff in Ha. exact (Inv_run _ _ _ I (proj1 Ha) H2). }
    destruct (finalize_links _ _ _ _ _ I1 H3 H5 H6) as (A1 & A2 & _). apply dest_of; assumption.
Qed.
Lemma stays_pending s s' l t : reached s -> In t (refs s l) -> after OFinalize s = Some s' -> label_addr s' l = None ->
  In t (refs s' l) /\ field s' t = repeat 0 (Z.to_nat (flen t)).
Proof. intro R. apply unbound_pending, Inv_reached, R. Qed.

(** ** C13 *)
Lemma bytes_stay ops s s' p i : reached s -> forallb api ops = true -> run ops s = Some s' -> 0 <= i < counter (pages s p) ->
  byte s' p i <> byte s p i -> pending s p i /\ no_finalize ops = false.
Proof. intro R. apply byte_changed, Inv_reached, R. Qed.
Lemma only_fields s s' p i : reached s -> after OFinalize s = Some s' -> 0 <= i < counter (pages s p) -> byte s' p i <> byte s p i ->
  exists l t, In t (refs s l) /\ in_field t p i /\ label_addr s' l <> None.
Proof. intro R. apply finalize_changed, Inv_reached, R. Qed.

(** ** C14 *)
Lemma finalize_writes s s' x : reached s -> after OFinalize s = Some s' -> mem s' x <> mem s x ->
  exists p i, x = addr s p i /\ 0 <= i < counter (pages s' p) /\ counter (pages s' p) <= PAGE_SIZE.
Proof.
  intros R E Hne. pose proof (Inv_reached _ R) as I. pose proof (Inv_step _ _ _ I (eq_refl : api OFinalize = true) E) as I'.
  apply finalize_after in E. destruct (finalize_spec _ _ I E) as [s1 F]. pose proof (fn_ext _ _ _ F) as X.
  assert (D : (exists p i, x = addr s p i /\ 0 <= i < counter (pages s' p)) \/ ~ (exists p i, x = addr s p i /\ 0 <= i < counter (pages s' p))).
  { assert (Dp : forall p, {0 <= x - contents s p < counter (pages s' p)} + {~ 0 <= x - contents s p < counter (pages s' p)}).
    { intro p. destruct (Z_le_dec 0 (x - contents s p)); [|right; lia]. destruct (Z_lt_dec (x - contents s p) (counter (pages s' p))); [left|right]; lia. }
    destruct (Dp P0) as [H|H0]; [left; exists P0, (x - contents s P0); unfold addr; split; [lia|exact H]|].
    destruct (Dp P1) as [H|H1]; [left; exists P1, (x - contents s P1); unfold addr; split; [lia|exact H]|].
    destruct (Dp P2) as [H|H2]; [left; exists P2, (x - contents s P2); unfold addr; split; [lia|exact H]|].
    right. intros (p & i & -> & Hi). unfold addr in *. destruct p; [apply H0|apply H1|apply H2]; lia. }
  destruct D as [(p & i & Hx & Hi)|D].
  - exists p, i. split; [exact Hx|]. pose proof (ri_cnt _ (iv_r _ I') p) as K. unfold cnt in K. lia.
  - contradiction Hne. rewrite (fn_frame _ _ _ F).
    + apply (ex_mem _ _ _ X). intros p Hx. apply D. exists p, (x - contents s p).
      pose proof (ri_cnt _ (iv_r _ I) p) as K. pose proof (fin_cnt _ _ _ F p) as HC. unfold cnt, addr in *. lia.
    + intros l t Hl Ht Hx. apply D. exists (fpage t), (x - contents s (fpage t)). unfold at_field, faddr in Hx.
      apply In_nth_error in Ht. destruct Ht as [k Hk]. destruct (ri_ref _ (fn_inv _ _ _ F) _ _ _ Hk) as (A & B & _).
      pose proof (fin_cnt _ _ _ F (fpage t)) as HC. rewrite !(addr_base s s1) in * by apply (ex_base _ _ _ X). unfold cnt, addr in *. lia.
Qed.
Lemma reached_cursor s p : reached s -> 0 <= counter (pages s p) <= PAGE_SIZE. Proof. intro R. apply (reached_cnt _ R). Qed.
Lemma any_cursor ops b m p : 0 <= counter (pages (run_any ops (jit_new b m)) p) <= PAGE_SIZE. Proof. apply any_cnt. Qed.
Lemma page_local o p s : reached s -> target_page o s = Some p -> only_page p s (outcome (step o s)).
Proof. intro R. apply step_local, reached_cnt, R. Qed.

(** ** C15 *)
Lemma select_spec n s : (n = 0 \/ n = 1 <-> exists s', step (OSelect n) s = Ok None s') /\
  forall s', step (OSelect n) s = Ok None s' -> exists p, pid_of n = Some p /\ s' = set_cur p s.
Proof.
  rewrite select_step. destruct (n =? 0) eqn:E0; [|destruct (n =? 1) eqn:E1].
  - split; [split; [eauto|lia]|]. intros s' H. inversion H. exists P0. unfold pid_of. rewrite E0. auto.
  - split; [split; [eauto|lia]|]. intros s' H. inversion H. exists P1. unfold pid_of. rewrite E0, E1. auto.
  - split; [split; [lia|intros [s' H]; discriminate]|]. intros s' H. discriminate.
Qed.
(** The selected page is a code page. *)
Lemma selected s : reached s -> cur s <> P2. Proof. intro R. apply (iv_q _ (Inv_reached _ R)). Qed.

(** ** C16-C18 *)
Lemma mod_page a k b : 0 < a -> (4096 mod a = 0) -> b mod 4096 = 0 -> (b + k * PAGE_SIZE) mod a = 0.
Proof.
  intros Ha Hd Hb. apply Z.mod_divide in Hd; [|lia]. apply Z.mod_divide in Hb; [|lia]. apply Z.mod_divide; [lia|].
  destruct Hd as [u Hu], Hb as [v Hv]. exists ((v + k * 65536) * u). unfold PAGE_SIZE.
  replace (b + k * 268435456) with ((v + k * 65536) * 4096) by lia. rewrite Hu at 1. apply Z.mul_assoc.
Qed.
Lemma aligned_addr s p x a : In a [4; 8; 16] -> base s mod 4096 = 0 -> x mod a = 0 -> addr s p x mod a = 0.
Proof.
  intros Ha Hb Hx. unfold addr, contents. rewrite Z.add_mod by (cbn in Ha; lia). rewrite Hx.
  rewrite (mod_page a (pidx p) (base s)); [reflexivity|cbn in Ha; lia|cbn in Ha; destruct Ha as [<-|[<-|[<-|[]]]]; reflexivity|exact Hb].
Qed.
Lemma base_of s d l ops s1 s2 : Inv s -> created_then s d l ops s1 s2 -> base s2 = base s.
Proof.
  intros I (s0 & E0 & Ha & Hf & E1 & E2). destruct (create_inv _ _ _ _ I E0) as [I0 _]. pose proof (Inv_run _ _ _ I0 Ha E1) as I1.
  destruct (create_step _ _ _ _ E0) as [_ ->]. rewrite (effect_base _ _ _ (step_effect _ _ _ I1 (eq_refl : api OFinalize = true) E2)).
  rewrite (base_run _ _ _ I0 Ha E1). reflexivity.
Qed.
Lemma dat_aligns d : In (dat_align d) [4; 8; 16]. Proof. destruct d; cbn; auto. Qed.
Lemma placed s d l ops s1 s2 : reached s -> created_then s d l ops s1 s2 ->
  exists x, loc_of s2 l = Some (dat_page d s, x) /\ x mod dat_align d = 0 /\
    (base s mod 4096 = 0 -> addr s2 (dat_page d s) x mod dat_align d = 0) /\
    counter (pages s1 (dat_page d s)) <= x /\ x + dat_len d <= counter (pages s2 (dat_page d s)) /\
    (is_abs d = false -> bytes s2 (dat_page d s) x (length (dat_bytes d)) = dat_bytes d).
Proof.
  intros R C. pose proof (Inv_reached _ R) as I. destruct (constant_placed _ _ _ _ _ _ I C) as (x & H1 & H2 & H3 & H4 & H5).
  exists x. split; [exact H1|]. split; [exact H2|]. split; [|split; [exact H3|split; [exact H4|]]].
  - intro Hb. apply aligned_addr; [apply dat_aligns|rewrite (base_of _ _ _ _ _ _ I C); exact Hb|exact H2].
  - intro Hab. apply (H5 Hab).
Qed.
Lemma disjoint_constants s d1 l1 s0 ops1 sa d2 l2 ops2 s1 s2 : reached s -> step (OCreate d1) s = Ok (Some l1) s0 ->
  forallb api ops1 = true -> no_finalize ops1 = true -> run ops1 s0 = Some sa -> created_then sa d2 l2 ops2 s1 s2 ->
  exists p x q y, loc_of s2 l1 = Some (p, x) /\ loc_of s2 l2 = Some (q, y) /\ (p <> q \/ x + dat_len d1 <= y \/ y + dat_len d2 <= x).
Proof. intros R E0 H1 H2 H3 C. eapply no_overlap; eauto. apply Inv_reached, R. Qed.
Lemma stays_placed s d l ops s1 s2 ops' s3 : reached s -> created_then s d l ops s1 s2 -> forallb api ops' = true -> run ops' s2 = Some s3 ->
  (forall o, In o ops' -> ~ binds_label o l) ->
  loc_of s3 l = loc_of s2 l /\
  (is_abs d = false -> forall p x, loc_of s2 l = Some (p, x) -> bytes s3 p x (length (dat_bytes d)) = dat_bytes d).
Proof. intro R. apply constant_stays, Inv_reached, R. Qed.
Lemma placed_once s s' p : reached s -> after OFinalize s = Some s' -> counter (pages s' p) = layout_end (counter (pages s p)) (waiting s p) /\ waiting s' p = [].
Proof. intro R. apply finalize_end, Inv_reached, R. Qed.
(** The data page. *)
Lemma data_untouched o s : reached s -> api o = true -> is_finalize o = false -> on_data_page o = false ->
  pages (outcome (step o s)) P2 = pages s P2 /\ forall i, 0 <= i < PAGE_SIZE -> byte (outcome (step o s)) P2 i = byte s P2 i.
Proof.
  intros R Ha Hf Hd. pose proof (selected _ R) as Hc.
  assert (G : forall p s', p <> P2 -> only_page p s s' -> pages s' P2 = pages s P2 /\ forall i, 0 <= i < PAGE_SIZE -> byte s' P2 i = byte s P2 i).
  { intros p s' Hp L. split; [apply (lc_others _ _ _ L); congruence|]. intros i Hi. unfold byte. rewrite (addr_base s s') by apply (lc_base _ _ _ L).
    destruct (Z.eq_dec (mem s' (addr s P2 i)) (mem s (addr s P2 i))) as [H|H]; [exact H|]. destruct (lc_mem _ _ _ L _ H) as (j & Hj & Hr).
    pose proof (reached_cnt _ R p) as K. unfold cnt, addr, contents in *. destruct p; cbn [pidx] in Hj; unfold PAGE_SIZE in *; try congruence; lia. }
  assert (B : forall n l, pages (outcome (step (OBindPage n l) s)) P2 = pages s P2 /\ forall i, 0 <= i < PAGE_SIZE -> byte (outcome (step (OBindPage n l) s)) P2 i = byte s P2 i).
  { intros n l. cbn [step]. rewrite nolabel_outcome. unfold bind_label_with_page, on_page. destruct (pid_of n) as [p|]; [|split; reflexivity].
    unfold bind_label_on, bind, get_counter, modify_label. destruct (l <? _)%nat; split; reflexivity. }
  destruct o; try discriminate; try (apply (G (cur s)); [exact Hc|]; apply page_local; [exact R|reflexivity]); try apply B.
  - destruct n as [n|]; [|apply (G (cur s)); [exact Hc|apply page_local; [exact R|reflexivity]]].
    destruct (pid_of n) as [p|] eqn:En.
    + apply (G p); [|apply page_local; [exact R|cbn [target_page]; rewrite En; reflexivity]]. cbn [on_data_page] in Hd.
      intros ->. unfold pid_of in En. destruct (n =? 0), (n =? 1); try discriminate. rewrite Hd in En. discriminate.
    + apply (G (cur s)); [exact Hc|]. apply page_local; [exact R|cbn [target_page]; rewrite En; reflexivity].
  - rewrite select_step. destruct (n =? 0); [split; reflexivity|]. destruct (n =? 1); split; reflexivity.
Qed.
Lemma abs_first s t l ops s1 s2 : reached s -> created_then s (KAbs t) l ops s1 s2 ->
  exists x, loc_of s2 l = Some (cur s, x) /\ x mod 8 = 0 /\ (base s mod 4096 = 0 -> addr s2 (cur s) x mod 8 = 0) /\
    match label_addr s2 t with
    | Some a => bytes s2 (cur s) x 8 = le 8 a
    | None => bytes s2 (cur s) x 8 = repeat 0 8 /\ In (Abs (cur s) x) (refs s2 t)
    end.
Proof.
  intros R C. pose proof (Inv_reached _ R) as I. destruct (abs_placed _ _ _ _ _ _ I C) as (x & H1 & H2 & H3). exists x. split; [exact H1|]. split; [exact H2|].
  split; [intro Hb; apply aligned_addr; [cbn; auto|rewrite (base_of _ _ _ _ _ _ I C); exact Hb|exact H2]|].
  destruct (label_addr s2 t); [apply H3|]. split; [|exact H3].
  destruct C as (s0 & E0 & Ha & Hf & E1 & E2). destruct (create_inv _ _ _ _ I E0) as [I0 _]. pose proof (Inv_run _ _ _ I0 Ha E1) as I1.
  pose proof (Inv_step _ _ _ I1 (eq_refl : api OFinalize = true) E2) as I2. exact (pending_zero _ _ _ I2 H3).
Qed.
(** The 8 bytes of an abs_address in any later state. *)
Lemma abs_later s t l ops s1 s2 ops' s3 : reached s -> created_then s (KAbs t) l ops s1 s2 -> forallb api ops' = true -> run ops' s2 = Some s3 ->
  exists x, loc_of s2 l = Some (cur s, x) /\
    ((label_addr s2 t = None /\ never_linked ops' s2 t /\ bytes s3 (cur s) x 8 = repeat 0 8) \/
     (exists a, label_addr s2 t = Some a /\ bytes s3 (cur s) x 8 = le 8 a) \/
     (label_addr s2 t = None /\ exists u v sa sb a, ops' = u ++ OFinalize :: v /\ run u s2 = Some sa /\ never_linked u s2 t /\
        after OFinalize sa = Some sb /\ label_addr sb t = Some a /\ bytes s3 (cur s) x 8 = le 8 a)).
Proof.
  intros R C Ha' Er. pose proof (Inv_reached _ R) as I. destruct (abs_placed _ _ _ _ _ _ I C) as (x & H1 & H2 & H3).
  assert (I2 : Inv s2).
  { destruct C as (s0 & E0 & Ha & Hf & E1 & E2). destruct (create_inv _ _ _ _ I E0) as [I0 _]. pose proof (Inv_run _ _ _ I0 Ha E1) as I1.
    exact (Inv_step _ _ _ I1 (eq_refl : api OFinalize = true) E2). }
  exists x. split; [exact H1|]. destruct (label_addr s2 t) as [a|] eqn:El.
  - right. left. exists a. split; [reflexivity|]. destruct H3 as [H3 H4]. rewrite <- H3. eapply settled_bytes; eauto.
  - destruct (ref_life _ _ _ _ _ I2 H3 Ha' Er) as [[P N]|(u & v & sa & sb & a & E & Eu & Hin & N & Ef & Hl & Hv & Ev & Hs)].
    + left. split; [reflexivity|]. split; [exact N|]. exact (pending_zero _ _ _ (Inv_run _ _ _ I2 Ha' Er) P).
    + right. right. split; [reflexivity|]. exists u, v, sa, sb, a. repeat (split; [assumption|]).
      change (bytes s3 (cur s) x 8) with (field s3 (Abs (cur s) x)). rewrite Hs. exact Hv.
Qed.

(** ** C19 *)
Lemma fresh ops s : reached s -> forallb api ops = true ->
  NoDup (returned ops s) /\ forall l, In l (returned ops s) -> (length (labels s) <= l)%nat.
Proof. intro R. apply returned_range, Inv_reached, R. Qed.
Lemma fresh_new ops b m : forallb api ops = true -> NoDup (returned ops (jit_new b m)).
Proof. intro Ha. apply (fresh _ _ (reached_new b m) Ha). Qed.
Lemma bound_here o l s s' : reached s -> step o s = Ok None s' ->
  match o with
  | OBind k => k = l -> loc_of s' l = Some (cur s, cursor s)
  | OBindPage n k => k = l -> exists p, pid_of n = Some p /\ loc_of s' l = Some (p, counter (pages s p))
  | _ => True
  end.
Proof.
  intros R E. destruct o; try exact Logic.I; intros ->; cbn [step] in E; unfold nolabel, bind, ret in E.
  - destruct (bind_label l s) as [[] s1|] eqn:E1; [|discriminate]. inversion E; subst. apply bind_sets, E1.
  - destruct (bind_label_with_page n l s) as [[] s1|] eqn:E1; [|discriminate]. inversion E; subst. apply bind_page_sets, E1.
Qed.
Lemma label_stays s l s0 ops1 s1 ops2 s2 : reached s -> step OLabel s = Ok (Some l) s0 ->
  forallb api (ops1 ++ ops2) = true -> run ops1 s0 = Some s1 -> run ops2 s1 = Some s2 -> (forall o, In o ops2 -> ~ binds_label o l) ->
  label_addr s2 l = label_addr s1 l.
Proof.
  intros R E0 Ha E1 E2 Hn. pose proof (Inv_reached _ R) as I. unfold label_addr. rewrite (label_stable _ _ _ _ _ _ _ I E0 Ha E1 E2 Hn).
  rewrite forallb_app in Ha. apply andb_true_iff in Ha.
  assert (I0 : Inv s0) by (eapply Inv_step; [exact I|exact (eq_refl : api OLabel = true)|unfold after; rewrite E0; reflexivity]).
  pose proof (Inv_run _ _ _ I0 (proj1 Ha) E1) as I1.
  pose proof (base_run _ _ _ I1 (proj2 Ha) E2) as B. destruct (loc_of s1 l) as [[p x]|]; [|reflexivity]. rewrite (addr_base s1 s2) by exact B. reflexivity.
Qed.
Lemma getters_agree s l : match label_addr s l with
  | Some a => (exists p x, get_label_pos l s = Ok (p, x) s /\ a = addr s p x) /\ get_label_u64 l s = Ok a s /\ get_label_addr l s = Ok a s /\
      get_label_addr2 l s = Ok a s /\ (a <> 0 -> get_label_address l s = Ok a s)
  | None => exists e, get_label_pos l s = Panic e s /\ get_label_u64 l s = Panic e s /\ get_label_addr l s = Panic e s /\
      get_label_addr2 l s = Panic e s /\ get_label_address l s = Panic e s
  end.
Proof.
  pose proof (getters s l) as G. unfold label_addr. destruct (loc_of s l) as [[p x]|]; [|exact G].
  destruct G as (A & B & C & D & E). split; [eauto|auto].
Qed.

(** ** C20-C24 *)
Lemma never_moves s s' : reached s -> after OFinalize s = Some s' ->
  (forall p, counter (pages s p) <= counter (pages s' p)) /\ base s' = base s /\ cur s' = cur s /\
  (forall l p x, loc_of s l = Some (p, x) -> (forall q e, In e (waiting s q) -> snd e <> l) -> loc_of s' l = Some (p, x)).
Proof.
  intros R E. pose proof (Inv_reached _ R) as I. pose proof (step_effect _ _ _ I (eq_refl : api OFinalize = true) E) as Ef.
  split; [intro p; apply (effect_cnt _ _ _ Ef p)|]. split; [apply (effect_base _ _ _ Ef)|].
  apply finalize_after in E. destruct (finalize_spec _ _ I E) as [s1 F]. split; [apply (fn_cur _ _ _ F)|].
  intros l p x Hl Hn. rewrite (fn_loc _ _ _ F). destruct (ex_loc _ _ _ (fn_ext _ _ _ F) l) as [H|[H _]]; [congruence|]. exfalso.
  unfold queue in H. rewrite !map_app, !in_app_iff, !in_map_iff in H.
  destruct H as [(e & <- & He)|[(e & <- & He)|[(e & <- & He)|(e & <- & He)]]];
    [apply (Hn P0 e He)|apply (Hn P1 e He)|apply (Hn P2 e)|apply (Hn P2 e)]; try reflexivity; cbn [waiting]; rewrite in_app_iff; auto.
Qed.
Lemma partition s s1 ops s2 p : reached s -> after OFinalize s = Some s1 -> forallb api ops = true -> no_finalize ops = true -> run ops s1 = Some s2 ->
  blocks 0 (code_block (pages s2 p)) (counter (pages s1 p)).
Proof. intro R. apply blocks_partition, Inv_reached, R. Qed.
Lemma new_block s s' p : reached s -> after OFinalize s = Some s' ->
  exists a, code_block (pages s' p) = code_block (pages s p) ++ [(a, counter (pages s p), counter (pages s' p))].
Proof. intros R E. destruct (finalize_record _ _ p (Inv_reached _ R) E) as (H & _). eauto. Qed.
Lemma slice s s1 ops s2 : reached s -> after OFinalize s = Some s1 -> forallb api ops = true -> no_finalize ops = true -> run ops s1 = Some s2 ->
  as_slice s2 = bytes s2 (cur s2) 0 (Z.to_nat (counter (pages s (cur s2)))) /\ counter (pages s (cur s2)) <= counter (pages s1 (cur s2)).
Proof.
  intros R E Ha Hf Er. pose proof (Inv_reached _ R) as I. split; [eapply as_slice_spec; eauto|].
  apply (effect_cnt _ _ _ (step_effect _ _ _ I (eq_refl : api OFinalize = true) E)).
Qed.
Lemma dumps s0 s1 ops s2 s3 ops' s4 : reached s0 -> after OFinalize s0 = Some s1 -> forallb api ops = true -> no_finalize ops = true -> run ops s1 = Some s2 ->
  after OFinalize s2 = Some s3 -> forallb api ops' = true -> no_finalize ops' = true -> run ops' s3 = Some s4 ->
  dump_slice s4 = Some (bytes s4 (cur s4) (counter (pages s1 (cur s4))) (Z.to_nat (counter (pages s2 (cur s4)) - counter (pages s1 (cur s4))))).
Proof. intro R. apply dump_between, Inv_reached, R. Qed.
Lemma patch_retargets s p d q x a m : reached s -> loc_of s p = Some (q, x) -> x + 5 <= PAGE_SIZE ->
  (byte s q x = 233 /\ m = Jmp) \/ (byte s q x = 232 /\ m = Call) -> label_addr s d = Some a -> 0 < base s ->
  exists s', apply_jmp_patch p d s = Ok tt s' /\
    (exists v, a = addr s q x + 5 + v /\ forall rest, decode (bytes s' q x 5 ++ rest) = Some (mkIns m W64 [ORel v], rest)) /\
    (forall y, ~ (addr s q x + 1 <= y < addr s q x + 5) -> mem s' y = mem s y) /\
    base s' = base s /\ cur s' = cur s /\ pages s' = pages s /\ labels s' = labels s.
Proof. intro R. apply patch_branch, Inv_reached, R. Qed.
Lemma patch_stays s p d q x s' ops s2 : reached s -> loc_of s p = Some (q, x) -> (forall i, x <= i < x + 5 -> settled s q i) ->
  apply_jmp_patch p d s = Ok tt s' -> forallb api ops = true -> run ops s' = Some s2 -> bytes s2 q x 5 = bytes s' q x 5.
Proof. intro R. apply patch_survives, Inv_reached, R. Qed.

(** ** C32, C36 *)
Lemma raw_spec c bs s : cop_bytes c = Some bs -> emits bs (OPage None c) s /\
  exists n v, List.length bs = n /\ unle bs = v mod 256 ^ Z.of_nat n /\ Forall is_byte bs /\
    match c with CEmitb w => n = 1%nat /\ v = w | CEmitw w => n = 2%nat /\ v = w | CEmitl w => n = 4%nat /\ v = w | CEmitq w => n = 8%nat /\ v = w | _ => False end.
Proof.
  intro H. split; [apply cop_emits, H|].
  assert (G : forall n w, bs = le n w -> length bs = n /\ unle bs = w mod 256 ^ Z.of_nat n /\ Forall is_byte bs).
  { intros n w ->. split; [apply le_length|]. split; [apply unle_le|apply le_byte]. }
  assert (K : forall n w, Some (le n w) = Some bs -> length bs = n /\ unle bs = w mod 256 ^ Z.of_nat n /\ Forall is_byte bs) by (intros n w E; apply G; congruence).
  destruct c; cbn [cop_bytes] in H; try discriminate; [apply (K 1%nat v) in H|apply (K 2%nat v) in H|apply (K 4%nat v) in H|apply (K 8%nat v) in H]; destruct H as (A & B & C);
    [exists 1%nat, v|exists 2%nat, v|exists 4%nat, v|exists 8%nat, v]; auto 6.
Qed.
Lemma pointers s a b : reached s -> 0 < base s -> base s + 3 * PAGE_SIZE < 2 ^ 63 -> code_pointer s a -> code_pointer s b ->
  codeptr_sub b a = b - a /\ in_i32 (codeptr_sub b a) = true /\ (a <= b -> codeptr_add a (codeptr_sub b a) = b) /\
  codeptr_compare b a = Z.compare (codeptr_sub b a) 0.
Proof. intro R. apply pointer_arith, Inv_reached, R. Qed.
Lemma datum_placed s d l ops s1 s2 : reached s -> is_datum d = true -> created_then s d l ops s1 s2 ->
  exists x, loc_of s2 l = Some (P2, x) /\ x mod dat_align d = 0 /\ (base s mod 4096 = 0 -> addr s2 P2 x mod dat_align d = 0) /\
    counter (pages s1 P2) <= x /\ x + dat_len d <= counter (pages s2 P2) /\ bytes s2 P2 x (length (dat_bytes d)) = dat_bytes d.
Proof.
  intros R Hd C. destruct (placed _ _ _ _ _ _ R C) as (x & A1 & A2 & A3 & A4 & A5 & A6). unfold dat_page in *. rewrite Hd in *.
  exists x. repeat (split; [assumption|]). apply A6. destruct d; try discriminate; reflexivity.
Qed.
Lemma code_pages_grow s s' p : reached s -> after OFinalize s = Some s' -> p <> P2 ->
  counter (pages s' p) = layout_end (counter (pages s p)) (constants (pages s p)).
Proof. intros R E Hp. destruct (placed_once _ _ p R E) as [-> _]. destruct p; try congruence; reflexivity. Qed.
