(** Sessions within the pages return. *)
From Verif Require Import Base ModelMem ModelEnc ModelSyntax ModelMacro Trace Emit StateFid SpecX86 SpecAsm SpecTaken SpecState SpecHist MemInv MemStep MemFinal MemFill MemHist MemRun MemSafe MemOut MemFacts MemLocal MemPlace MemMisc MemCode MemThm MemMore ProgOne SpecProg ProgBlock BlockTaken SpecScope ScopeFacts ScopeBlock SpecCpu VmFits SpecLimit LimitFacts RoomFacts SpecBudget.
From Coq Require Import Lia ZifyBool ZifyNat.
Local Notation length := List.length.
Local Open Scope list_scope.
Local Open Scope Z_scope.

Lemma entries_app a b : entries (a ++ b) = entries a + entries b.
Proof. induction a as [|e a IH]; cbn [app entries fold_right] in *; [reflexivity|]. unfold entries in *. rewrite IH. lia. Qed.
Lemma layout_le : forall es c, layout_end c es <= c + entries es.
Proof.
  induction es as [|[d l] es IH]; intro c; cbn [layout_end entries fold_right fst]; [lia|]. specialize (IH (SpecHist.next_multiple (entry_align d) c + entry_len d)).
  unfold entries in IH. assert (H : 0 < entry_align d) by (destruct d; cbn; lia).
  assert (SpecHist.next_multiple (entry_align d) c <= c + entry_align d - 1) by (unfold SpecHist.next_multiple; pose proof (Z.mul_div_le (c + entry_align d - 1) (entry_align d) H); lia). lia.
Qed.
Lemma only_self q n : only q q n = n. Proof. unfold only. rewrite pid_eqb_refl. reflexivity. Qed.
Lemma only_other q p n : q <> p -> only q p n = 0. Proof. unfold only. destruct q, p; cbn; congruence. Qed.
Lemma pid_three k : 0 <= k <= 2 -> exists p, pid_of k = Some p.
Proof. intro H. assert (k = 0 \/ k = 1 \/ k = 2) as [-> | [-> | ->]] by lia; cbn; eauto. Qed.

(** The effect of a call. *)
Record fine (o : op) (s s' : jit) : Prop := mkFine {
  fi_used : forall p, used s' p <= used s p + takes (cur s) o p;
  fi_labels : length (labels s') = if makes o then S (length (labels s)) else length (labels s);
  fi_cur : cur s' = selects (cur s) o;
  fi_known : known_targets s'
}.
Lemma queues_waiting s s' : same_queues s s' -> forall p, waiting s' p = waiting s p.
Proof. intros Q p. unfold waiting. destruct p; rewrite ?(proj1 (Q _)), ?(proj2 (Q _)); reflexivity. Qed.
Lemma plain_fine o q s y s' : reached s -> known_targets s -> MemStep.plain o = true -> makes o = false -> step o s = Ok y s' ->
  (forall p, p <> q -> pages s' p = pages s p) -> counter (pages s' q) <= counter (pages s q) + takes (cur s) o q -> (forall p, p <> q -> takes (cur s) o p = 0) ->
  length (labels s') = length (labels s) -> fine o s s'.
Proof.
  intros R K Hp Hm E Ho Hc Ht Hl. pose proof (plain_leaves o s s' (reached_cnt _ R) Hp ltac:(rewrite E; reflexivity)) as G. pose proof (grow_queues _ _ _ G) as Q.
  constructor.
  - intro p. unfold used. rewrite (queues_waiting _ _ Q). destruct (pid_eqb p q) eqn:Ep; [apply pid_eqb_eq in Ep; subst p; lia|].
    assert (p <> q) by (intros ->; rewrite pid_eqb_refl in Ep; discriminate). rewrite Ho, Ht by assumption. lia.
  - rewrite Hm. exact Hl.
  - rewrite (go_cur _ _ _ G). destruct o; try reflexivity. discriminate Hp.
  - intros p l k H. rewrite (proj1 (Q p)) in H. rewrite Hl. eapply K; exact H.
Qed.
Lemma entries_pos es : 0 <= entries es.
Proof. induction es as [|[d l] es IH]; cbn [entries fold_right fst]; [lia|]. unfold entries in IH. destruct d; cbn; lia. Qed.
Lemma used_counter s p : counter (pages s p) <= used s p. Proof. unfold used. pose proof (entries_pos (waiting s p)). lia. Qed.
Lemma cop_fine n k q s : reached s -> known_targets s -> (n = None /\ q = cur s \/ exists j, n = Some j /\ pid_of j = Some q) ->
  used s q + cop_room k <= PAGE_SIZE -> exists s', step (OPage n k) s = Ok None s' /\ fine (OPage n k) s s'.
Proof.
  intros R K Hn Hu.
  assert (Ht : forall p, takes (cur s) (OPage n k) p = only q p (cop_room k)) by (intro p; destruct Hn as [[-> ->]|(j & -> & Hj)]; cbn [takes]; rewrite ?Hj; reflexivity).
  assert (Hd : (exists a, align_of k = Some a) \/ exists bs, cop_bytes k = Some bs) by (destruct k; cbn; eauto).
  destruct Hd as [[a Ha]|[bs Hb]].
  - destruct (align_step k a n q s R Ha Hn) as (s' & E & O & (M1 & M2 & M3) & _). exists s'. split; [exact E|].
    apply (plain_fine (OPage n k) q s None s' R K eq_refl eq_refl E).
    + intros p Hp. apply (oc_others _ _ _ O), Hp.
    + rewrite Ht, only_self. assert (0 < a) by (destruct k; inversion Ha; lia).
      pose proof (M3 ((counter (pages s q) + a - 1) / a * a) (Z_mod_mult _ _)) as M4. pose proof (Z.mul_div_le (counter (pages s q) + a - 1) a ltac:(lia)) as D1.
      pose proof (Z.mul_succ_div_gt (counter (pages s q) + a - 1) a ltac:(lia)) as D2. assert (cop_room k = a - 1) by (destruct k; inversion Ha; reflexivity). lia.
    + intros p Hp. rewrite Ht, only_other by congruence. reflexivity.
    + rewrite (oc_labels _ _ _ O). reflexivity.
  - pose proof (cop_appends k bs q Hb s) as A. assert (Hlen : Z.of_nat (length bs) = cop_room k) by (destruct k; inversion Hb; rewrite ?le_length; reflexivity).
    pose proof (used_counter s q). rewrite Hlen in A. destruct (counter (pages s q) + cop_room k <=? PAGE_SIZE) eqn:El; [|lia]. cbn [orb] in A. destruct A as (s' & E & A).
    assert (Es : step (OPage n k) s = Ok None s').
    { destruct Hn as [[-> ->]|(j & -> & Hj)]; cbn [step]; unfold nolabel, on_cur, on_page, bind, ret; rewrite ?Hj, E; reflexivity. }
    exists s'. split; [exact Es|]. apply (plain_fine (OPage n k) q s None s' R K eq_refl eq_refl Es).
    + apply (adv_others _ _ _ _ A).
    + rewrite (adv_page _ _ _ _ A), Ht, only_self. cbn [counter with_counter]. lia.
    + intros p Hp. rewrite Ht, only_other by congruence. reflexivity.
    + rewrite (adv_labels _ _ _ _ A). reflexivity.
Qed.
Lemma asm_fine ev lenv r body s : reached s -> known_targets s -> sound (length (labels s)) (OAsm ev lenv r body) ->
  used s (cur s) + sum most body <= PAGE_SIZE -> exists s', step (OAsm ev lenv r body) s = Ok None s' /\ fine (OAsm ev lenv r body) s s'.
Proof.
  intros R K (Ty & Hc & Ht & Hl) Hu. pose proof (used_counter s (cur s)) as Hk. pose proof (proj2 (reached_cursor s (cur s) R)) as Hb.
  destruct (proj2 (accepted_room ev lenv r body s Ty Hc ltac:(unfold cursor; lia) ltac:(unfold cursor; lia) Hl) Ht) as [s' E]. exists s'. split; [exact E|].
  assert (Ef : cursor s' <= cursor s + sum most body /\ length (labels s') = length (labels s)).
  { split; [apply (block_takes ev lenv r body s None s' E)|]. destruct (block_after _ _ _ _ _ _ _ E) as (gs & r' & Hg & He).
    destruct (all_room ev lenv body gs r s r' s' Hg He ltac:(unfold cursor; lia)) as (bs & _ & L & _). exact L. }
  pose proof (page_local (OAsm ev lenv r body) (cur s) s R eq_refl) as L. rewrite E in L. cbn [outcome] in L.
  apply (plain_fine (OAsm ev lenv r body) (cur s) s None s' R K eq_refl eq_refl E).
  - intros p Hp. apply (lc_others _ _ _ L), Hp.
  - cbn [takes]. rewrite only_self. unfold cursor in Ef. rewrite (lc_cur _ _ _ L) in Ef. lia.
  - intros p Hp. cbn [takes]. apply only_other. congruence.
  - apply Ef.
Qed.
Lemma emit_fine bs s : reached s -> known_targets s -> Forall is_byte bs -> used s (cur s) + Z.of_nat (length bs) <= PAGE_SIZE ->
  exists s', step (OEmit bs) s = Ok None s' /\ fine (OEmit bs) s s'.
Proof.
  intros R K Hb Hu. pose proof (used_counter s (cur s)). pose proof (proj2 (reached_cnt _ R (cur s))) as Hc.
  destruct (proj1 (bytes_emits bs s Hc Hb) ltac:(unfold cursor; lia)) as (s' & E & G & Hl). exists s'. split; [exact E|].
  pose proof (page_local (OEmit bs) (cur s) s R eq_refl) as L. rewrite E in L. cbn [outcome] in L.
  apply (plain_fine (OEmit bs) (cur s) s None s' R K eq_refl eq_refl E).
  - intros p Hp. apply (lc_others _ _ _ L), Hp.
  - cbn [takes]. rewrite only_self. rewrite (gr_cursor _ _ _ G). unfold cursor. lia.
  - intros p Hp. cbn [takes]. apply only_other. congruence.
  - rewrite Hl. reflexivity.
Qed.
Lemma bind_fine o q l s : reached s -> known_targets s -> (l < length (labels s))%nat -> (o = OBind l /\ q = cur s \/ exists k, o = OBindPage k l /\ pid_of k = Some q) ->
  exists s', step o s = Ok None s' /\ fine o s s'.
Proof.
  intros R K Hl Ho. apply Nat.ltb_lt in Hl.
  assert (E : exists s', step o s = Ok None s' /\ pages s' = pages s /\ length (labels s') = length (labels s)).
  { destruct Ho as [[-> ->]|(k & -> & Hk)]; cbn [step]; unfold nolabel, bind, ret, bind_label, bind_label_with_page, on_page, on_cur, bind_label_on, bind, get_counter, modify_label; rewrite ?Hk, Hl;
    eexists; (split; [reflexivity|]); (split; [reflexivity|]); cbn [labels set_labels]; apply upd_nth_length. }
  destruct E as (s' & E & Ep & El). exists s'. split; [exact E|]. 
  assert (T : forall p, takes (cur s) o p = 0) by (destruct Ho as [[-> _]|(k & -> & _)]; reflexivity).
  apply (plain_fine o q s None s' R K); [destruct Ho as [[-> _]|(k & -> & _)]; reflexivity|destruct Ho as [[-> _]|(k & -> & _)]; reflexivity|exact E| | |auto|exact El]; intros; rewrite ?T, Ep; [reflexivity|lia].
Qed.
Lemma label_fine s : reached s -> known_targets s -> exists s', step OLabel s = Ok (Some (length (labels s))) s' /\ fine OLabel s s'.
Proof.
  intros R K. cbn [step]. unfold bind, ret, new_label. eexists. split; [reflexivity|]. constructor.
  - intro p. cbn [takes]. unfold used, waiting. cbn [pages set_labels]. lia.
  - cbn [makes labels set_labels]. rewrite app_length. cbn [List.length]. lia.
  - reflexivity.
  - intros p l k H. cbn [labels set_labels pages] in *. rewrite app_length. specialize (K p l k H). lia.
Qed.
Lemma select_fine k s : known_targets s -> k = 0 \/ k = 1 -> exists s', step (OSelect k) s = Ok None s' /\ fine (OSelect k) s s'.
Proof.
  intros K [-> | ->]; eexists; (split; [reflexivity|]); (constructor; [intro p; cbn [takes]; unfold used, waiting; cbn [pages set_cur]; lia|reflexivity|reflexivity|exact K]).
Qed.
Lemma dtype_room d : entry_align (dtype_of d) = dat_align d /\ entry_len (dtype_of d) = dat_len d.
Proof. unfold dat_len. destruct d; cbn [dtype_of entry_align entry_len dat_align dat_bytes]; rewrite ?le_length, ?repeat_length; split; try reflexivity; cbn [List.length]; lia. Qed.
Lemma create_fine d s : reached s -> known_targets s -> sound (length (labels s)) (OCreate d) ->
  exists s', step (OCreate d) s = Ok (Some (length (labels s))) s' /\ fine (OCreate d) s s'.
Proof.
  intros R K Hs. cbn [step]. unfold bind, ret. rewrite create_eq. exists (created d s). split; [reflexivity|]. destruct (dtype_room d) as [D1 D2].
  assert (Hc : cur s <> P2) by apply (iv_q _ (Inv_reached _ R)). assert (Hd : is_data d = is_datum d) by (destruct d; reflexivity).
  constructor.
  - intro p. cbn [takes]. unfold used, waiting, created. rewrite Hd. cbn [pages set_page set_labels]. 
    destruct (is_datum d) eqn:Ed; destruct (cur s) eqn:Ec; try congruence; destruct p; cbn [pid_eqb pidx Z.eqb Pos.eqb only counter constants data with_data with_constants]; 
      rewrite ?entries_app; cbn [entries fold_right fst]; rewrite ?D1, ?D2; unfold only; cbn [pid_eqb pidx Z.eqb Pos.eqb]; lia.
  - cbn [makes]. unfold created. cbn [labels set_page set_labels]. rewrite app_length. cbn [List.length]. lia.
  - reflexivity.
  - intros p l k H. unfold created in *. cbn [labels set_page set_labels pages] in *. rewrite app_length. cbn [List.length]. rewrite Hd in H.
    destruct (pid_eqb p (cur s)); [|specialize (K p l k H); lia]. destruct (is_datum d) eqn:Ed; cbn [constants with_data with_constants] in H; [specialize (K p l k H); lia|].
    apply in_app_iff in H. destruct H as [H|[H|[]]]; [specialize (K p l k H); lia|]. destruct d; cbn [dtype_of] in H; try discriminate; cbn [is_datum] in Ed; try discriminate.
    injection H as -> _. cbn [sound] in Hs. lia.
Qed.
Lemma finalize_fine s : reached s -> known_targets s -> (forall p, used s p <= PAGE_SIZE) -> exists s', step OFinalize s = Ok None s' /\ fine OFinalize s s'.
Proof.
  intros R K Hu. destruct (proj2 (finalize_succeeds s R)) as [s' E].
  { split; [|exact K]. unfold room_for_constants. pose proof (fun p => Z.le_trans _ _ _ (layout_le (waiting s p) (counter (pages s p))) (Hu p)) as H.
    split; [apply (H P0)|]. split; [apply (H P1)|apply (H P2)]. }
  assert (Es : step OFinalize s = Ok None s').
  { unfold after in E. destruct (step OFinalize s) as [y t|e t] eqn:Es.
    - injection E as ->. f_equal. cbn [step] in Es. unfold nolabel, bind, ret in Es. destruct (finalize s); [injection Es as <- _; reflexivity|discriminate].
    - discriminate E. }
  exists s'. split; [exact Es|]. pose proof (fun p => placed_once s s' p R E) as P.
  destruct (finalize_spec s s' (Inv_reached _ R) (finalize_after _ _ E)) as [s1 F]. constructor.
  - intro p. cbn [takes]. destruct (P p) as [P1 P2]. unfold used at 1. rewrite P1, P2. cbn [entries fold_right]. pose proof (layout_le (waiting s p) (counter (pages s p))). unfold used. lia.
  - cbn [makes]. apply (fn_len _ _ _ F).
  - apply (fn_cur _ _ _ F).
  - intros p l k H. exfalso. destruct p; [pose proof (proj2 (P P0)) as W|pose proof (proj2 (P P1)) as W|]; [cbn [waiting] in W; rewrite W in H; contradiction|cbn [waiting] in W; rewrite W in H; contradiction|].
    assert (R' : reached s') by (apply (reached_api OFinalize s s' R eq_refl E)). rewrite (proj1 (qi_data _ (iv_q _ (Inv_reached _ R')))) in H. contradiction.
Qed.
Lemma step_fine o s : reached s -> known_targets s -> sound (length (labels s)) o -> (forall p, used s p + takes (cur s) o p <= PAGE_SIZE) ->
  exists s', step o s = Ok (if makes o then Some (length (labels s)) else None) s' /\ fine o s s'.
Proof.
  intros R K Hs Hu. destruct o; cbn [makes]; try contradiction.
  - destruct n as [n|].
    + destruct (pid_three n Hs) as [q Hq]. apply (cop_fine (Some n) c q s R K); [right; eauto|]. specialize (Hu q). cbn [takes] in Hu. rewrite Hq, only_self in Hu. exact Hu.
    + apply (cop_fine None c (cur s) s R K); [left; auto|]. specialize (Hu (cur s)). cbn [takes] in Hu. rewrite only_self in Hu. exact Hu.
  - apply emit_fine; auto. specialize (Hu (cur s)). cbn [takes] in Hu. rewrite only_self in Hu. exact Hu.
  - apply asm_fine; auto. specialize (Hu (cur s)). cbn [takes] in Hu. rewrite only_self in Hu. exact Hu.
  - apply select_fine; auto.
  - apply label_fine; auto.
  - apply (bind_fine (OBind l) (cur s) l s R K Hs). left. auto.
  - destruct Hs as [Hn Hl]. destruct (pid_three n Hn) as [q Hq]. apply (bind_fine (OBindPage n l) q l s R K Hl). right. eauto.
  - apply create_fine; auto.
  - apply finalize_fine; auto. intro p. specialize (Hu p). cbn [takes] in Hu. lia.
Qed.
Lemma sound_api n o : sound n o -> api o = true. Proof. destruct o; cbn; try reflexivity; contradiction. Qed.
Theorem session : forall ops s room, reached s -> known_targets s -> (forall p, 0 <= room p /\ used s p + room p <= PAGE_SIZE) -> within room (length (labels s)) (cur s) ops ->
  exists s', returns ops s = Some (numbered (length (labels s)) ops, s') /\ run ops s = Some s' /\ known_targets s' /\ forall p, used s' p <= used s p + room p.
Proof.
  induction ops as [|o ops IH]; intros s room R K Hu Hw.
  - exists s. split; [reflexivity|]. split; [reflexivity|]. split; [exact K|]. intro p. specialize (Hu p). lia.
  - destruct Hw as (Hs & Ht & Hw). destruct (step_fine o s R K Hs) as (s1 & E & F); [intro p; specialize (Hu p); specialize (Ht p); lia|].
    assert (A : after o s = Some s1) by (unfold after; rewrite E; reflexivity).
    destruct (IH s1 (fun p => room p - takes (cur s) o p)) as (s' & E' & E2 & K2 & H2).
    + apply (reached_api o s s1 R (sound_api _ _ Hs) A).
    + apply (fi_known _ _ _ F).
    + intro p. cbv beta. pose proof (fi_used _ _ _ F p). specialize (Hu p). specialize (Ht p). lia.
    + rewrite (fi_labels _ _ _ F), (fi_cur _ _ _ F). exact Hw.
    + exists s'. cbn [returns numbered run]. rewrite E, E', A, (fi_labels _ _ _ F). split; [destruct (makes o); reflexivity|]. split; [exact E2|]. split; [exact K2|].
      intro p. specialize (H2 p). cbv beta in H2. pose proof (fi_used _ _ _ F p). lia.
Qed.
Lemma session_new b junk ops : within (fun _ => PAGE_SIZE) 0 P0 ops -> exists s, returns ops (jit_new b junk) = Some (numbered 0 ops, s) /\ run ops (jit_new b junk) = Some s.
Proof.
  intro H. destruct (session ops (jit_new b junk) (fun _ => PAGE_SIZE) (reached_new b junk)) as (s & E1 & E2 & _).
  - intros p l k [].
  - intro p. unfold used, waiting. destruct p; cbn; unfold PAGE_SIZE; lia.
  - exact H.
  - exists s. split; [exact E1|exact E2].
Qed.
Lemma within_bytes v : forall n room, (forall p, 0 <= room p) -> Z.of_nat n <= room P0 -> within room 0 P0 (repeat (OPage None (CEmitb v)) n).
Proof.
  induction n as [|n IH]; intros room H0 H; cbn [repeat within]; [exact I|]. split; [exact I|]. split.
  - intro p. specialize (H0 p). destruct p; cbn [takes only pid_eqb pidx Z.eqb Pos.eqb cop_room]; lia.
  - cbn [makes selects]. apply IH; [intro p; specialize (H0 p); destruct p|]; cbn [takes only pid_eqb pidx Z.eqb Pos.eqb cop_room]; lia.
Qed.
Lemma returns_bytes v : forall n s a t, returns (repeat (OPage None (CEmitb v)) n) s = Some (a, t) -> cur t = cur s /\ cursor t = cursor s + Z.of_nat n.
Proof.
  induction n as [|n IH]; intros s a t E; cbn [repeat returns] in E; [injection E as _ ->; split; [reflexivity|lia]|].
  destruct (step (OPage None (CEmitb v)) s) as [y s1|e s1] eqn:Es; [|discriminate E]. destruct (returns (repeat (OPage None (CEmitb v)) n) s1) as [[ys t1]|] eqn:Er; [|discriminate E].
  injection E as _ ->. destruct (IH _ _ _ Er) as [C1 C2]. pose proof (cop_appends (CEmitb v) _ (cur s) eq_refl s) as A.
  cbn [step] in Es. unfold nolabel, on_cur, bind, ret in Es. destruct (_ || _) in A; [|destruct A as (s2 & A & _); rewrite A in Es; discriminate].
  destruct A as (s2 & A & D). rewrite A in Es. injection Es as _ <-. rewrite C1, C2, (adv_cur _ _ _ _ D). split; [reflexivity|].
  unfold cursor. rewrite (adv_cur _ _ _ _ D), (adv_page _ _ _ _ D). rewrite le_length. cbn [counter with_counter]. lia.
Qed.
Lemma session_tight b junk : let ops := repeat (OPage None (CEmitb 144)) (Z.to_nat PAGE_SIZE) in
  within (fun _ => PAGE_SIZE) 0 P0 ops /\ exists s, returns ops (jit_new b junk) = Some (numbered 0 ops, s) /\ (exists t, step (OPage None (CEmitb 144)) s = Panic PageOverflow t).
Proof.
  assert (Hn : Z.of_nat (Z.to_nat PAGE_SIZE) = PAGE_SIZE) by (apply Z2Nat.id; unfold PAGE_SIZE; lia). revert Hn. generalize (Z.to_nat PAGE_SIZE). intros n Hn ops.
  assert (W : within (fun _ => PAGE_SIZE) 0 P0 ops) by (apply within_bytes; [intros _; unfold PAGE_SIZE|]; lia).
  split; [exact W|]. destruct (session_new b junk ops W) as (s & E & _). exists s. split; [exact E|].
  destruct (returns_bytes _ _ _ _ _ E) as [_ C]. change (cursor (jit_new b junk)) with 0 in C.
  pose proof (cop_appends (CEmitb 144) _ (cur s) eq_refl s) as A. fold (cursor s) in A. rewrite C in A.
  replace (0 + Z.of_nat n + Z.of_nat (length (le 1 144)) <=? PAGE_SIZE) with false in A by (symmetry; rewrite le_length; lia).
  cbn [le List.length Nat.eqb orb] in A. destruct A as (t & A & _). exists t. cbn [step]. unfold nolabel, on_cur, bind, ret. rewrite A. reflexivity.
Qed.
