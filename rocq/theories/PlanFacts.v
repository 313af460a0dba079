(** Lemmas behind C78: a session goes as planned. *)
From Coq Require Import Lia ZifyBool ZifyNat.
From Verif Require Import Base ModelMem ModelEnc ModelSyntax ModelMacro Trace Emit StateFid SpecX86 SpecAsm SpecTaken SpecState SpecHist EncFacts MemInv MemStep MemFinal MemFill MemHist MemRun MemSafe MemOut MemFacts MemLocal MemPlace MemMisc MemCode MemThm MemMore ProgOne SpecProg ProgBlock BlockTaken SpecGas GasFacts SpecTwo TwoFacts SpecLimit LimitFacts RoomFacts SpecBudget BudgetFacts SpecPlan.
Local Notation length := List.length.
Local Open Scope list_scope.
Local Open Scope Z_scope.

(** ** Blocks *)
Lemma stmt_exact ev lenv r0 r i g s : same_but_imm r0 r -> plain ev r0 i -> rip_labels (eval ev r0) i -> compile i = Some g -> cursor s <= PAGE_SIZE ->
  (forall x, In x (inst_labels i) \/ i = ILabel x -> (lenv x < length (labels s))%nat) ->
  match stmt_code (eval ev r0) (fun _ => 0) i with
  | Some bs => if cursor s + Z.of_nat (length bs) <=? PAGE_SIZE
      then exists r' s1, exec ev lenv r g s = Ok r' s1 /\ cursor s1 = cursor s + Z.of_nat (length bs) /\ cursor s1 <= PAGE_SIZE /\ length (labels s1) = length (labels s) /\ same_but_imm r0 r'
      else exists s1, exec ev lenv r g s = Panic PageOverflow s1
  | None => exists e s1, exec ev lenv r g s = Panic e s1
  end.
Proof.
  intros Hs Hp Hl Hc Hk Hn. assert (H0 : cursor (emptied s) <= PAGE_SIZE) by (vm_compute; discriminate).
  destruct (exec ev lenv r g (emptied s)) as [r' s1|e s1] eqn:E.
  - destruct (stmt_gas _ _ _ _ _ _ _ _ _ Hs Hp Hl Hc E H0) as (bs & B & G).
    assert (C : stmt_code (eval ev r0) (fun _ => 0) i = Some bs).
    { destruct (is_instr i) eqn:Hi; [|destruct i; try discriminate Hi; cbn [stmt_bytes] in B; subst bs; reflexivity].
      assert (X : exists x, denote (eval ev r0) (fun _ => 0) i = Some x /\ as_gas (count_written (eval ev r0) i x) bs) by (destruct i; try discriminate Hi; exact B).
      destruct X as (x & D & A). exact (code_instr _ _ _ _ _ Hi D A). }
    rewrite C. destruct (stmt_room ev lenv i g r (emptied s) r' s1 Hc E H0) as (bs' & G' & _ & K). specialize (K s Hk (le_n _)).
    assert (L : Z.of_nat (length bs') = Z.of_nat (length bs)) by (pose proof (gr_cursor _ _ _ G); pose proof (gr_cursor _ _ _ G'); lia). rewrite L in K.
    destruct (cursor s + Z.of_nat (length bs) <=? PAGE_SIZE); [|exact K]. destruct K as (t1 & E1 & G1 & L1). destruct (grows_cursor _ _ _ G1) as [C1 C2].
    exists r', t1. split; [exact E1|]. split; [lia|]. split; [exact C2|]. split; [exact L1|]. exact (env_same _ _ _ _ _ _ _ _ _ Hs Hc E).
  - assert (He : e <> PageOverflow).
    { intros ->. pose proof (stmt_takes ev lenv i g r (emptied s) Hc) as T. rewrite E in T. specialize (T eq_refl).
      assert (most i <= 12) by (unfold most; destruct i; cbn [fixed]; try lia; destruct d; lia). change (cursor (emptied s)) with 0 in T. unfold PAGE_SIZE in T. lia. }
    assert (C : stmt_code (eval ev r0) (fun _ => 0) i = None).
    { pose proof (plain_regular _ _ _ Hp) as Hg. destruct (is_instr i) eqn:Hi.
      - pose proof (regular_vals ev r0 r Hs i Hg) as V. pose proof Hp as [_ K]. destruct (K Hi) as (Hw & _ & Hq & _).
        assert (Ho : ordinary ev r i) by (split; [exact Hi|]; split; [exact (wf_same _ _ _ _ V Hw)|]; split; [exact (regular_free ev r0 r Hs i Hg)|exact (regular_u8 ev r0 r Hs i Hg Hi)]).
        pose proof (total_main ev lenv r i g (emptied s) Ho Hq Hc ltac:(vm_compute; discriminate) (fun x Hx => Hn x (or_introl Hx))) as T.
        rewrite (denote_ext (eval ev r0) (eval ev r) (fun _ => 0) (fun _ => 0) i V) in T by (intros ? _; reflexivity).
        destruct (denote (eval ev r0) (fun _ => 0) i) as [x|] eqn:D; [destruct T as (r' & s' & bs & T & _); congruence|].
        destruct i; try discriminate Hi; cbn [stmt_code]; rewrite D; reflexivity.
      - exfalso. destruct (stmt_goes ev lenv r0 r i g (emptied s) Hs Hg Hc ltac:(vm_compute; discriminate) Hn ltac:(intro; congruence)) as (r' & s' & T). congruence. }
    rewrite C. destruct (stmt_reject ev lenv i g r (emptied s) e s1 s Hc E He eq_refl) as (e' & t1 & Et & _). eauto.
Qed.
Lemma all_exact ev lenv r0 : forall body r gs s, same_but_imm r0 r -> Forall (plain ev r0) body -> Forall (rip_labels (eval ev r0)) body -> compile_all body = Some gs -> cursor s <= PAGE_SIZE ->
  (forall x, In x (body_labels body) \/ In x (defined body) -> (lenv x < length (labels s))%nat) ->
  match block_size (eval ev r0) body with
  | Some n => 0 <= n /\ if cursor s + n <=? PAGE_SIZE then exists r' s1, exec_all ev lenv r gs s = Ok r' s1 /\ cursor s1 = cursor s + n /\ length (labels s1) = length (labels s)
      else exists e s1, exec_all ev lenv r gs s = Panic e s1
  | None => exists e s1, exec_all ev lenv r gs s = Panic e s1
  end.
Proof.
  induction body as [|i body IH]; intros r gs s Hs Hp Hl Hc Hk Hn.
  - cbn [compile_all] in Hc. injection Hc as <-. cbn [block_size]. split; [lia|]. destruct (cursor s + 0 <=? PAGE_SIZE) eqn:E; [|lia]. exists r, s. split; [reflexivity|]. split; [lia|reflexivity].
  - destruct (compile_all_cons _ _ _ Hc) as (g & gs' & Hg & Hc' & ->). inversion Hp as [|? ? Hp1 Hp2]; subst. inversion Hl as [|? ? Hl1 Hl2]; subst.
    assert (Hn1 : forall x, In x (inst_labels i) \/ i = ILabel x -> (lenv x < length (labels s))%nat).
    { intros x Hx. apply Hn. unfold body_labels, defined. cbn [flat_map]. rewrite !in_app_iff. destruct Hx as [Hx| ->]; [auto|]. right. left. left. reflexivity. }
    assert (Hn2 : forall x, In x (body_labels body) \/ In x (defined body) -> (lenv x < length (labels s))%nat).
    { intros x Hx. apply Hn. unfold body_labels, defined in *. cbn [flat_map]. rewrite !in_app_iff. tauto. }
    pose proof (stmt_exact ev lenv r0 r i g s Hs Hp1 Hl1 Hg Hk Hn1) as A. cbn [block_size exec_all]. unfold bind.
    destruct (stmt_code (eval ev r0) (fun _ => 0) i) as [bs|]; [|destruct A as (e & s1 & ->); eauto].
    destruct (cursor s + Z.of_nat (length bs) <=? PAGE_SIZE) eqn:E1.
    + destruct A as (r2 & s2 & -> & C2 & K2 & L2 & S2). specialize (IH r2 gs' s2 S2 Hp2 Hl2 Hc' K2 ltac:(rewrite L2; exact Hn2)).
      destruct (block_size (eval ev r0) body) as [n|]; [|exact IH]. destruct IH as [N IH]. split; [lia|]. rewrite C2, <- Z.add_assoc in IH.
      destruct (cursor s + (Z.of_nat (length bs) + n) <=? PAGE_SIZE); [|exact IH]. destruct IH as (r' & s1 & E & C & L). exists r', s1. split; [exact E|]. split; [lia|congruence].
    + destruct A as (s1 & ->). assert (N : match block_size (eval ev r0) body with Some n => 0 <= n | None => True end).
      { clear. induction body as [|j b IH]; cbn [block_size]; [lia|]. destruct (stmt_code _ _ j); [|exact I]. destruct (block_size _ b); [lia|exact I]. }
      destruct (block_size (eval ev r0) body) as [n|]; [|eauto]. split; [lia|]. destruct (cursor s + (Z.of_nat (length bs) + n) <=? PAGE_SIZE) eqn:E2; [lia|eauto].
Qed.

(** ** Calls *)
Record agrees (x : plan) (s : jit) : Prop := mkAgrees {
  ag_ends : forall p, ends x p = counter (pages s p);
  ag_kept : forall p, kept x p = map dims (constants (pages s p));
  ag_held : forall p, held x p = map dims (data (pages s p));
  ag_chosen : chosen x = cur s
}.
Definition goes_as (o : op) (x : plan) (s : jit) : Prop :=
  match next o x with
  | Some y => exists s', step o s = Ok (if makes o then Some (length (labels s)) else None) s' /\ agrees y s' /\ known_targets s' /\
      length (labels s') = if makes o then S (length (labels s)) else length (labels s)
  | None => exists e s', step o s = Panic e s'
  end.
Lemma placed_end : forall es c, placed c (map dims es) = layout_end c es.
Proof. induction es as [|[d l] es IH]; intro c; [reflexivity|]. cbn [map dims fst placed layout_end]. apply IH. Qed.
Lemma plain_as o p c x s s' : reached s -> known_targets s -> agrees x s -> MemStep.plain o = true -> makes o = false -> step o s = Ok None s' ->
  (forall q, q <> p -> pages s' q = pages s q) -> counter (pages s' p) = c -> length (labels s') = length (labels s) -> selects (cur s) o = cur s ->
  agrees (mkPlan (fun q => if pid_eqb q p then c else ends x q) (kept x) (held x) (chosen x)) s' /\ known_targets s' /\ length (labels s') = length (labels s).
Proof.
  intros R K A Hp Hm E Ho Hc Hl Hsel. pose proof (plain_leaves o s s' (reached_cnt _ R) Hp ltac:(rewrite E; reflexivity)) as G. pose proof (grow_queues _ _ _ G) as Q. destruct A as [A1 A2 A3 A4].
  split; [|split; [|exact Hl]].
  - constructor; cbn [ends kept held chosen].
    + intro q. destruct (pid_eqb q p) eqn:Eq; [apply pid_eqb_eq in Eq; subst q; auto|]. rewrite A1, Ho; [reflexivity|]. intros ->. rewrite pid_eqb_refl in Eq. discriminate.
    + intro q. rewrite A2, (proj1 (Q q)). reflexivity.
    + intro q. rewrite A3, (proj2 (Q q)). reflexivity.
    + rewrite A4. symmetry. apply (go_cur _ _ _ G).
  - intros q l k H. rewrite (proj1 (Q q)) in H. rewrite Hl. eapply K; exact H.
Qed.
Lemma next_mult a c d : 0 < a -> MemMore.next_multiple a c d -> d = SpecHist.next_multiple a c.
Proof.
  intros Ha (M1 & M2 & M3). unfold SpecHist.next_multiple. pose proof (M3 ((c + a - 1) / a * a) (Z_mod_mult _ _)) as M4.
  pose proof (Z.mul_div_le (c + a - 1) a Ha). pose proof (Z.mul_succ_div_gt (c + a - 1) a Ha).
  apply Z.mod_divide in M1; [|lia]. destruct M1 as [k ->]. assert (k * a <= (c + a - 1) / a * a) by lia. assert ((c + a - 1) / a < k + 1) by (apply Z.div_lt_upper_bound; lia). nia.
Qed.
Lemma next_fits a c : (a = 4 \/ a = 8 \/ a = 16 \/ a = 4096) -> c <= PAGE_SIZE -> SpecHist.next_multiple a c <= PAGE_SIZE.
Proof.
  intros Ha Hc. assert (0 < a) by lia. unfold SpecHist.next_multiple. assert (exists k, PAGE_SIZE = k * a) as [k Hk] by (destruct Ha as [->|[->|[->| ->]]]; [exists 67108864|exists 33554432|exists 16777216|exists 65536]; reflexivity).
  rewrite Hk in *. assert ((c + a - 1) / a < k + 1) by (apply Z.div_lt_upper_bound; lia). nia.
Qed.
Lemma cop_as n k q x s : reached s -> known_targets s -> agrees x s -> (n = None /\ q = cur s \/ exists j, n = Some j /\ pid_of j = Some q) -> goes_as (OPage n k) x s.
Proof.
  intros R K A Hn. unfold goes_as. pose proof (reached_cursor s q R) as Hc.
  assert (N : next (OPage n k) x = up_to q (cop_end k (counter (pages s q))) x).
  { cbn [next]. rewrite <- (ag_ends _ _ A). destruct Hn as [[-> ->]|(j & -> & ->)]; [rewrite (ag_chosen _ _ A)|]; reflexivity. }
  rewrite N. unfold up_to. cbn [makes].
  assert (Hd : (exists a, align_of k = Some a) \/ exists bs, cop_bytes k = Some bs) by (destruct k; cbn; eauto).
  destruct Hd as [[a Ha]|[bs Hb]].
  - destruct (align_step k a n q s R Ha Hn) as (s' & E & O & M & _). assert (Pa : a = 4 \/ a = 8 \/ a = 16 \/ a = 4096) by (destruct k; inversion Ha; auto).
    assert (Ce : cop_end k (counter (pages s q)) = SpecHist.next_multiple a (counter (pages s q))) by (destruct k; inversion Ha; reflexivity).
    rewrite Ce. pose proof (next_fits a _ Pa (proj2 Hc)) as F. destruct (_ <=? _) eqn:El; [|lia]. exists s'. split; [exact E|].
    apply (plain_as (OPage n k) q _ x s s' R K A eq_refl eq_refl E); [intros p Hp; apply (oc_others _ _ _ O), Hp|apply next_mult; [lia|exact M]|rewrite (oc_labels _ _ _ O); reflexivity|reflexivity].
  - pose proof (cop_appends k bs q Hb s) as Ap. assert (Ce : cop_end k (counter (pages s q)) = counter (pages s q) + Z.of_nat (length bs)) by (destruct k; inversion Hb; rewrite ?le_length; reflexivity).
    assert (Hz : (length bs =? 0)%nat = false) by (destruct k; inversion Hb; reflexivity). rewrite Hz, orb_false_r in Ap. rewrite Ce. destruct (_ <=? _).
    + destruct Ap as (s' & E & Ap).
      assert (Es : step (OPage n k) s = Ok None s') by (destruct Hn as [[-> ->]|(j & -> & Hj)]; cbn [step]; unfold nolabel, on_cur, on_page, bind, ret; rewrite ?Hj, E; reflexivity).
      exists s'. split; [exact Es|]. apply (plain_as (OPage n k) q _ x s s' R K A eq_refl eq_refl Es); [apply (adv_others _ _ _ _ Ap)|rewrite (adv_page _ _ _ _ Ap); reflexivity|rewrite (adv_labels _ _ _ _ Ap); reflexivity|reflexivity].
    + destruct Ap as (s' & E & _). exists PageOverflow, s'. destruct Hn as [[-> ->]|(j & -> & Hj)]; cbn [step]; unfold nolabel, on_cur, on_page, bind, ret; rewrite ?Hj, E; reflexivity.
Qed.
Lemma emit_as bs x s : reached s -> known_targets s -> agrees x s -> Forall is_byte bs -> goes_as (OEmit bs) x s.
Proof.
  intros R K A Hb. unfold goes_as. cbn [next makes]. rewrite (ag_chosen _ _ A), (ag_ends _ _ A). pose proof (proj2 (reached_cursor s (cur s) R)) as Hc. destruct (bytes_emits bs s Hc Hb) as [B1 B2].
  unfold up_to. fold (cursor s). destruct (_ <=? _) eqn:El.
  - destruct (B1 ltac:(lia)) as (s' & E & G & Hl). exists s'. split; [exact E|]. pose proof (page_local (OEmit bs) (cur s) s R eq_refl) as L. rewrite E in L. cbn [outcome] in L.
    apply (plain_as (OEmit bs) (cur s) _ x s s' R K A eq_refl eq_refl E); [intros p Hp; apply (lc_others _ _ _ L), Hp|apply (gr_cursor _ _ _ G)|rewrite Hl; reflexivity|reflexivity].
  - destruct (B2 ltac:(lia)) as (s' & E). eauto.
Qed.
Lemma asm_as ev lenv r body x s : reached s -> known_targets s -> agrees x s -> sensible (length (labels s)) (OAsm ev lenv r body) -> goes_as (OAsm ev lenv r body) x s.
Proof.
  intros R K A (Hp & Hl & Hc & Hn). unfold goes_as. cbn [next makes]. destruct (compile_all body) as [gs|] eqn:C; [|congruence]. pose proof (proj2 (reached_cursor s (cur s) R)) as Hk.
  pose proof (all_exact ev lenv r body r gs s (same_refl r) Hp Hl C Hk Hn) as B. rewrite (ag_chosen _ _ A), (ag_ends _ _ A). fold (cursor s).
  assert (P : (exists e s1, exec_all ev lenv r gs s = Panic e s1) -> exists e s', step (OAsm ev lenv r body) s = Panic e s').
  { intros (e & s1 & E). exists e, s1. cbn [step]. rewrite C. unfold bind. rewrite E. reflexivity. }
  destruct (block_size (eval ev r) body) as [n|]; [|exact (P B)]. destruct B as [_ B]. unfold up_to. destruct (cursor s + n <=? PAGE_SIZE); [|exact (P B)].
  destruct B as (r' & s' & E & Cc & Ll). assert (Es : step (OAsm ev lenv r body) s = Ok None s') by (cbn [step]; rewrite C; unfold bind, ret; rewrite E; reflexivity).
  exists s'. split; [exact Es|]. pose proof (page_local (OAsm ev lenv r body) (cur s) s R eq_refl) as L. rewrite Es in L. cbn [outcome] in L.
  apply (plain_as (OAsm ev lenv r body) (cur s) _ x s s' R K A eq_refl eq_refl Es); [intros p Hq; apply (lc_others _ _ _ L), Hq| |exact Ll|reflexivity].
  rewrite <- Cc. unfold cursor. rewrite (lc_cur _ _ _ L). reflexivity.
Qed.
Lemma still_as o x s s' : agrees x s -> next o x = Some x -> makes o = false -> step o s = Ok None s' -> pages s' = pages s -> cur s' = cur s -> length (labels s') = length (labels s) -> known_targets s -> goes_as o x s.
Proof.
  intros A N M E Ep Ec El K. unfold goes_as. rewrite N, M. exists s'. split; [exact E|]. split; [|split; [|exact El]].
  - destruct A as [A1 A2 A3 A4]. constructor; rewrite ?Ep; auto. congruence.
  - intros p l k H. rewrite Ep in H. rewrite El. eapply K; exact H.
Qed.
Lemma bind_as o l x s : agrees x s -> known_targets s -> (l < length (labels s))%nat -> (o = OBind l \/ exists k q, o = OBindPage k l /\ pid_of k = Some q) -> goes_as o x s.
Proof.
  intros A K Hl Ho. apply Nat.ltb_lt in Hl.
  assert (E : exists s', step o s = Ok None s' /\ pages s' = pages s /\ cur s' = cur s /\ length (labels s') = length (labels s)).
  { destruct Ho as [->|(k & q & -> & Hk)]; cbn [step]; unfold nolabel, bind, ret, bind_label, bind_label_with_page, on_page, on_cur, bind_label_on, bind, get_counter, modify_label; rewrite ?Hk, Hl;
    eexists; (split; [reflexivity|]); (split; [reflexivity|]); (split; [reflexivity|]); cbn [labels set_labels]; apply upd_nth_length. }
  destruct E as (s' & E & Ep & Ec & El). apply (still_as o x s s' A); auto; destruct Ho as [->|(k & q & -> & Hk)]; reflexivity.
Qed.
Lemma label_as x s : agrees x s -> known_targets s -> goes_as OLabel x s.
Proof.
  intros A K. unfold goes_as. cbn [next makes step]. unfold bind, ret, new_label. eexists. split; [reflexivity|]. split; [|split].
  - destruct A as [A1 A2 A3 A4]. constructor; auto.
  - intros p l k H. cbn [labels set_labels pages] in *. rewrite app_length. specialize (K p l k H). lia.
  - cbn [labels set_labels]. rewrite app_length. cbn [List.length]. lia.
Qed.
Lemma select_as k x s : agrees x s -> known_targets s -> k = 0 \/ k = 1 -> goes_as (OSelect k) x s.
Proof.
  intros A K [-> | ->]; unfold goes_as; cbn [next makes step]; (eexists; split; [reflexivity|]; split; [destruct A as [A1 A2 A3 A4]; constructor; auto|split; [exact K|reflexivity]]).
Qed.
Lemma create_as d x s : reached s -> agrees x s -> known_targets s -> sound (length (labels s)) (OCreate d) -> goes_as (OCreate d) x s.
Proof.
  intros R A K Hs. unfold goes_as. destruct (create_fine d s R K Hs) as (s' & E & F). assert (Ec : s' = created d s).
  { cbn [step] in E. unfold bind, ret in E. rewrite create_eq in E. injection E as <-. reflexivity. }
  subst s'. assert (N : exists y, next (OCreate d) x = Some y) by (cbn [next]; eauto). destruct N as [y N]. rewrite N. cbn [makes]. exists (created d s). split; [exact E|]. split; [|split; [exact (fi_known _ _ _ F)|exact (fi_labels _ _ _ F)]].
  cbn [next] in N. injection N as <-. destruct (dtype_room d) as [D1 D2]. assert (Hd : is_data d = is_datum d) by (destruct d; reflexivity). destruct A as [A1 A2 A3 A4].
  unfold created. rewrite Hd. destruct (is_datum d); constructor; cbn [ends kept held chosen]; rewrite ?A4; try reflexivity; intro p; cbn [pages set_page set_labels]; destruct (pid_eqb p (cur s)) eqn:Ep; rewrite ?A1, ?A2, ?A3;
    cbn [counter constants data with_data with_constants]; rewrite ?map_app; cbn [map dims fst]; unfold dims; cbn [fst]; rewrite ?D1, ?D2; try reflexivity.
Qed.
Lemma finalize_as x s : reached s -> agrees x s -> known_targets s -> goes_as OFinalize x s.
Proof.
  intros R A K. unfold goes_as. cbn [next makes].
  assert (Pe : forall p, placed (ends x p) (match p with P2 => held x P0 ++ held x P1 | _ => kept x p end) = layout_end (counter (pages s p)) (waiting s p)).
  { intro p. rewrite (ag_ends _ _ A). destruct p; cbn [waiting]; rewrite ?(ag_kept _ _ A), ?(ag_held _ _ A), <- ?map_app; apply placed_end. }
  pose proof (Pe P0) as E0. pose proof (Pe P1) as E1. pose proof (Pe P2) as E2. cbv beta iota in E0, E1, E2. rewrite E0, E1, E2. cbn [waiting].
  pose proof (finalize_succeeds s R) as S. unfold room_for_constants in S. destruct (_ && _) eqn:Eb.
  - destruct (proj2 S ltac:(split; [lia|exact K])) as [s' E].
    assert (Es : step OFinalize s = Ok None s').
    { unfold after in E. destruct (step OFinalize s) as [y t|e t] eqn:Es; [|discriminate E]. injection E as ->. f_equal. cbn [step] in Es. unfold nolabel, bind, ret in Es. destruct (finalize s); [injection Es as <- _; reflexivity|discriminate]. }
    exists s'. split; [exact Es|]. pose proof (fun p => placed_once s s' p R E) as P. destruct (finalize_spec s s' (Inv_reached _ R) (finalize_after _ _ E)) as [s1 F].
    assert (R' : reached s') by (apply (reached_api OFinalize s s' R eq_refl E)). pose proof (qi_data _ (iv_q _ (Inv_reached _ R'))) as QD.
    pose proof (proj2 (P P0)) as W0. pose proof (proj2 (P P1)) as W1. pose proof (proj2 (P P2)) as W2. cbn [waiting] in W0, W1, W2. apply app_eq_nil in W2. destruct W2 as [W2 W3].
    split; [|split].
    + constructor; cbn [ends kept held chosen].
      * intro p. rewrite (proj1 (P p)). apply Pe.
      * intros []; [rewrite W0|rewrite W1|rewrite (proj1 QD)]; reflexivity.
      * intros []; [rewrite W2|rewrite W3|rewrite (proj2 QD)]; reflexivity.
      * rewrite (ag_chosen _ _ A). symmetry. apply (fn_cur _ _ _ F).
    + intros p l k H. exfalso. destruct p; [rewrite W0 in H|rewrite W1 in H|rewrite (proj1 QD) in H]; contradiction.
    + apply (fn_len _ _ _ F).
  - destruct (step OFinalize s) as [y s'|e s'] eqn:Es; [|eauto]. exfalso. destruct (proj1 S ltac:(exists s'; unfold after; rewrite Es; reflexivity)) as [Q _]. lia.
Qed.
Lemma step_as o x s : reached s -> known_targets s -> agrees x s -> sensible (length (labels s)) o -> goes_as o x s.
Proof.
  intros R K A Hs. destruct o; try contradiction.
  - destruct n as [n|]; [destruct (pid_three n Hs) as [q Hq]; apply (cop_as (Some n) c q x s R K A); right; eauto|apply (cop_as None c (cur s) x s R K A); left; auto].
  - apply emit_as; auto.
  - apply asm_as; auto.
  - apply select_as; auto.
  - apply label_as; auto.
  - apply (bind_as (OBind l) l x s A K Hs). left. reflexivity.
  - destruct Hs as [Hn Hl]. destruct (pid_three n Hn) as [q Hq]. apply (bind_as (OBindPage n l) l x s A K Hl). right. eauto.
  - apply create_as; auto.
  - apply finalize_as; auto.
Qed.
Lemma sensible_api n o : sensible n o -> api o = true. Proof. destruct o; cbn; try reflexivity; contradiction. Qed.
Lemma session_as : forall ops x s, reached s -> known_targets s -> agrees x s -> all_sensible (length (labels s)) ops ->
  match planned ops x with
  | Some y => exists s', returns ops s = Some (numbered (length (labels s)) ops, s') /\ run ops s = Some s' /\ agrees y s'
  | None => returns ops s = None
  end.
Proof.
  induction ops as [|o ops IH]; intros x s R K A H; cbn [planned returns numbered run].
  - exists s. auto.
  - destruct H as [Hs H]. pose proof (step_as o x s R K A Hs) as G. unfold goes_as in G. destruct (next o x) as [y|]; [|destruct G as (e & s' & ->); reflexivity].
    destruct G as (s1 & E & A1 & K1 & L1). assert (Af : after o s = Some s1) by (unfold after; rewrite E; reflexivity). rewrite E, Af.
    specialize (IH y s1 (reached_api o s s1 R (sensible_api _ _ Hs) Af) K1 A1). rewrite L1 in IH. specialize (IH H).
    destruct (planned ops y) as [z|]; [|rewrite IH; reflexivity]. destruct IH as (s' & E' & E2 & A2). exists s'. rewrite E'. split; [destruct (makes o); reflexivity|]. auto.
Qed.
Lemma session_planned b junk ops : all_sensible 0 ops ->
  match planned ops blank with
  | Some x => exists s, returns ops (jit_new b junk) = Some (numbered 0 ops, s) /\ run ops (jit_new b junk) = Some s /\ forall p, counter (pages s p) = ends x p
  | None => returns ops (jit_new b junk) = None
  end.
Proof.
  intro H. assert (A : agrees blank (jit_new b junk)) by (constructor; [intros []; reflexivity|intros []; reflexivity|intros []; reflexivity|reflexivity]).
  assert (K : known_targets (jit_new b junk)) by (intros p l k []). pose proof (session_as ops blank (jit_new b junk) (reached_new b junk) K A H) as S.
  destruct (planned ops blank) as [x|]; [|exact S]. destruct S as (s & E & E2 & A2). exists s. split; [exact E|]. split; [exact E2|]. intro p. symmetry. apply (ag_ends _ _ A2).
Qed.
Lemma plan_agrees s : agrees (plan_of s) s. Proof. constructor; reflexivity. Qed.
Lemma session_on ops s : reached s -> known_targets s -> all_sensible (length (labels s)) ops ->
  match planned ops (plan_of s) with
  | Some x => exists s', returns ops s = Some (numbered (length (labels s)) ops, s') /\ run ops s = Some s' /\ (forall p, counter (pages s' p) = ends x p) /\ cur s' = chosen x
  | None => returns ops s = None
  end.
Proof.
  intros R K H. pose proof (session_as ops (plan_of s) s R K (plan_agrees s) H) as S. destruct (planned ops (plan_of s)) as [x|]; [|exact S].
  destruct S as (s' & E & E2 & A2). exists s'. split; [exact E|]. split; [exact E2|]. split; [intro p; symmetry; apply (ag_ends _ _ A2)|symmetry; apply (ag_chosen _ _ A2)].
Qed.
(** The call at which a session stops. *)
Lemma session_stops : forall a o b x s, reached s -> known_targets s -> agrees x s -> all_sensible (length (labels s)) (a ++ o :: b) ->
  forall y, planned a x = Some y -> next o y = None -> exists s' e t, run a s = Some s' /\ step o s' = Panic e t.
Proof.
  induction a as [|p a IH]; intros o b x s R K A H y Hp Hn; cbn [app all_sensible planned run] in *.
  - injection Hp as <-. destruct H as [H _]. pose proof (step_as o x s R K A H) as G. unfold goes_as in G. rewrite Hn in G. destruct G as (e & t & G). eauto.
  - destruct H as [Hs H]. pose proof (step_as p x s R K A Hs) as G. unfold goes_as in G. destruct (next p x) as [z|]; [|discriminate].
    destruct G as (s1 & E & A1 & K1 & L1). assert (Af : after p s = Some s1) by (unfold after; rewrite E; reflexivity). rewrite Af.
    apply (IH o b z s1 (reached_api p s s1 R (sensible_api _ _ Hs) Af) K1 A1) with (y := y); [rewrite L1; exact H|exact Hp|exact Hn].
Qed.
Lemma session_stops_on a o b s x : reached s -> known_targets s -> all_sensible (length (labels s)) (a ++ o :: b) -> planned a (plan_of s) = Some x -> next o x = None ->
  exists s' e t, run a s = Some s' /\ step o s' = Panic e t.
Proof. intros R K H P N. exact (session_stops a o b (plan_of s) s R K (plan_agrees s) H x P N). Qed.
