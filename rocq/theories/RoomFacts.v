(** Lemmas behind C77: the room a block needs does not depend on where it is assembled. *)
From Coq Require Import Lia ZifyBool.
From Verif Require Import Base ModelMem ModelEnc ModelSyntax ModelMacro SpecX86 SpecAsm SpecTaken SpecState SpecHist Trace Emit StateFid EncFacts SpecProg ProgBlock BlockTaken SpecScope ScopeFacts ScopeBlock GasFacts SpecLimit LimitFacts.
Local Notation length := List.length.
Local Open Scope list_scope.
Local Open Scope Z_scope.

Lemma grows_cursor s s' bs : grows s s' bs -> cursor s' = cursor s + Z.of_nat (length bs) /\ cursor s' <= PAGE_SIZE.
Proof. intro G. unfold cursor at 1 3. rewrite (gr_cur _ _ _ G). split; [exact (gr_cursor _ _ _ G)|exact (gr_room _ _ _ G)]. Qed.
(** One trace in two states. *)
Lemma trace_room tr s s1 : run_trace tr s = Ok tt s1 -> cursor s <= PAGE_SIZE ->
  grows s s1 (flat zeros (fst tr)) /\ length (labels s1) = length (labels s) /\ forall t, cursor t <= PAGE_SIZE -> (length (labels s) <= length (labels t))%nat ->
  if cursor t + Z.of_nat (length (flat zeros (fst tr))) <=? PAGE_SIZE then exists t1, run_trace tr t = Ok tt t1 /\ grows t t1 (flat zeros (fst tr)) /\ length (labels t1) = length (labels t)
  else exists t1, run_trace tr t = Panic PageOverflow t1.
Proof.
  intros E Hs. destruct (run_trace_ok tr s s1 E) as (Hn & Em & Hr & Hl).
  assert (G : forall u u1, emitted (fst tr) u u1 -> cursor u <= PAGE_SIZE -> counter (pages u (cur u)) + items_len (fst tr) <= PAGE_SIZE \/ fst tr = [] ->
    grows u u1 (flat zeros (fst tr)) /\ length (labels u1) = length (labels u)).
  { intros u u1 A Hu Hc. split; [|rewrite (em_labels _ _ _ A); apply add_refs_length]. apply emitted_grows; [exact A|]. destruct Hc as [Hc|Hc]; [exact Hc|]. rewrite Hc. unfold items_len. cbn [fold_right]. unfold cursor in Hu. lia. }
  destruct (G s s1 Em Hs Hr) as [G1 G2]. split; [exact G1|]. split; [exact G2|]. intros t Ht Hlt. rewrite flat_len.
  destruct (run_trace_cases tr t) as [(t1 & -> & _ & A & Hc)|(e & t1 & -> & _ & C)].
  - destruct (G t t1 A Ht Hc) as [G3 G4]. destruct (_ <=? _) eqn:El; [eauto|]. exfalso. unfold cursor in *. destruct Hc as [Hc|Hc]; [unfold tlen in Hc; lia|]. rewrite Hc in El. unfold items_len in El. cbn [fold_right] in El. lia.
  - destruct C as [[-> C]|[[-> C]|[C _]]].
    + destruct (_ <=? _) eqn:El; [exfalso; unfold cursor, tlen in *; lia|eauto].
    + exfalso. apply C. eapply Forall_impl; [|exact Hl]. intros it. unfold item_label_ok. destruct it; auto. lia.
    + congruence.
Qed.
Lemma stmt_room ev lenv i g r s r' s1 : compile i = Some g -> exec ev lenv r g s = Ok r' s1 -> cursor s <= PAGE_SIZE ->
  exists bs, grows s s1 bs /\ length (labels s1) = length (labels s) /\ forall t, cursor t <= PAGE_SIZE -> (length (labels s) <= length (labels t))%nat ->
  if cursor t + Z.of_nat (length bs) <=? PAGE_SIZE then exists t1, exec ev lenv r g t = Ok r' t1 /\ grows t t1 bs /\ length (labels t1) = length (labels t)
  else exists t1, exec ev lenv r g t = Panic PageOverflow t1.
Proof.
  intros Hc He Hs. assert (D : (exists x, i = ILabel x) \/ match i with ILabel _ => False | _ => True end) by (destruct i; eauto). destruct D as [[x ->]|D].
  - exists []. cbn [compile] in Hc. injection Hc as <-.
    assert (B : forall u, exec ev lenv r (g1 (GBindLabel x)) u = if (lenv x <? length (labels u))%nat then Ok r (set_labels (upd_nth (lenv x) (with_loc (Some (cur u, cursor u))) (labels u)) u) else Panic IndexOOB u).
    { intro u. unfold g1, exec, run_call, bind_label, on_cur, bind_label_on, bind, get_counter, modify_label, ret. destruct (_ <? _)%nat; reflexivity. }
    assert (G : forall u ls, cursor u <= PAGE_SIZE -> grows u (set_labels ls u) []) by (intros u ls Hu; apply grows_nil; auto).
    rewrite B in He. destruct (_ <? _)%nat eqn:El; [|discriminate]. injection He as <- <-. split; [apply G, Hs|]. split; [cbn [labels set_labels]; apply upd_nth_length|].
    intros t Ht Hlt. cbn [List.length Z.of_nat]. destruct (_ <=? _) eqn:Ef; [|lia]. rewrite B. assert ((lenv x <? length (labels t))%nat = true) as -> by (apply Nat.ltb_lt; apply Nat.ltb_lt in El; lia).
    eexists. split; [reflexivity|]. split; [apply G, Ht|]. cbn [labels set_labels]. apply upd_nth_length.
  - destruct (compile_has_trace ev lenv i g r Hc D) as [tr Htr]. rewrite (exec_run _ _ _ _ _ s Htr) in He. destruct (run_trace tr s) as [[] s2|e s2] eqn:E; [|discriminate]. injection He as <- <-.
    destruct (trace_room tr s s2 E Hs) as (G & L & K). exists (flat zeros (fst tr)). split; [exact G|]. split; [exact L|]. intros t Ht Hlt. specialize (K t Ht Hlt). rewrite (exec_run _ _ _ _ _ t Htr).
    destruct (_ <=? _).
    + destruct K as (t1 & -> & K). eauto.
    + destruct K as (t1 & ->). eauto.
Qed.
Lemma all_room ev lenv : forall body gs r s r' s1, compile_all body = Some gs -> exec_all ev lenv r gs s = Ok r' s1 -> cursor s <= PAGE_SIZE ->
  exists bs, grows s s1 bs /\ length (labels s1) = length (labels s) /\ forall t, cursor t <= PAGE_SIZE -> (length (labels s) <= length (labels t))%nat ->
  if cursor t + Z.of_nat (length bs) <=? PAGE_SIZE then exists t1, exec_all ev lenv r gs t = Ok r' t1 /\ grows t t1 bs /\ length (labels t1) = length (labels t)
  else exists t1, exec_all ev lenv r gs t = Panic PageOverflow t1.
Proof.
  induction body as [|i body IH]; intros gs r s r' s1 Hc He Hs.
  - cbn [compile_all] in Hc. injection Hc as <-. cbn in He. injection He as <- <-. exists []. split; [apply grows_nil; auto|]. split; [reflexivity|]. intros t Ht _. cbn [List.length Z.of_nat exec_all].
    destruct (_ <=? _) eqn:E; [|lia]. exists t. split; [reflexivity|]. split; [apply grows_nil; auto|reflexivity].
  - destruct (compile_all_cons _ _ _ Hc) as (g & gs' & Hg & Hc' & ->). destruct (exec_all_cons _ _ _ _ _ _ _ _ He) as (r2 & s2 & He1 & He2).
    destruct (stmt_room ev lenv i g r s r2 s2 Hg He1 Hs) as (b1 & G1 & L1 & K1). destruct (grows_cursor _ _ _ G1) as [C1 C1'].
    destruct (IH gs' r2 s2 r' s1 Hc' He2 C1') as (b2 & G2 & L2 & K2). destruct (grows_cursor _ _ _ G2) as [C2 C2']. exists (b1 ++ b2). split; [exact (grows_app _ _ _ _ _ G1 G2)|]. split; [congruence|].
    intros t Ht Hlt. specialize (K1 t Ht Hlt). rewrite app_length, Nat2Z.inj_add. cbn [exec_all]. unfold bind. destruct (cursor t + Z.of_nat (length b1) <=? PAGE_SIZE) eqn:E1.
    + destruct K1 as (t2 & -> & H1 & M1). destruct (grows_cursor _ _ _ H1) as [D1 D1']. specialize (K2 t2 D1' ltac:(lia)).
      replace (cursor t + (Z.of_nat (length b1) + Z.of_nat (length b2)) <=? PAGE_SIZE) with (cursor t2 + Z.of_nat (length b2) <=? PAGE_SIZE) by (rewrite D1; f_equal; lia).
      revert K2. destruct (cursor t2 + Z.of_nat (length b2) <=? PAGE_SIZE); intro K2.
      * destruct K2 as (t1 & -> & H2 & M2). exists t1. split; [reflexivity|]. split; [exact (grows_app _ _ _ _ _ H1 H2)|congruence].
      * exact K2.
    + destruct K1 as (t1 & ->). destruct (cursor t + (Z.of_nat (length b1) + Z.of_nat (length b2)) <=? PAGE_SIZE) eqn:E2; [lia|eauto].
Qed.
Lemma block_room ev lenv r body s o s' : step (OAsm ev lenv r body) s = Ok o s' -> cursor s <= PAGE_SIZE ->
  exists bs, grows s s' bs /\ forall t, cursor t <= PAGE_SIZE -> (length (labels s) <= length (labels t))%nat ->
  (cursor t + Z.of_nat (length bs) <= PAGE_SIZE -> exists t', step (OAsm ev lenv r body) t = Ok o t' /\ grows t t' bs) /\
  (PAGE_SIZE < cursor t + Z.of_nat (length bs) -> exists t', step (OAsm ev lenv r body) t = Panic PageOverflow t').
Proof.
  intros E Hs. cbn [step] in *. destruct (compile_all body) as [gs|] eqn:Hc; [|discriminate]. unfold bind, ret in *. destruct (exec_all ev lenv r gs s) as [r1 s1|] eqn:He; [|discriminate]. injection E as <- <-.
  destruct (all_room ev lenv body gs r s r1 s1 Hc He Hs) as (bs & G & _ & K). exists bs. split; [exact G|]. intros t Ht Hlt. specialize (K t Ht Hlt). destruct (_ <=? _) eqn:El.
  - destruct K as (t1 & -> & K & _). split; [eauto|lia].
  - destruct K as (t1 & ->). split; [lia|eauto].
Qed.
(** Rejected elsewhere. *)
Lemma trace_reject tr s e s1 t : run_trace tr s = Panic e s1 -> e <> PageOverflow -> length (labels s) = length (labels t) ->
  exists e' t1, run_trace tr t = Panic e' t1 /\ (e' = e \/ e' = PageOverflow).
Proof.
  intros E He Hl. revert E. unfold run_trace, bind, fail, ret.
  destruct (emit_items_spec (fst tr) s) as [(s2 & -> & _ & _ & Hs)|(e2 & s2 & -> & _ & H)]; destruct (emit_items_spec (fst tr) t) as [(t2 & -> & _ & _ & Ht)|(e3 & t2 & -> & _ & K)].
  - destruct (snd tr) as [e0|]; [|discriminate]. intro E. injection E as -> _. eauto.
  - intros _. destruct K as [[-> _]|[_ K]]; [eauto|]. exfalso. apply K. rewrite <- Hl. exact Hs.
  - intro E. injection E as -> _. destruct H as [[H _]|[_ H]]; [congruence|]. exfalso. apply H. rewrite Hl. exact Ht.
  - intro E. injection E as -> _. destruct H as [[H _]|[-> _]]; [congruence|]. destruct K as [[-> _]|[-> _]]; eauto.
Qed.
Lemma stmt_reject ev lenv i g r s e s1 t : compile i = Some g -> exec ev lenv r g s = Panic e s1 -> e <> PageOverflow -> length (labels s) = length (labels t) ->
  exists e' t1, exec ev lenv r g t = Panic e' t1 /\ (e' = e \/ e' = PageOverflow).
Proof.
  intros Hc He Hn Hl. assert (D : (exists x, i = ILabel x) \/ match i with ILabel _ => False | _ => True end) by (destruct i; eauto). destruct D as [[x ->]|D].
  - cbn [compile] in Hc. injection Hc as <-. revert He. unfold g1, exec, run_call, bind_label, on_cur, bind_label_on, bind, get_counter, modify_label, ret. rewrite Hl.
    destruct (_ <? _)%nat; [discriminate|]. intro E. injection E as <- _. eauto.
  - destruct (compile_has_trace ev lenv i g r Hc D) as [tr Htr]. rewrite (exec_run _ _ _ _ _ s Htr) in He. rewrite (exec_run _ _ _ _ _ t Htr).
    destruct (run_trace tr s) as [[] s2|e2 s2] eqn:E; [discriminate|]. injection He as -> <-. destruct (trace_reject tr s e s2 t E Hn Hl) as (e' & t1 & -> & H). eauto.
Qed.
Lemma all_reject ev lenv : forall body gs r s e s1 t, compile_all body = Some gs -> exec_all ev lenv r gs s = Panic e s1 -> e <> PageOverflow -> length (labels s) = length (labels t) ->
  cursor s <= PAGE_SIZE -> cursor t <= PAGE_SIZE -> exists e' t1, exec_all ev lenv r gs t = Panic e' t1 /\ (e' = e \/ e' = PageOverflow).
Proof.
  induction body as [|i body IH]; intros gs r s e s1 t Hc He Hn Hl Hs Ht.
  - cbn [compile_all] in Hc. injection Hc as <-. discriminate He.
  - revert Hc. cbn [compile_all]. destruct (compile i) as [g|] eqn:Hg; [|discriminate]. destruct (compile_all body) as [gs'|] eqn:Hc'; [|discriminate]. intro Hc. injection Hc as <-.
    revert He. cbn [exec_all]. unfold bind. destruct (exec ev lenv r g s) as [r2 s2|e2 s2] eqn:E.
    + intro He. destruct (stmt_room ev lenv i g r s r2 s2 Hg E Hs) as (b1 & G1 & L1 & K1). specialize (K1 t Ht ltac:(lia)). destruct (_ <=? _).
      * destruct K1 as (t2 & -> & H1 & M1). apply (IH gs' r2 s2 e s1 t2 eq_refl He Hn); [congruence|apply (grows_cursor _ _ _ G1)|apply (grows_cursor _ _ _ H1)].
      * destruct K1 as (t2 & ->). eauto.
    + intro He. injection He as -> _. destruct (stmt_reject ev lenv i g r s e s2 t Hg E Hn Hl) as (e' & t1 & -> & H). eauto.
Qed.
Lemma block_reject ev lenv r body s e s' t : step (OAsm ev lenv r body) s = Panic e s' -> e <> PageOverflow -> cursor s <= PAGE_SIZE -> cursor t <= PAGE_SIZE -> length (labels s) = length (labels t) ->
  exists e' t', step (OAsm ev lenv r body) t = Panic e' t' /\ (e' = e \/ e' = PageOverflow /\ PAGE_SIZE < cursor t + sum most body).
Proof.
  intros E Hn Hs Ht Hl. pose proof (block_overflow ev lenv r body t) as V. cbn [step] in *. destruct (compile_all body) as [gs|] eqn:Hc; [|injection E as <- _; eauto]. unfold bind, ret in *.
  destruct (exec_all ev lenv r gs s) as [r1 s1|e1 s1] eqn:He; [discriminate|]. injection E as -> _.
  destruct (all_reject ev lenv body gs r s e s1 t Hc He Hn Hl Hs Ht) as (e' & t1 & Et & H). rewrite Et in *. exists e', t1. split; [reflexivity|]. destruct H as [H|H]; [auto|]. right. split; [exact H|]. subst e'. exact (V t1 eq_refl).
Qed.

(** ** Acceptance with the room of C76 *)
Definition emptied (s : jit) : jit := mkJit (base s) (mem s) (cur s) (fun _ => page_new) (labels s).
Lemma stmt_goes_room ev lenv r0 r i g s : same_but_imm r0 r -> regular ev r0 i -> compile i = Some g -> cursor s <= PAGE_SIZE -> cursor s + most i <= PAGE_SIZE ->
  (forall x, In x (inst_labels i) \/ i = ILabel x -> (lenv x < length (labels s))%nat) -> taken_as_ins (eval ev r0) i ->
  exists r' s1, exec ev lenv r g s = Ok r' s1 /\ length (labels s1) = length (labels s) /\ cursor s1 <= cursor s + most i /\ cursor s1 <= PAGE_SIZE.
Proof.
  intros Hs Hp Hc Hk Hr Hl Ht. destruct (stmt_goes ev lenv r0 r i g (emptied s) Hs Hp Hc ltac:(vm_compute; discriminate) Hl Ht) as (r' & s1 & E).
  destruct (stmt_room ev lenv i g r (emptied s) r' s1 Hc E ltac:(vm_compute; discriminate)) as (bs & G & _ & K). specialize (K s Hk (le_n _)).
  pose proof (stmt_bounds ev lenv r i g (emptied s) r' s1 Hc E) as B. destruct (grows_cursor _ _ _ G) as [C _]. destruct (_ <=? _) eqn:El; [|lia].
  destruct K as (t1 & E1 & G1 & L1). destruct (grows_cursor _ _ _ G1) as [C1 C2]. exists r', t1. split; [exact E1|]. split; [exact L1|]. lia.
Qed.
Lemma all_go_room ev lenv r0 : forall body r gs s, same_but_imm r0 r -> Forall (regular ev r0) body -> compile_all body = Some gs -> cursor s <= PAGE_SIZE ->
  cursor s + sum most body <= PAGE_SIZE -> (forall x, In x (body_labels body) \/ In x (defined body) -> (lenv x < length (labels s))%nat) -> Forall (taken_as_ins (eval ev r0)) body ->
  exists r' s1, exec_all ev lenv r gs s = Ok r' s1 /\ length (labels s1) = length (labels s).
Proof.
  induction body as [|i body IH]; intros r gs s Hs Hp Hc Hk Hr Hl Ht.
  - cbn [compile_all] in Hc. injection Hc as <-. cbn. unfold ret. eauto.
  - destruct (compile_all_cons _ _ _ Hc) as (g & gs' & Hg & Hc' & ->). inversion Hp as [|? ? Hi Hp']; subst. inversion Ht as [|? ? Ti Ht']; subst.
    pose proof (sum_nonneg body) as N. change (sum most (i :: body)) with (most i + sum most body) in Hr.
    destruct (stmt_goes_room ev lenv r0 r i g s Hs Hi Hg Hk ltac:(lia)) as (r2 & s2 & E & L & C & C').
    + intros x Hx. apply Hl. unfold body_labels, defined. cbn [flat_map]. rewrite !in_app_iff. destruct Hx as [Hx| ->]; [auto|]. right. left. left. reflexivity.
    + exact Ti.
    + destruct (IH r2 gs' s2 (env_same _ _ _ _ _ _ _ _ _ Hs Hg E) Hp' Hc' C' ltac:(lia)) as (r' & s1 & E' & L').
      * intros x Hx. rewrite L. apply Hl. unfold body_labels, defined in *. cbn [flat_map]. rewrite !in_app_iff. tauto.
      * exact Ht'.
      * exists r', s1. cbn [exec_all]. unfold bind. rewrite E. split; [exact E'|congruence].
Qed.
Lemma frozen_most ev : forall body r, sum most (frozen ev r body) = sum most body.
Proof.
  induction body as [|i b IH]; intro r; cbn [frozen sum fold_right]; [reflexivity|]. unfold sum in IH. rewrite IH. f_equal. unfold frozen1. destruct i; try reflexivity; destruct d; reflexivity.
Qed.
Lemma accepted_room ev lenv r body s : typed ev r body -> compile_all body <> None -> cursor s <= PAGE_SIZE -> cursor s + sum most body <= PAGE_SIZE ->
  (forall x, In x (body_labels body) \/ In x (defined body) -> (lenv x < length (labels s))%nat) ->
  ((exists s1, step (OAsm ev lenv r body) s = Ok None s1) <-> Forall (taken_as_ins (eval ev r)) (frozen ev r body)).
Proof.
  intros T C Hk Hr Hl. rewrite (block_frozen ev ev lenv r r body s). pose proof (compile_all_fz ev body r) as K. destruct (compile_all body); [|contradiction].
  destruct (compile_all (frozen ev r body)) as [gs|] eqn:E; [|contradiction]. pose proof (frozen_regular ev ev r body r T) as Hp. split.
  - intros [s1 Es]. destruct (block_after _ _ _ _ _ _ _ Es) as (gs' & r' & Hc' & He). rewrite E in Hc'. injection Hc' as <-. eapply all_accepted; eauto using same_refl.
  - intro Ht. destruct (all_go_room ev lenv r (frozen ev r body) r gs s (same_refl r) Hp E Hk) as (r' & s1 & He & _); [rewrite frozen_most; exact Hr|rewrite frozen_labels, frozen_defined; exact Hl|exact Ht|].
    exists s1. cbn [step]. rewrite E. unfold bind, ret. rewrite He. reflexivity.
Qed.
