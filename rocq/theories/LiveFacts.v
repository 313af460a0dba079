(** Facts about one block of a program that lives: its jumps, its references, its bytes. *)
From Verif Require Import Base ModelMem ModelEnc ModelSyntax ModelMacro SpecX86 SpecAsm SpecTaken SpecState SpecHist
  Trace Emit StateFid EncFacts MemInv MemStep MemFinal MemHist MemRun MemMisc MemFacts MemPlace ProgOne SpecProg ProgBlock ProgExec BlockTaken SpecMachine SpecCpu MachRun SpecScope ScopeFacts ScopeBlock SpecMulti MultiPlace SpecLive.
Local Notation length := List.length.
Local Open Scope list_scope.
Local Open Scope Z_scope.

(** ** Jumps and calls *)
Definition jump_op (i : inst) : option Z := match i with IJmp (DestRel _) => Some 233 | ICall (DestRel _) => Some 232 | _ => None end.
Lemma jump_items ev lenv r i op g s r' s1 : jump_op i = Some op -> compile i = Some g -> exec ev lenv r g s = Ok r' s1 ->
  exists bw l, emitted [IB op; IRel bw l 4] s s1.
Proof.
  intros Hj Hc He.
  destruct (compile_has_trace ev lenv i g r Hc ltac:(destruct i; try discriminate Hj; exact Logic.I)) as [t Ht].
  rewrite (exec_run _ _ _ _ _ s Ht) in He. destruct (run_trace t s) as [[] s2|] eqn:Et; [|discriminate]. inversion He; subst r' s2; clear He.
  destruct (Emit.run_trace_ok _ _ _ Et) as (_ & Em).
  destruct i; try discriminate Hj; destruct d; try discriminate Hj; cbn in Hj, Hc; inversion Hj; inversion Hc; subst; clear Hj Hc.
  - cbn in Ht. inversion Ht; subst t. cbn in Em. eauto.
  - cbn in Ht. inversion Ht; subst t. cbn in Em. eauto.
Qed.
Lemma jump_laid ev lenv r i op g s r' s1 ops s4 : reached s -> reached s1 -> jump_op i = Some op -> compile i = Some g -> exec ev lenv r g s = Ok r' s1 ->
  forallb api ops = true -> run ops s1 = Some s4 -> cursor s1 = cursor s + 5 /\ byte s4 (cur s) (cursor s) = op.
Proof.
  intros R R1 Hj Hc He Ha E. destruct (jump_items _ _ _ _ _ _ _ _ _ Hj Hc He) as (bw & l & Em).
  assert (C1 : counter (pages s1 (cur s)) = counter (pages s (cur s)) + 5) by (rewrite (em_page _ _ _ Em); reflexivity).
  split; [unfold cursor; rewrite (em_cur _ _ _ Em); exact C1|].
  pose proof (ri_cnt _ (iv_r _ (Inv_reached _ R)) (cur s)) as Hcnt. unfold cnt in Hcnt.
  assert (St : settled s1 (cur s) (cursor s)).
  { split; [unfold cursor; rewrite C1; lia|]. intros (l' & t & Ht & Hf & Hb). unfold cursor in Hb. unfold refs in Ht. rewrite (em_labels _ _ _ Em), add_refs_nth in Ht.
    destruct (nth_error (labels s) l') as [inf|] eqn:El; cbn [option_map] in Ht; [|elim Ht]. cbn [targets] in Ht. apply in_app_or in Ht. destruct Ht as [Ht|Ht].
    - assert (Hin : In t (refs s l')) by (unfold refs; rewrite El; exact Ht). apply In_nth_error in Hin. destruct Hin as [k Hk].
      destruct (ri_ref _ (iv_r _ (Inv_reached _ R)) _ _ _ Hk) as (H1 & H2 & _). rewrite Hf in *. unfold cnt in *. lia.
    - cbn [field_refs item_len app] in Ht. destruct (l =? l')%nat; [|elim Ht]. destruct Ht as [<-|[]]. cbn [fpos flen] in Hb. lia. }
  destruct (settled_run ops s1 s4 (cur s) (cursor s) (Inv_reached _ R1) Ha E St) as [_ ->].
  assert (B' : mem s1 (addr s (cur s) (cursor s)) = u8 op).
  { rewrite (em_mem _ _ _ Em). unfold cursor. cbn [flat flat_map item_bytes app]. pose proof (read_wr_sub (mem s) (addr s (cur s) (counter (pages s (cur s)))) [] [u8 op] (le 4 (zeros l))) as B.
    cbn [app length read] in B. injection B as B. rewrite Z.add_0_r in B. exact B. }
  unfold byte. replace (addr s1 (cur s) (cursor s)) with (addr s (cur s) (cursor s)) by (unfold addr, contents; rewrite (em_base _ _ _ Em); reflexivity).
  rewrite B'. destruct i; try discriminate Hj; destruct d; try discriminate Hj; inversion Hj; reflexivity.
Qed.

(** ** The references of a block *)
Lemma emitted_refs its s s1 l t : emitted its s s1 -> In t (refs s1 l) -> In t (refs s l) \/ In l (rel_labels its).
Proof.
  intros Em Ht. unfold refs in *. rewrite (em_labels _ _ _ Em), add_refs_nth in Ht. destruct (nth_error (labels s) l) as [inf|]; cbn [option_map targets] in Ht; [|elim Ht].
  apply in_app_or in Ht. destruct Ht as [Ht|Ht]; [left; exact Ht|right]. destruct (field_refs_split _ _ _ _ _ Ht) as (pre & bw & off & post & -> & _). apply rel_labels_in.
Qed.
Lemma label_refs ev lenv r x g s r' s1 l : compile (ILabel x) = Some g -> exec ev lenv r g s = Ok r' s1 -> refs s1 l = refs s l.
Proof.
  intros Hc He. cbn [compile] in Hc. inversion Hc; subst. cbn in He. unfold bind, ret in He. destruct (bind_label (lenv x) s) as [[] s2|] eqn:E; [|discriminate]. inversion He; subst.
  unfold bind_label, on_cur, bind_label_on, bind, get_counter, modify_label in E. destruct (lenv x <? length (labels s))%nat eqn:El; [|discriminate].
  inversion E; subst. unfold refs. cbn [labels set_labels]. rewrite upd_nth_nth. destruct (Nat.eqb_spec l (lenv x)) as [->|]; [|reflexivity].
  destruct (nth_error (labels s) (lenv x)) as [inf|]; reflexivity.
Qed.
Lemma block_refs ev lenv r0 : forall body r gs s r' s1, same_but_imm r0 r -> Forall (regular ev r0) body -> compile_all body = Some gs -> exec_all ev lenv r gs s = Ok r' s1 ->
  forall l t, In t (refs s1 l) -> In t (refs s l) \/ In l (map lenv (body_labels body)).
Proof.
  induction body as [|i body IH]; intros r gs s r' s1 Hs Hp Hc He l t Ht.
  - cbn [compile_all] in Hc. inversion Hc; subst. cbn in He. inversion He; subst. left. exact Ht.
  - destruct (compile_all_cons _ _ _ Hc) as (g & gs' & Hg & Hc' & ->). destruct (exec_all_cons _ _ _ _ _ _ _ _ He) as (r2 & s2 & He1 & He2).
    inversion Hp as [|? ? Hi Hp']; subst. unfold body_labels. cbn [flat_map]. rewrite map_app, in_app_iff.
    destruct (IH r2 gs' s2 r' s1 (env_same _ _ _ _ _ _ _ _ _ Hs Hg He1) Hp' Hc' He2 l t Ht) as [H|H]; [|tauto].
    assert (D : not_label i -> In t (refs s l) \/ In l (map lenv (inst_labels i))).
    { intro Hn. destruct (stmt_items _ _ _ _ _ _ _ _ _ Hs Hi Hn Hg He1) as (its & Em & _ & _ & _ & Hls & _). rewrite <- Hls. apply (emitted_refs its s s2); assumption. }
    assert (D' : In t (refs s l) \/ In l (map lenv (inst_labels i))); [|tauto].
    destruct i; try (apply D; exact Logic.I). left. rewrite <- (label_refs _ _ _ _ _ _ _ _ l Hg He1). exact H.
Qed.

(** ** Where a block is, with its jumps *)
Lemma block_laid ev lenv r0 target ops s4 : forallb api ops = true -> forall body r gs s r' s1, reached s -> same_but_imm r0 r -> Forall (regular ev r0) body ->
  compile_all body = Some gs -> exec_all ev lenv r gs s = Ok r' s1 -> run ops s1 = Some s4 ->
  (forall x, In x (body_labels body) -> linked ops s1 (lenv x) = Some (target x)) ->
  exists marks, listing (as_linked (eval ev r0)) target s4 (cur s) marks body /\ hd_error marks = Some (cursor s) /\ last marks 0 = cursor s1 /\ cur s1 = cur s /\
    (forall k x m, nth_error body k = Some (ILabel x) -> nth_error marks k = Some m ->
       (forall j y, (k < j)%nat -> nth_error body j = Some (ILabel y) -> lenv y <> lenv x) -> fixed_label s (lenv x) -> loc_of s1 (lenv x) = Some (cur s, m)) /\
    (forall k i op m, nth_error body k = Some i -> jump_op i = Some op -> nth_error marks k = Some m -> nth_error marks (S k) = Some (m + 5) /\ byte s4 (cur s) m = op).
Proof.
  intros Ha. induction body as [|i body IH]; intros r gs s r' s1 R Hs Hp Hc He E HL.
  - cbn [compile_all] in Hc. inversion Hc; subst. cbn in He. inversion He; subst. exists [cursor s1]. split; [split; [reflexivity|]|].
    + intros [|k]; discriminate.
    + split; [reflexivity|]. split; [reflexivity|]. split; [reflexivity|]. split; intros [|k]; discriminate.
  - destruct (compile_all_cons _ _ _ Hc) as (g & gs' & Hg & Hc' & ->). destruct (exec_all_cons _ _ _ _ _ _ _ _ He) as (r2 & s2 & He1 & He2).
    inversion Hp as [|? ? Hi Hp']; subst. pose proof (env_same _ _ _ _ _ _ _ _ _ Hs Hg He1) as Hs2.
    assert (A1 : after (OAsm ev lenv r [i]) s = Some s2).
    { apply (after_block _ _ _ _ [g] _ r2); [cbn [compile_all]; rewrite Hg; reflexivity|]. cbn [exec_all]. unfold bind, ret. rewrite He1. reflexivity. }
    assert (R2 : reached s2) by (apply (reached_run [OAsm ev lenv r [i]] s); [exact R|reflexivity|cbn [run]; rewrite A1; reflexivity]).
    assert (A2 : after (OAsm ev lenv r2 body) s2 = Some s1) by (eapply after_block; eauto).
    destruct (IH r2 gs' s2 r' s1 R2 Hs2 Hp' Hc' He2 E) as (marks & (Hlen & Hlist) & Hhd & Hlast & Hcur & Hlab & Hjump).
    { intros x Hx. apply HL. unfold body_labels. cbn [flat_map]. apply in_or_app. right. exact Hx. }
    destruct (stmt_cur _ _ _ _ _ _ _ _ _ Hs Hi Hg He1) as [Hc1 Hc2].
    assert (St : stmt_at (as_linked (eval ev r0)) target s4 (cur s) i (cursor s) (cursor s2)).
    { assert (D : not_label i -> stmt_at (as_linked (eval ev r0)) target s4 (cur s) i (cursor s) (cursor s2)).
      { intro Hn. apply (stmt_linked ev lenv r0 r i g s r2 s2 (OAsm ev lenv r2 body :: ops) s4 target); auto.
        - cbn [run]. rewrite A2. exact E.
        - intros x Hx. rewrite (linked_asm _ _ _ _ _ _ _ _ A2). apply HL. unfold body_labels. cbn [flat_map]. apply in_or_app. left. exact Hx. }
      destruct i; try (apply D; exact Logic.I). cbn [stmt_at]. apply (label_stmt _ _ _ _ _ _ _ _ Hg He1). }
    exists (cursor s :: marks). repeat split.
    + cbn [length]. rewrite Hlen. reflexivity.
    + intros [|k] j a b H1 H2 H3.
      * cbn [nth_error] in *. inversion H1; subst. inversion H2; subst. destruct marks as [|m marks]; [discriminate|]. cbn in H3, Hhd. inversion H3; inversion Hhd; subst. exact St.
      * cbn [nth_error] in H1, H2. rewrite <- Hc1. apply (Hlist k j a b H1 H2). exact H3.
    + destruct marks as [|m marks]; [discriminate|]. exact Hlast.
    + congruence.
    + intros [|k] x m H1 H2 Hn Hf.
      * cbn [nth_error] in H1, H2. inversion H1; subst. inversion H2; subst. destruct (label_stmt _ _ _ _ _ _ _ _ Hg He1) as (_ & _ & L).
        rewrite <- L. apply (loc_run [OAsm ev lenv r2 body] s2 s1); auto using Inv_reached.
        -- cbn [run]. rewrite A2. reflexivity.
        -- eapply (fixed_step (OAsm ev lenv r [ILabel x]) s s2); eauto using Inv_reached.
        -- intros o [<-|[]] Ho. assert (Ho' := proj1 (binds_agree _ _) Ho). clear Ho. rename Ho' into Ho. cbn [binds_label] in Ho. destruct Ho as (y & Hy & Hxy). apply In_nth_error in Hy. destruct Hy as [j Hj].
           apply (Hn (S j) y); auto. lia.
      * cbn [nth_error] in H1, H2. rewrite <- Hc1. apply (Hlab k x m H1 H2).
        -- intros j y Hj Hy. apply (Hn (S j) y); auto. lia.
        -- eapply (fixed_step (OAsm ev lenv r [i]) s s2); eauto using Inv_reached.
    + destruct k as [|k]; cbn [nth_error] in H, H1.
      * inversion H; inversion H1; subst. destruct marks as [|m0 marks]; [discriminate|]. cbn in Hhd. inversion Hhd; subst m0.
        destruct (jump_laid _ _ _ _ _ _ _ _ _ (OAsm ev lenv r2 body :: ops) s4 R R2 H0 Hg He1) as [-> _]; [exact Ha|cbn [run]; rewrite A2; exact E|reflexivity].
      * apply (Hjump k i0 op m); assumption.
    + destruct k as [|k]; cbn [nth_error] in H, H1.
      * inversion H; inversion H1; subst.
        apply (jump_laid _ _ _ _ _ _ _ _ _ (OAsm ev lenv r2 body :: ops) s4 R R2 H0 Hg He1); [exact Ha|cbn [run]; rewrite A2; exact E].
      * rewrite <- Hc1. apply (Hjump k i0 op m); assumption.
Qed.
