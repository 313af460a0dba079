(** Processor and source stay in step. *)
From Verif Require Import Base ModelMem ModelEnc ModelSyntax ModelMacro Trace Emit StateFid SpecX86 SpecAsm SpecTaken SpecState SpecHist MemInv MemStep MemFinal MemFill MemHist MemRun MemSafe MemOut MemFacts MemLocal MemPlace MemMisc MemCode SpecProg SpecMachine SpecScope SpecMulti MachRun MultiRun SpecLive LivePlace LiveFacts LiveGrow LivePatch SpecStory.
From Coq Require Import Lia ZifyBool ZifyNat.
Local Notation length := List.length.
Local Open Scope list_scope.
Local Open Scope Z_scope.

Lemma seen_own s st : seen (with_memory (mem s) st) s = s.
Proof. destruct s; reflexivity. Qed.
Lemma held_mem s b w m : held s b w -> (forall i, nth 0 (snd w) 0 <= i < last (snd w) 0 -> m (addr s (fst w) i) = mem s (addr s (fst w) i)) ->
  held (mkJit (base s) m (cur s) (pages s) (labels s)) b w.
Proof.
  intros H E. apply (held_moved s _ b w H); [reflexivity| | |cbn [pages]; lia].
  - intros i Hi. split; [exact (hl_settled _ _ _ H i Hi)|]. exact (E i Hi).
  - intros z Hz. split; [reflexivity|]. exact (proj2 (hl_bound _ _ _ H z Hz)).
Qed.
Lemma all_held_mem s m : forall prog ws, Forall2 (held s) prog ws ->
  (forall u b x, nth_error prog u = Some b -> marks_of s ws u 0%nat <= x < marks_of s ws u (length (b_body b)) -> m x = mem s x) ->
  Forall2 (held (mkJit (base s) m (cur s) (pages s) (labels s))) prog ws.
Proof.
  intros prog ws F. induction F as [|b w prog ws Hb F IH]; intro U; constructor.
  - apply held_mem; [exact Hb|]. intros i Hi. apply (U O b _ eq_refl). unfold marks_of, mark. cbn [nth_error].
    rewrite (last_nth (snd w) (length (b_body b))) in Hi; [unfold addr; lia|]. rewrite (proj1 (hl_list _ _ _ Hb)), source_length. reflexivity.
  - apply IH. intros u c x Hc Hx. exact (U (S u) c x Hc Hx).
Qed.
Lemma alive_mem s prog ws m : alive s prog ws -> untouched s prog (marks_of s ws) (mem s) m -> alive (mkJit (base s) m (cur s) (pages s) (labels s)) prog ws.
Proof.
  intros [R Fx H O] [U1 U2]. constructor; [apply reached_mem; assumption|exact Fx|apply all_held_mem; assumption|exact O].
Qed.
Lemma alive_seen s prog ws st st' : alive (seen st s) prog ws -> untouched s prog (marks_of s ws) (mm st) (mm st') -> alive (seen st' s) prog ws.
Proof. intros A U. exact (alive_mem (seen st s) prog ws (mm st') A U). Qed.
Lemma prun_proper s prog ws : Forall2 (placed s) prog ws -> forall n w st w' st', proper prog w ->
  prun mach x86 prog (final s) (marks_of s ws) n w st = PInside mach w' st' -> proper prog w'.
Proof.
  intro F. induction n as [|n IH]; intros w st w' st' Hp E; cbn [prun] in E; [inversion E; subst; exact Hp|].
  destruct w as [u k|a]; [|discriminate]. pose proof (pstep_same s prog ws F mach x86 x86_same u k st Hp) as St.
  destruct (pstep mach x86 prog (final s) (marks_of s ws) u k st) as [w1 st1|]; [|discriminate]. eapply IH; [apply (proj2 St)|exact E].
Qed.
Lemma replaced_split u b b' prog : nth_error prog u = Some b -> exists pre post, prog = pre ++ b :: post /\ replaced u b' prog = pre ++ b' :: post.
Proof.
  revert u. induction prog as [|c prog IH]; intros [|u] H; cbn [nth_error] in H; try discriminate.
  - inversion H; subst. exists [], prog. auto.
  - destruct (IH u H) as (pre & post & -> & E). exists (c :: pre), post. split; [reflexivity|]. unfold replaced in *. cbn [firstn skipn app]. f_equal. exact E.
Qed.

Theorem stays_in_step : forall es s prog ws w st, alive (seen st s) prog ws -> proper prog w -> follows es s prog ws w (where_is (marks_of s ws) w) st.
Proof.
  induction es as [|e es IH]; intros s prog ws w st A Hp; pose proof (alive_placed _ _ _ A) as F.
  { cbn [follows]. split; [|exact I]. split; [exact F|]. split; [apply (al_ord _ _ _ A)|]. split; [exact Hp|reflexivity]. }
  cbn [follows]. split; [split; [exact F|]; split; [apply (al_ord _ _ _ A)|]; split; [exact Hp|reflexivity]|]. destruct e as [n|h|ops|o l d u k b'].
  - intro K. pose proof (multi_cpu (seen st s) prog ws F n w st Hp K) as S. unfold same_prun in S.
    change (marks_of (seen st s) ws) with (marks_of s ws) in S. change (final (seen st s)) with (final s) in S.
    destruct (prun mach x86 prog (final s) (marks_of s ws) n w st) as [w' st'|j a st'|] eqn:E; [|exact S|exact S].
    intro U. exists (where_is (marks_of s ws) w'). split; [exact S|]. apply IH; [exact (alive_seen _ _ _ _ _ A U)|].
    exact (prun_proper (seen st s) prog ws F n w st w' st' Hp E).
  - destruct (h (where_is (marks_of s ws) w) st) as [a st'] eqn:E. cbn [fst snd]. intro U. 
    destruct (arrive_addr s prog ws a) as [Ea Ep]. rewrite <- Ea at 2. apply IH; [exact (alive_seen _ _ _ _ _ A U)|exact Ep].
  - intros s' Ha E B C. destruct (alive_grow _ _ _ _ _ A Ha E B C) as [vs A']. exists vs. cbv zeta.
    assert (Bs : base s' = base s).
    { apply (base_run _ _ _ (Inv_reached _ (al_reached _ _ _ A))) with (2 := E). rewrite forallb_app, Ha. reflexivity. }
    assert (W : where_is (marks_of s ws) w = where_is (marks_of s' (ws ++ vs)) (again (prog ++ blocks ops (seen st s)) (marks_of s' (ws ++ vs)) w) /\
      proper (prog ++ blocks ops (seen st s)) (again (prog ++ blocks ops (seen st s)) (marks_of s' (ws ++ vs)) w)).
    { destruct w as [u k|a]; cbn [again where_is].
      - split; [|apply proper_app, Hp]. unfold proper, is_code, stmt in Hp. destruct (nth_error prog u) as [b|] eqn:Eu; [|discriminate].
        rewrite (marks_base s s') by exact Bs. symmetry. apply (marks_app (seen st s) prog ws vs u k F). apply nth_error_Some. congruence.
      - destruct (arrive_addr s' (prog ++ blocks ops (seen st s)) (ws ++ vs) a) as [Ea Ep]. split; [symmetry; exact Ea|exact Ep]. }
    destruct W as [-> Hw]. apply IH; [rewrite seen_own; exact A'|exact Hw].
  - intros y s' b Hu Pp Po E Rt. destruct (replaced_split u b b' prog Hu) as (pre & post & -> & ->).
    pose proof (alive_patch _ _ _ _ _ _ _ _ _ _ _ _ A Pp Po E Rt) as A'.
    assert (Bs : base s' = base s).
    { pose proof (al_held _ _ _ A) as H. apply Forall2_app_inv_l in H. destruct H as (ws1 & ws2' & H1 & H2 & ->). inversion H2 as [|? v ? ws2 Hb H3]; subst.
      destruct (patch_step (seen st s) o l d y s' b v b' k (al_reached _ _ _ A) Hb Pp Po E Rt) as (a & _ & P & _). exact (po_base _ _ _ _ _ P). }
    replace (where_is (marks_of s ws) w) with (where_is (marks_of s' ws) w) by (destruct w; [apply (marks_base s s'); exact Bs|reflexivity]).
    apply IH; [rewrite seen_own; exact A'|eapply proper_patched; eauto].
Qed.
Theorem story s0 s prog : reached s0 -> lives s0 s prog -> exists ws, forall es w st, proper prog w -> untouched s prog (marks_of s ws) (mem s) (mm st) ->
  follows es s prog ws w (where_is (marks_of s ws) w) st.
Proof.
  intros R L. destruct (lives_alive _ _ _ R L) as [ws A]. exists ws. intros es w st Hp U. apply stays_in_step; [|exact Hp]. exact (alive_mem s prog ws (mm st) A U).
Qed.
