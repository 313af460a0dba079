(** Assembling a block and linking it: the bytes at the end are the statements of the block. *)
From Verif Require Import Base ModelMem ModelEnc ModelSyntax ModelMacro SpecX86 SpecAsm SpecTaken SpecState SpecHist
  Emit Trace EncDec Fidelity FidelityInst StateFid EncFacts TakenFacts MemInv MemStep MemFill MemFinal MemHist MemRun MemMisc MemFacts MemPlace ProgOne SpecProg.
Local Notation length := List.length.
Local Open Scope list_scope.
Local Open Scope Z_scope.

(** ** Environments *)
Lemma same_refl r : same_but_imm r r. Proof. intros x _. reflexivity. Qed.
Lemma same_set r v r' : same_but_imm r r' -> same_but_imm r (env_set "imm" v r').
Proof. intros H x Hx. unfold env_set. destruct (String.eqb x "imm") eqn:E; [apply String.eqb_eq in E; congruence|apply H, Hx]. Qed.
Lemma same_after ev g : forall r r', same_but_imm r r' -> same_but_imm r (env_after ev r' g).
Proof. induction g as [|c k IH|e k IH|c t IHt e IHe k IH|]; intros r r' H; cbn [env_after]; auto. apply IH. apply same_set, H. Qed.

Section Vals.
Variables (ev : list tok -> env -> Z) (r r' : env).
Hypothesis Hs : same_but_imm r r'.
Lemma regular_vals i : regular ev r i -> forall e, In e (stmt_exprs i) -> eval ev r' e = eval ev r e.
Proof. intros [H _] e He. rewrite Forall_forall in H. apply (H e He r' Hs). Qed.
Lemma regular_free i : regular ev r i -> no_imm_var ev r' i.
Proof.
  intros [F _] v e He. rewrite Forall_forall in F. assert (In e (stmt_exprs i)) by (unfold stmt_exprs; apply in_or_app; left; exact He).
  rewrite (F e) by (auto; apply same_set, Hs). symmetry. apply (F e); assumption.
Qed.
Lemma regular_u8 i : regular ev r i -> is_instr i = true -> roundpd_u8 ev r' i.
Proof.
  intros H Hi. pose proof H as [_ K]. destruct (K Hi) as [U _]. destruct i; try exact Logic.I. cbn [roundpd_u8] in *.
  rewrite (regular_vals _ H); [exact U|]. unfold stmt_exprs. apply in_or_app. right. left. reflexivity.
Qed.
End Vals.
Lemma slip_wrong i : slip i = if rel_wrong i then 1 else 0.
Proof. destruct i; try reflexivity. destruct b as [e|[b sc d]]; [reflexivity|]. destruct d; reflexivity. Qed.
(** Statements without the operands that go wrong. *)
Lemma plain_regular ev r i : plain ev r i -> regular ev r i.
Proof.
  intros [F K]. split; [exact F|]. intro Hi. destruct (K Hi) as ((_ & _ & C) & U & _). split; [exact U|].
  unfold scales_written. eapply Forall_impl; [|exact C]. intros [b sc d] H. cbn [ia_scale]. destruct sc as [|k c]; [exact Logic.I|].
  unfold d_mem in H. cbn [ia_scale ia_disp ia_base] in H. destruct (d_disp _ _ d); [|elim H; reflexivity]. cbn [obind] in H.
  destruct ((0 <=? k) && (k <=? 3)) eqn:E; [lia|]. rewrite <- !andb_assoc, E, !andb_false_r in H. elim H. reflexivity.
Qed.
Lemma plain_as_linked ev r i rel : plain ev r i -> is_instr i = true -> as_linked (eval ev r) rel i = denote (eval ev r) rel i.
Proof.
  intros [_ K] Hi. destruct (K Hi) as (W & _ & C & N). unfold as_linked.
  assert (S0 : slip i = 0) by (destruct i; try reflexivity; destruct b as [e|[b sc d]]; [reflexivity|]; destruct d; [reflexivity..|discriminate N]).
  rewrite S0. transitivity (denote (eval ev r) (fun x => rel x + 0) (taken (eval ev r) i)); [destruct i; try reflexivity; discriminate C|].
  rewrite (denote_taken ev r (fun x => rel x + 0) i (wf_written _ _ _ _ W)). apply denote_ext; [intros e _; reflexivity|]. intros x _. lia.
Qed.

(** ** The items of one statement *)
Lemma run_trace_ok t s s' : run_trace t s = Ok tt s' -> snd t = None /\ emitted (fst t) s s' /\
  (counter (pages s (cur s)) + items_len (fst t) <= PAGE_SIZE \/ fst t = []) /\ Forall (item_label_ok (length (labels s))) (fst t).
Proof.
  unfold run_trace, bind. destruct (emit_items_spec (fst t) s) as [(s1 & E & A & Hc & Hl)|(e & s1 & E & _)]; rewrite E; [|discriminate].
  destruct (snd t); [discriminate|]. cbn. intro H. inversion H; subst. auto.
Qed.
Definition not_label (i : inst) : Prop := match i with ILabel _ => False | _ => True end.
Definition reads_back (ev : list tok -> env -> Z) (lenv : string -> label) (r : env) (i : inst) (its : list item) : Prop :=
  match i with
  | IF64 v | II64 v => forall f, flat f its = le 8 v
  | _ => forall f, faithful f its (assembled (eval ev r) (fun x => i32 (f (lenv x))) i)
  end.
Lemma stmt_items ev lenv r0 r i g s r' s1 : same_but_imm r0 r -> regular ev r0 i -> not_label i -> compile i = Some g -> exec ev lenv r g s = Ok r' s1 ->
  exists its, emitted its s s1 /\ (counter (pages s (cur s)) + items_len its <= PAGE_SIZE \/ its = []) /\ Forall (item_label_ok (length (labels s))) its /\
    (forall pre bw l off post, its = pre ++ IRel bw l off :: post -> off = 4 + items_len post - slip i) /\ rel_labels its = map lenv (inst_labels i) /\ items_len its <= 15 /\ reads_back ev lenv r i its.
Proof.
  intros Hs Hp Hn Hc He. destruct (compile_has_trace ev lenv i g r Hc ltac:(destruct i; auto)) as [t Ht].
  rewrite (exec_run _ _ _ _ _ s Ht) in He. destruct (run_trace t s) as [[] s2|] eqn:Et; [|discriminate]. inversion He; subst r' s2; clear He.
  destruct (run_trace_ok _ _ _ Et) as (En & Em & Hroom & Hlab). exists (fst t).
  assert (H15 : items_len (fst t) <= 15) by (pose proof (t_exec_len _ _ _ _ _ Ht); pose proof (compile_len _ _ Hc); unfold tlen in *; lia).
  split; [exact Em|]. split; [exact Hroom|]. split; [exact Hlab|].
  destruct (is_instr i) eqn:Hi.
  - pose proof Hp as [_ Hk]. destruct (Hk Hi) as [_ Hsc].
    destruct (taken_trace_all ev lenv r i g t Hi (regular_free ev r0 r Hs i Hp) (regular_u8 ev r0 r Hs i Hp Hi) Hsc Hc Ht) as [(its & -> & F & R0 & R1)|[_ K]]; [|congruence].
    cbn [fst]. split; [|split; [exact (trel_exec _ _ _ _ _ _ Ht eq_refl (compile_refs _ _ Hc Hi))|]; split; [exact H15|]].
    + rewrite slip_wrong. destruct (rel_wrong i).
      * intros pre bw l off post Hsp. exact (rel_late_at _ _ _ _ _ _ (R1 eq_refl) Hsp).
      * intros pre bw l off post Hsp. specialize (R0 eq_refl). rewrite Hsp in R0. rewrite (rel_ok_at _ _ _ _ _ R0). lia.
    + unfold reads_back. destruct i; try discriminate Hi; exact F.
  - assert (Hr' : env_after ev r g = env_after ev r g) by reflexivity.
    destruct i; try discriminate Hi; [elim Hn| |]; cbn [compile] in Hc; try (destruct (float_ok bits); [|discriminate Hc]); apply (f_equal (fun o => match o with Some u => u | None => g end)) in Hc; cbv beta iota in Hc; subst g; cbn [t_exec t_call g1] in Ht; apply (f_equal (fun o => match o with Some u => u | None => t end)) in Ht; cbv beta iota in Ht; subst t.
    + replace (fst (tseq (tbytes (le 8 bits)) tret)) with (map IB (le 8 bits) ++ []) by reflexivity. rewrite app_nil_r.
      split; [intros pre bw l off post Hsp; assert (Hin : In (IRel bw l off) (map IB (le 8 bits))) by (rewrite Hsp; apply in_or_app; right; left; reflexivity); apply in_map_iff in Hin; destruct Hin as (z & Hz & _); discriminate Hz|]. split; [exact (trel_bytes (le 8 bits))|]. split; [rewrite items_len_bytes, le_length; lia|].
      cbn [reads_back]. intro f. rewrite flat_bytes. apply map_u8_id, le_byte.
    + replace (fst (tseq (titem (IQ (u64 v))) tret)) with [IQ (u64 v)] by reflexivity.
      split; [intros [|z0 [|z1 z2]] bw l off post Hsp; discriminate Hsp|]. split; [reflexivity|]. split; [cbn; lia|]. cbn [reads_back]. intro f. unfold flat. cbn [flat_map item_bytes]. rewrite app_nil_r. apply (le_mod 8 v). reflexivity.
Qed.

(** ** One statement, linked *)
Definition the_link (ops : list op) (s : jit) (l : label) : Z := match linked ops s l with Some a => a | None => 0 end.
Lemma rel_labels_in pre bw l off post : In l (rel_labels (pre ++ IRel bw l off :: post)).
Proof. rewrite rel_labels_app. apply in_or_app. right. left. reflexivity. Qed.
Lemma stmt_linked ev lenv r0 r i g s r' s1 ops s4 target : reached s -> reached s1 -> same_but_imm r0 r -> regular ev r0 i -> not_label i ->
  compile i = Some g -> exec ev lenv r g s = Ok r' s1 -> forallb api ops = true -> run ops s1 = Some s4 ->
  (forall x, In x (inst_labels i) -> linked ops s1 (lenv x) = Some (target x)) ->
  stmt_at (as_linked (eval ev r0)) target s4 (cur s) i (cursor s) (cursor s1).
Proof.
  intros R R1 Hs Hp Hn Hc He Ha E HL.
  destruct (stmt_items _ _ _ _ _ _ _ _ _ Hs Hp Hn Hc He) as (its & Em & Room & Hlab & Hrel & Hls & H15 & Hrb).
  pose proof (ri_cnt _ (iv_r _ (Inv_reached _ R)) (cur s)) as Hcnt. unfold cnt in Hcnt.
  assert (Room' : counter (pages s (cur s)) + items_len its <= PAGE_SIZE) by (destruct Room as [H| ->]; [exact H|cbn; lia]).
  pose proof (items_len_nonneg its) as Hnn.
  assert (Hlink : forall pre bw l off post, its = pre ++ IRel bw l off :: post -> (l < length (labels s))%nat /\ linked ops s1 l = Some (the_link ops s1 l)).
  { intros pre bw l off post Hsp. split.
    - rewrite Forall_forall in Hlab. apply (Hlab (IRel bw l off)). rewrite Hsp. apply in_or_app. right. left. reflexivity.
    - assert (Hin : In l (map lenv (inst_labels i))) by (rewrite <- Hls, Hsp; apply rel_labels_in).
      apply in_map_iff in Hin. destruct Hin as (x & <- & Hx). unfold the_link. rewrite (HL x Hx). reflexivity. }
  pose proof (one_bytes s s1 s4 its ops (the_link ops s1) R R1 Em Ha E Hlink (slip i) Hrel) as B.
  assert (C1 : cursor s1 = cursor s + items_len its) by (unfold cursor; rewrite (em_cur _ _ _ Em), (em_page _ _ _ Em); reflexivity).
  assert (Hlen : Z.to_nat (cursor s1 - cursor s) = Z.to_nat (items_len its)) by (rewrite C1; f_equal; lia).
  destruct (is_instr i) eqn:Hi.
  - assert (G : cursor s <= cursor s1 <= cursor s + 15 /\ exists x y, as_linked (eval ev r0) (fun l => target l - addr s4 (cur s) (cursor s1)) i = Some x /\ same_ins x y /\
       forall rest, decode (bytes s4 (cur s) (cursor s) (Z.to_nat (cursor s1 - cursor s)) ++ rest) = Some (y, rest)).
    2: { destruct i; try discriminate Hi; exact G. }
    split; [lia|]. assert (F : forall f, faithful f its (assembled (eval ev r) (fun x => i32 (f (lenv x))) i)) by (unfold reads_back in Hrb; destruct i; try discriminate Hi; exact Hrb).
    destruct (F (fill s its (the_link ops s1) (slip i))) as (x & y & D & S & Hd). exists x, y. split.
    + rewrite <- D. symmetry. unfold as_linked. apply assembled_ext; [exact (regular_vals ev r0 r Hs i Hp)|].
      intros z Hz. assert (Hin : In (lenv z) (rel_labels its)) by (rewrite Hls; apply in_map, Hz).
      unfold rel_labels in Hin. apply in_flat_map in Hin. destruct Hin as (it & Hit & Hz'). destruct it as [b|v|v|v|bw l off]; try (elim Hz'; fail). destruct Hz' as [Hz'|[]]. subst l.
      apply in_split in Hit. destruct Hit as (pre & post & Hsp).
      rewrite i32_id by (exact (one_range s s1 s4 its ops (the_link ops s1) R1 Em Ha E Hlink (slip i) Hrel _ _ _ _ _ Hsp)).
      unfold fill, the_link. rewrite (HL z Hz). rewrite (one_addr s s1 s4 its ops R1 Em Ha E), C1. reflexivity.
    + split; [exact S|]. intro rest. rewrite Hlen. unfold cursor. rewrite B. apply Hd.
  - destruct i; try discriminate Hi; [elim Hn| |]; cbn [stmt_at]; cbn [reads_back] in Hrb.
    + assert (L : items_len its = 8) by (rewrite <- (flat_len zeros), Hrb; reflexivity). split; [lia|]. rewrite L in B. rewrite Hrb in B. exact B.
    + assert (L : items_len its = 8) by (rewrite <- (flat_len zeros), Hrb; reflexivity). split; [lia|]. rewrite L in B. rewrite Hrb in B. exact B.
Qed.

(** ** Blocks *)
Lemma after_block ev lenv r body gs s r' s1 : compile_all body = Some gs -> exec_all ev lenv r gs s = Ok r' s1 -> after (OAsm ev lenv r body) s = Some s1.
Proof. intros Hc He. unfold after. cbn [step]. rewrite Hc. unfold bind, ret. rewrite He. reflexivity. Qed.
Lemma block_after ev lenv r body s s1 o : step (OAsm ev lenv r body) s = Ok o s1 -> exists gs r', compile_all body = Some gs /\ exec_all ev lenv r gs s = Ok r' s1.
Proof.
  cbn [step]. destruct (compile_all body) as [gs|]; [|discriminate]. unfold bind, ret. destruct (exec_all ev lenv r gs s) as [r' s2|] eqn:E; [|discriminate].
  intro H. inversion H; subst. eauto.
Qed.
Lemma exec_all_cons ev lenv r g gs s r' s1 : exec_all ev lenv r (g :: gs) s = Ok r' s1 ->
  exists r2 s2, exec ev lenv r g s = Ok r2 s2 /\ exec_all ev lenv r2 gs s2 = Ok r' s1.
Proof. cbn [exec_all]. unfold bind. destruct (exec ev lenv r g s) as [r2 s2|]; [eauto|discriminate]. Qed.
Lemma compile_all_cons i body gs : compile_all (i :: body) = Some gs -> exists g gs', compile i = Some g /\ compile_all body = Some gs' /\ gs = g :: gs'.
Proof. cbn [compile_all]. destruct (compile i) as [g|]; [|discriminate]. destruct (compile_all body) as [gs'|]; [|discriminate]. intro H. inversion H. eauto. Qed.
Lemma linked_asm ev lenv r body ops s s1 l : after (OAsm ev lenv r body) s = Some s1 -> linked (OAsm ev lenv r body :: ops) s l = linked ops s1 l.
Proof. intro H. cbn [linked]. rewrite H. reflexivity. Qed.
Lemma env_same ev lenv r0 r i g s r' s1 : same_but_imm r0 r -> compile i = Some g -> exec ev lenv r g s = Ok r' s1 -> same_but_imm r0 r'.
Proof.
  intros Hs Hc He. destruct i;
  try (destruct (compile_has_trace ev lenv _ g r Hc Logic.I) as [t Ht]; rewrite (exec_run _ _ _ _ _ s Ht) in He;
       destruct (run_trace t s); [|discriminate]; inversion He; subst; apply same_after, Hs).
  cbn [compile] in Hc. inversion Hc; subst. cbn in He. unfold bind, ret in He. destruct (bind_label (lenv ident) s) as [[] s2|]; [|discriminate]. inversion He; subst. exact Hs.
Qed.
(** A label definition. *)
Lemma label_stmt ev lenv r x g s r' s1 : compile (ILabel x) = Some g -> exec ev lenv r g s = Ok r' s1 ->
  cur s1 = cur s /\ cursor s1 = cursor s /\ loc_of s1 (lenv x) = Some (cur s, cursor s).
Proof.
  intros Hc He. cbn [compile] in Hc. inversion Hc; subst. cbn in He. unfold bind, ret in He. destruct (bind_label (lenv x) s) as [[] s2|] eqn:E; [|discriminate]. inversion He; subst.
  unfold bind_label, on_cur, bind_label_on, bind, get_counter, modify_label in E. destruct (lenv x <? length (labels s))%nat eqn:El; [|discriminate].
  inversion E; subst. split; [reflexivity|]. split; [reflexivity|]. unfold loc_of. cbn [labels set_labels]. rewrite upd_nth_nth, Nat.eqb_refl.
  destruct (nth_error (labels s) (lenv x)) eqn:F; [reflexivity|]. apply nth_error_None in F. apply Nat.ltb_lt in El. lia.
Qed.
Lemma stmt_cur ev lenv r0 r i g s r' s1 : same_but_imm r0 r -> regular ev r0 i -> compile i = Some g -> exec ev lenv r g s = Ok r' s1 -> cur s1 = cur s /\ cursor s <= cursor s1.
Proof.
  intros Hs Hp Hc He. destruct i;
  try (destruct (stmt_items _ _ _ _ _ _ _ _ _ Hs Hp Logic.I Hc He) as (its & Em & _); split; [apply (em_cur _ _ _ Em)|];
       unfold cursor; rewrite (em_cur _ _ _ Em), (em_page _ _ _ Em); cbn [counter with_counter]; pose proof (items_len_nonneg its); lia).
  destruct (label_stmt _ _ _ _ _ _ _ _ Hc He) as (A & B & _). split; [exact A|lia].
Qed.

Lemma loc_same o s s' l : Inv s -> api o = true -> after o s = Some s' -> is_finalize o = false -> ~ rebinds l o -> loc_of s' l = loc_of s l.
Proof.
  intros I Ha E Hf Hn. destruct (step_effect _ _ _ I Ha E) as [_ X|s1 K _]; [|subst o; discriminate Hf]. destruct (ex_loc _ _ _ X l) as [H|[H _]]; [exact H|contradiction].
Qed.
Lemma block_linked_any ev lenv r0 target ops s4 : forallb api ops = true -> forall body r gs s r' s1, reached s -> same_but_imm r0 r -> Forall (regular ev r0) body ->
  compile_all body = Some gs -> exec_all ev lenv r gs s = Ok r' s1 -> run ops s1 = Some s4 ->
  (forall x, In x (body_labels body) -> linked ops s1 (lenv x) = Some (target x)) ->
  exists marks, listing (as_linked (eval ev r0)) target s4 (cur s) marks body /\ hd_error marks = Some (cursor s) /\ last marks 0 = cursor s1 /\ cur s1 = cur s /\
    (forall k x m, nth_error body k = Some (ILabel x) -> nth_error marks k = Some m ->
       (forall j y, (k < j)%nat -> nth_error body j = Some (ILabel y) -> lenv y <> lenv x) -> loc_of s1 (lenv x) = Some (cur s, m)).
Proof.
  intros Ha. induction body as [|i body IH]; intros r gs s r' s1 R Hs Hp Hc He E HL.
  - cbn [compile_all] in Hc. inversion Hc; subst. cbn in He. inversion He; subst. exists [cursor s1]. split; [split; [reflexivity|]|].
    + intros [|k]; discriminate.
    + split; [reflexivity|]. split; [reflexivity|]. split; [reflexivity|]. intros [|k]; discriminate.
  - destruct (compile_all_cons _ _ _ Hc) as (g & gs' & Hg & Hc' & ->). destruct (exec_all_cons _ _ _ _ _ _ _ _ He) as (r2 & s2 & He1 & He2).
    inversion Hp as [|? ? Hi Hp']; subst. pose proof (env_same _ _ _ _ _ _ _ _ _ Hs Hg He1) as Hs2.
    assert (A1 : after (OAsm ev lenv r [i]) s = Some s2).
    { apply (after_block _ _ _ _ [g] _ r2); [cbn [compile_all]; rewrite Hg; reflexivity|]. cbn [exec_all]. unfold bind, ret. rewrite He1. reflexivity. }
    assert (R2 : reached s2) by (apply (reached_run [OAsm ev lenv r [i]] s); [exact R|reflexivity|cbn [run]; rewrite A1; reflexivity]).
    assert (A2 : after (OAsm ev lenv r2 body) s2 = Some s1) by (eapply after_block; eauto).
    destruct (IH r2 gs' s2 r' s1 R2 Hs2 Hp' Hc' He2 E) as (marks & (Hlen & Hlist) & Hhd & Hlast & Hcur & Hlab).
    { intros x Hx. apply HL. unfold body_labels. cbn [flat_map]. apply in_or_app. right. exact Hx. }
    destruct (stmt_cur _ _ _ _ _ _ _ _ _ Hs Hi Hg He1) as [Hc1 Hc2].
    assert (St : stmt_at (as_linked (eval ev r0)) target s4 (cur s) i (cursor s) (cursor s2)).
    { assert (D : not_label i -> stmt_at (as_linked (eval ev r0)) target s4 (cur s) i (cursor s) (cursor s2)).
      { intro Hn. apply (stmt_linked ev lenv r0 r i g s r2 s2 (OAsm ev lenv r2 body :: ops) s4 target); auto.
        - cbn [run]. rewrite A2. exact E.
        - intros x Hx. rewrite (linked_asm _ _ _ _ _ _ _ _ A2). apply HL. unfold body_labels. cbn [flat_map]. apply in_or_app. left. exact Hx. }
      destruct i; try (apply D; exact Logic.I). cbn [stmt_at]. apply (label_stmt _ _ _ _ _ _ _ _ Hg He1). }
    exists (cursor s :: marks). repeat split.
    + cbn [length]. rewrite Hlen. reflexivity.
    + intros [|k] j a b H1 H2 H3.
      * cbn [nth_error] in *. inversion H1; subst. inversion H2; subst. destruct marks as [|m marks]; [discriminate|]. cbn in H3, Hhd. inversion H3; inversion Hhd; subst. exact St.
      * cbn [nth_error] in H1, H2. rewrite <- Hc1. apply (Hlist k j a b H1 H2). exact H3.
    + destruct marks as [|m marks]; [discriminate|]. exact Hlast.
    + congruence.
    + intros [|k] x m H1 H2 Hn.
      * cbn [nth_error] in H1, H2. inversion H1; subst. inversion H2; subst. destruct (label_stmt _ _ _ _ _ _ _ _ Hg He1) as (_ & _ & L).
        rewrite <- L. apply (loc_same (OAsm ev lenv r2 body) s2 s1); auto using Inv_reached.
        intro Ho. assert (Ho' := proj1 (binds_agree _ _) Ho). clear Ho. rename Ho' into Ho. cbn [binds_label] in Ho. destruct Ho as (y & Hy & Hxy). apply In_nth_error in Hy. destruct Hy as [j Hj].
        apply (Hn (S j) y); auto. lia.
      * cbn [nth_error] in H1, H2. rewrite <- Hc1. apply (Hlab k x m H1 H2). intros j y Hj Hy. apply (Hn (S j) y); auto. lia.
Qed.

Lemma block_linked ev lenv r0 target ops s4 : forallb api ops = true -> forall body r gs s r' s1, reached s -> same_but_imm r0 r -> Forall (regular ev r0) body ->
  compile_all body = Some gs -> exec_all ev lenv r gs s = Ok r' s1 -> run ops s1 = Some s4 ->
  (forall x, In x (body_labels body) -> linked ops s1 (lenv x) = Some (target x)) ->
  exists marks, listing (as_linked (eval ev r0)) target s4 (cur s) marks body /\ hd_error marks = Some (cursor s) /\ last marks 0 = cursor s1 /\ cur s1 = cur s /\
    (forall k x m, nth_error body k = Some (ILabel x) -> nth_error marks k = Some m ->
       (forall j y, (k < j)%nat -> nth_error body j = Some (ILabel y) -> lenv y <> lenv x) -> fixed_label s (lenv x) -> loc_of s1 (lenv x) = Some (cur s, m)).
Proof.
  intros Ha body r gs s r' s1 R Hs Hp Hc He E HL. destruct (block_linked_any ev lenv r0 target ops s4 Ha body r gs s r' s1 R Hs Hp Hc He E HL) as (marks & A & B & C & D & G).
  exists marks. split; [exact A|]. split; [exact B|]. split; [exact C|]. split; [exact D|]. intros k x m H1 H2 Hn _. exact (G k x m H1 H2 Hn).
Qed.

(** The same listing of statements without such operands, as written. *)
Lemma plain_listing ev r target s p marks body : Forall (plain ev r) body -> listing (as_linked (eval ev r)) target s p marks body ->
  listing (denote (eval ev r)) target s p marks body.
Proof.
  intros Hp [Hl H]. split; [exact Hl|]. intros k i a b H1 H2 H3. specialize (H k i a b H1 H2 H3).
  assert (P : plain ev r i) by (rewrite Forall_forall in Hp; apply Hp; eapply nth_error_In; eauto).
  pose proof (fun rel => plain_as_linked ev r i rel P) as E. unfold stmt_at in *. destruct i; try exact H; rewrite E in H by reflexivity; exact H.
Qed.
