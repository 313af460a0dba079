(** C74: the linked bytes of a block are those of a two-pass assembler. *)
From Verif Require Import Base ModelMem ModelEnc ModelSyntax ModelMacro SpecX86 SpecAsm SpecTaken SpecState SpecHist SpecGas SpecTwo
  Emit Trace EncDec Fidelity FidelityInst StateFid EncFacts TakenFacts MemInv MemStep MemFill MemFinal MemHist MemRun MemMisc MemFacts MemPlace MemThm ProgOne SpecProg ProgBlock ProgExec
  GasEnc GasInst GasFacts.
Local Notation length := List.length.
Local Open Scope list_scope.
Local Open Scope Z_scope.

Lemma as_gas_code y bs : as_gas y bs -> match long_form y with Some l => Some l | None => gas y end = Some bs.
Proof. unfold as_gas. destruct (long_form y); [congruence|auto]. Qed.
Lemma code_instr val rel i x bs : is_instr i = true -> denote val rel i = Some x -> as_gas (count_written val i x) bs -> stmt_code val rel i = Some bs.
Proof. intros Hi D A. apply as_gas_code in A. destruct i; try discriminate Hi; unfold stmt_code; rewrite D; exact A. Qed.

(** An instruction. *)
Lemma instr_two ev lenv r0 r i g s r' s1 ops s4 target : reached s -> reached s1 -> same_but_imm r0 r -> plain ev r0 i -> rip_labels (eval ev r0) i -> is_instr i = true ->
  compile i = Some g -> exec ev lenv r g s = Ok r' s1 -> forallb api ops = true -> run ops s1 = Some s4 ->
  (forall x, In x (inst_labels i) -> linked ops s1 (lenv x) = Some (target x)) ->
  exists bs, stmt_code (eval ev r0) (fun l => target l - addr s4 (cur s) (cursor s1)) i = Some bs /\ bytes s4 (cur s) (cursor s) (length bs) = bs /\
    cursor s1 = cursor s + Z.of_nat (length bs) /\ Z.of_nat (length bs) = size (eval ev r0) i.
Proof.
  intros R R1 Hs Hp Hl Hi Hc He Ha E HL. pose proof (plain_regular _ _ _ Hp) as Hg. pose proof (regular_vals ev r0 r Hs i Hg) as V.
  pose proof Hp as [_ K]. destruct (K Hi) as (Hw & _ & Hk & Nr).
  assert (Hn : not_label i) by (destruct i; try exact Logic.I; discriminate Hi).
  assert (S0 : slip i = 0) by (destruct i; try reflexivity; destruct b as [e|[b sc d]]; [reflexivity|]; destruct d; [reflexivity..|discriminate Nr]).
  pose proof (stmt_linked _ _ _ _ _ _ _ _ _ _ _ _ R R1 Hs Hg Hn Hc He Ha E HL) as St.
  assert (D0 : exists x, denote (eval ev r0) (fun l => target l - addr s4 (cur s) (cursor s1)) i = Some x).
  { destruct i; try discriminate Hi; destruct St as (_ & x & y & D & _); rewrite (plain_as_linked _ _ _ _ Hp eq_refl) in D; eauto. }
  clear St. destruct D0 as [x D].
  destruct (compile_has_trace ev lenv i g r Hc ltac:(destruct i; auto)) as [t Ht].
  pose proof He as He'. rewrite (exec_run _ _ _ _ _ s Ht) in He'. destruct (run_trace t s) as [[] s2|] eqn:Et; [|discriminate]. inversion He'; subst s2; clear He'.
  destruct (run_trace_ok _ _ _ Et) as (En & Em & Hroom & Hlab).
  destruct (K Hi) as (_ & U & _). pose proof Hg as [_ Hk2]. destruct (Hk2 Hi) as [_ Hsc].
  pose proof (regular_free ev r0 r Hs i Hg) as Free. pose proof (regular_u8 ev r0 r Hs i Hg Hi) as U8.
  destruct (taken_trace_all ev lenv r i g t Hi Free U8 Hsc Hc Ht) as [(its & -> & F & R0 & _)|[_ K2]]; [|congruence].
  cbn [fst snd] in *. pose proof (trel_exec _ _ _ _ _ _ Ht eq_refl (compile_refs _ _ Hc Hi)) as Hls.
  assert (Hrel : forall pre bw l off post, its = pre ++ IRel bw l off :: post -> off = 4 + items_len post - 0).
  { intros pre bw l off post Hsp. rewrite slip_wrong in S0. destruct (rel_wrong i); [discriminate S0|]. specialize (R0 eq_refl). rewrite Hsp in R0. rewrite (rel_ok_at _ _ _ _ _ R0). lia. }
  assert (Hlink : forall pre bw l off post, its = pre ++ IRel bw l off :: post -> (l < length (labels s))%nat /\ linked ops s1 l = Some (the_link ops s1 l)).
  { intros pre bw l off post Hsp. split.
    - rewrite Forall_forall in Hlab. apply (Hlab (IRel bw l off)). rewrite Hsp. apply in_or_app. right. left. reflexivity.
    - assert (Hin : In l (map lenv (inst_labels i))) by (rewrite <- Hls, Hsp; apply rel_labels_in).
      apply in_map_iff in Hin. destruct Hin as (z & <- & Hz). unfold the_link. rewrite (HL z Hz). reflexivity. }
  pose proof (one_bytes s s1 s4 its ops (the_link ops s1) R R1 Em Ha E Hlink 0 Hrel) as B.
  assert (C1 : cursor s1 = cursor s + items_len its) by (unfold cursor; rewrite (em_cur _ _ _ Em), (em_page _ _ _ Em); reflexivity).
  set (f := fill s its (the_link ops s1) 0) in *.
  assert (Fx : always ev r (addr_exprs i)). { intros q [->|[v ->]] e Hin; [reflexivity|apply Free; exact Hin]. }
  assert (Gen : forall fil rel x, denote (eval ev r0) rel i = Some x -> (forall z, In z (inst_labels i) -> fil (lenv z) = rel z) ->
     stmt_code (eval ev r0) rel i = Some (flat fil its)).
  { intros fil rel y Dy Hf. rewrite <- (denote_ext (eval ev r0) (eval ev r) rel (fun z => fil (lenv z)) i V Hf) in Dy.
    pose proof (inst_gas ev lenv r fil i g (its, None) y Hi Hk Fx (rip_same _ _ _ _ V Hl) U8 Hc Ht Dy eq_refl) as C. cbn [fst] in C.
    rewrite (count_same _ _ _ _ V) in C. rewrite (denote_ext (eval ev r0) (eval ev r) rel (fun z => fil (lenv z)) i V Hf) in Dy. exact (code_instr _ _ _ _ _ Hi Dy C). }
  exists (flat f its). pose proof (flat_len f its) as L. pose proof (items_len_nonneg its) as Nn.
  split; [|split; [|split]].
  - apply (Gen f _ x D). intros z Hz. unfold f, fill, the_link. rewrite (HL z Hz), (one_addr s s1 s4 its ops R1 Em Ha E), C1. apply Z.add_0_r.
  - replace (length (flat f its)) with (Z.to_nat (items_len its)) by lia. exact B.
  - lia.
  - destruct (fid_main ev lenv r i g s r' s1) as (b0 & x0 & _ & D1 & _); [split; [exact Hi|]; split; [exact (wf_same _ _ _ _ V Hw)|]; split; [exact Free|exact U8]|exact Hk|exact Hc|exact He|].
    rewrite (denote_ext (eval ev r0) (eval ev r) (fun _ => 0) (fun _ => 0) i V) in D1 by (intros ? _; reflexivity).
    unfold size. rewrite (Gen zeros _ x0 D1) by (intros; reflexivity). rewrite L, flat_len. reflexivity.
Qed.
(** Any statement. *)
Lemma stmt_two ev lenv r0 r i g s r' s1 ops s4 target : reached s -> reached s1 -> same_but_imm r0 r -> plain ev r0 i -> rip_labels (eval ev r0) i ->
  compile i = Some g -> exec ev lenv r g s = Ok r' s1 -> forallb api ops = true -> run ops s1 = Some s4 ->
  (forall x, In x (inst_labels i) -> linked ops s1 (lenv x) = Some (target x)) ->
  exists bs, stmt_code (eval ev r0) (fun l => target l - addr s4 (cur s) (cursor s1)) i = Some bs /\ bytes s4 (cur s) (cursor s) (length bs) = bs /\
    cursor s1 = cursor s + Z.of_nat (length bs) /\ Z.of_nat (length bs) = size (eval ev r0) i.
Proof.
  intros R R1 Hs Hp Hl Hc He Ha E HL. destruct (is_instr i) eqn:Hi; [eapply instr_two; eauto|].
  assert (St : not_label i -> stmt_at (as_linked (eval ev r0)) target s4 (cur s) i (cursor s) (cursor s1)).
  { intro Hn. eapply stmt_linked; eauto. apply plain_regular, Hp. }
  destruct i; try discriminate Hi.
  - destruct (label_stmt _ _ _ _ _ _ _ _ Hc He) as (_ & C & _). exists []. split; [reflexivity|]. split; [reflexivity|]. split; [cbn; lia|reflexivity].
  - destruct (St Logic.I) as [C B]. exists (le 8 bits). split; [reflexivity|]. split; [exact B|]. split; [rewrite C, le_length; reflexivity|]. reflexivity.
  - destruct (St Logic.I) as [C B]. exists (le 8 v). split; [reflexivity|]. split; [exact B|]. split; [rewrite C, le_length; reflexivity|]. reflexivity.
Qed.

(** Blocks. *)
Lemma defined_cons i body : defined (i :: body) = match i with ILabel x => [x] | _ => [] end ++ defined body. Proof. reflexivity. Qed.
Lemma symbol_defined val x : forall body a v, symbol val a body x = Some v -> In x (defined body).
Proof.
  induction body as [|i body IH]; intros a v H; [discriminate|]. rewrite defined_cons. apply in_or_app. cbn [symbol] in H.
  destruct i; try (right; eapply IH; exact H). destruct (String.eqb x ident) eqn:E; [left; left; symmetry; apply String.eqb_eq, E|right; eapply IH; exact H].
Qed.
Lemma defined_symbol val x : forall body a, In x (defined body) -> exists v, symbol val a body x = Some v.
Proof.
  induction body as [|i body IH]; intros a H; [elim H|]. rewrite defined_cons in H. apply in_app_or in H. cbn [symbol].
  destruct i; try (destruct H as [[]|H]; apply IH; exact H). destruct (String.eqb x ident) eqn:E; [eauto|]. destruct H as [[->|[]]|H]; [rewrite String.eqb_refl in E; discriminate|apply IH, H].
Qed.
Lemma bytes_split s p c m n : bytes s p c (m + n) = bytes s p c m ++ bytes s p (c + Z.of_nat m) n.
Proof. unfold bytes. rewrite read_app. unfold addr. do 2 f_equal. lia. Qed.
Lemma block_steps ev lenv r i body g gs s r' s1 : compile i = Some g -> compile_all body = Some gs -> reached s -> exec_all ev lenv r (g :: gs) s = Ok r' s1 ->
  exists r2 s2, exec ev lenv r g s = Ok r2 s2 /\ exec_all ev lenv r2 gs s2 = Ok r' s1 /\ reached s2 /\ after (OAsm ev lenv r2 body) s2 = Some s1.
Proof.
  intros Hg Hc R He. destruct (exec_all_cons _ _ _ _ _ _ _ _ He) as (r2 & s2 & He1 & He2). exists r2, s2. split; [exact He1|]. split; [exact He2|]. split; [|eapply after_block; eauto].
  assert (A1 : after (OAsm ev lenv r [i]) s = Some s2).
  { apply (after_block _ _ _ _ [g] _ r2); [cbn [compile_all]; rewrite Hg; reflexivity|]. cbn [exec_all]. unfold bind, ret. rewrite He1. reflexivity. }
  apply (reached_run [OAsm ev lenv r [i]] s); [exact R|reflexivity|cbn [run]; rewrite A1; reflexivity].
Qed.
Lemma block_two ev lenv r0 target ops s4 : forallb api ops = true -> forall body r gs s r' s1, reached s -> same_but_imm r0 r -> Forall (plain ev r0) body -> Forall (rip_labels (eval ev r0)) body ->
  compile_all body = Some gs -> exec_all ev lenv r gs s = Ok r' s1 -> run ops s1 = Some s4 ->
  (forall x, In x (body_labels body) -> linked ops s1 (lenv x) = Some (target x)) ->
  exists bs, written (eval ev r0) target (addr s4 (cur s) (cursor s)) body = Some bs /\ bytes s4 (cur s) (cursor s) (length bs) = bs /\ cursor s1 = cursor s + Z.of_nat (length bs).
Proof.
  intros Ha. induction body as [|i body IH]; intros r gs s r' s1 R Hs Hp Hl Hc He E HL.
  - cbn [compile_all] in Hc. inversion Hc; subst. cbn in He. inversion He; subst. exists []. split; [reflexivity|]. split; [reflexivity|]. cbn. lia.
  - destruct (compile_all_cons _ _ _ Hc) as (g & gs' & Hg & Hc' & ->). destruct (block_steps _ _ _ i body _ _ _ _ _ Hg Hc' R He) as (r2 & s2 & He1 & He2 & R2 & A2).
    inversion Hp as [|? ? Hi Hp']; subst. inversion Hl as [|? ? Li Hl']; subst. pose proof (env_same _ _ _ _ _ _ _ _ _ Hs Hg He1) as Hs2.
    destruct (stmt_cur _ _ _ _ _ _ _ _ _ Hs (plain_regular _ _ _ Hi) Hg He1) as [Hc1 _].
    destruct (IH r2 gs' s2 r' s1 R2 Hs2 Hp' Hl' Hc' He2 E) as (v & Wv & Bv & Cv).
    { intros x Hx. apply HL. unfold body_labels. cbn [flat_map]. apply in_or_app. right. exact Hx. }
    destruct (stmt_two ev lenv r0 r i g s r2 s2 (OAsm ev lenv r2 body :: ops) s4 target R R2 Hs Hi Li Hg He1) as (u & Wu & Bu & Cu & Su); [exact Ha|cbn [run]; rewrite A2; exact E| |].
    { intros x Hx. rewrite (linked_asm _ _ _ _ _ _ _ _ A2). apply HL. unfold body_labels. cbn [flat_map]. apply in_or_app. left. exact Hx. }
    exists (u ++ v). rewrite app_length. cbn [written]. rewrite Hc1 in *.
    replace (addr s4 (cur s) (cursor s) + size (eval ev r0) i) with (addr s4 (cur s) (cursor s2)) by (unfold addr; lia).
    rewrite Wu, Wv. split; [reflexivity|]. split; [|lia]. rewrite bytes_split, <- Cu, Bu, Bv. reflexivity.
Qed.
(** Where the labels of a block are. *)
Lemma stmt_size ev lenv r0 r i g s r' s1 : same_but_imm r0 r -> plain ev r0 i -> rip_labels (eval ev r0) i -> compile i = Some g -> exec ev lenv r g s = Ok r' s1 ->
  reached s -> cursor s1 = cursor s + size (eval ev r0) i.
Proof.
  intros Hs Hp Hl Hc He R. destruct (stmt_gas _ _ _ _ _ _ _ _ _ Hs Hp Hl Hc He) as (bs & B & G); [apply (reached_cursor s (cur s) R)|].
  assert (Sz : size (eval ev r0) i = Z.of_nat (length bs)).
  { assert (C : stmt_code (eval ev r0) (fun _ => 0) i = Some bs).
    { destruct (is_instr i) eqn:Hi; [|destruct i; try discriminate Hi; cbn [stmt_bytes] in B; subst bs; reflexivity].
      assert (X : exists x, denote (eval ev r0) (fun _ => 0) i = Some x /\ as_gas (count_written (eval ev r0) i x) bs) by (destruct i; try discriminate Hi; exact B).
      destruct X as (x & D & A). exact (code_instr _ _ _ _ _ Hi D A). }
    unfold size. rewrite C. reflexivity. }
  rewrite Sz. unfold cursor. rewrite (gr_cur _ _ _ G). apply (gr_cursor _ _ _ G).
Qed.
Lemma block_symbols ev lenv r0 : forall body r gs s r' s1, reached s -> same_but_imm r0 r -> Forall (plain ev r0) body -> Forall (rip_labels (eval ev r0)) body ->
  compile_all body = Some gs -> exec_all ev lenv r gs s = Ok r' s1 -> NoDup (map lenv (defined body)) ->
  forall x a, symbol (eval ev r0) (addr s (cur s) (cursor s)) body x = Some a -> exists m, loc_of s1 (lenv x) = Some (cur s, m) /\ a = addr s (cur s) m.
Proof.
  induction body as [|i body IH]; intros r gs s r' s1 R Hs Hp Hl Hc He Nd x a Hx; [discriminate Hx|].
  destruct (compile_all_cons _ _ _ Hc) as (g & gs' & Hg & Hc' & ->). destruct (block_steps _ _ _ i body _ _ _ _ _ Hg Hc' R He) as (r2 & s2 & He1 & He2 & R2 & A2).
  inversion Hp as [|? ? Hi Hp']; subst. inversion Hl as [|? ? Li Hl']; subst. pose proof (env_same _ _ _ _ _ _ _ _ _ Hs Hg He1) as Hs2.
  destruct (stmt_cur _ _ _ _ _ _ _ _ _ Hs (plain_regular _ _ _ Hi) Hg He1) as [Hc1 _].
  pose proof (stmt_size _ _ _ _ _ _ _ _ _ Hs Hi Li Hg He1 R) as Sz.
  assert (Nd' : NoDup (map lenv (defined body))) by (rewrite defined_cons, map_app in Nd; destruct i; cbn [map app] in Nd; try exact Nd; inversion Nd; assumption).
  assert (Bs : base s2 = base s).
  { destruct (stmt_gas _ _ _ _ _ _ _ _ _ Hs Hi Li Hg He1) as (bs & B & G); [apply (reached_cursor s (cur s) R)|]. apply (gr_base _ _ _ G). }
  assert (Ad : forall m, addr s2 (cur s2) m = addr s (cur s) m) by (intro m; unfold addr, contents; rewrite Bs, Hc1; reflexivity).
  pose proof (IH r2 gs' s2 r' s1 R2 Hs2 Hp' Hl' Hc' He2 Nd' x a) as H. rewrite Ad, Hc1 in H.
  replace (addr s (cur s) (cursor s2)) with (addr s (cur s) (cursor s) + size (eval ev r0) i) in H by (unfold addr; lia).
  assert (H' : symbol (eval ev r0) (addr s (cur s) (cursor s) + size (eval ev r0) i) body x = Some a -> exists m, loc_of s1 (lenv x) = Some (cur s, m) /\ a = addr s (cur s) m).
  { intro Q. destruct (H Q) as (m & L & K). exists m. split; [exact L|]. rewrite K. unfold addr, contents. rewrite Bs. reflexivity. }
  destruct i; try (apply H'; exact Hx). cbn [symbol] in Hx. destruct (String.eqb x ident) eqn:Ex.
  - apply String.eqb_eq in Ex. subst ident. injection Hx as <-. destruct (label_stmt _ _ _ _ _ _ _ _ Hg He1) as (_ & _ & L). exists (cursor s). split; [|reflexivity].
    rewrite <- L. apply (loc_same (OAsm ev lenv r2 body) s2 s1); auto using Inv_reached. intro Ho. assert (Ho' := proj1 (binds_agree _ _) Ho). cbn [binds_label] in Ho'. destruct Ho' as (y & Hy & Hxy).
    cbn [defined flat_map app map] in Nd. inversion Nd as [|? ? Nn _]; subst. apply Nn. apply in_map_iff. exists y. split; [exact Hxy|]. unfold defined. apply in_flat_map. exists (ILabel y). split; [exact Hy|left; reflexivity].
  - apply H'. change (size (eval ev r0) (ILabel ident)) with 0. rewrite Z.add_0_r. exact Hx.
Qed.
(** A bound label that nothing binds again is linked to its place by the first finalize. *)
Lemma linked_place l p m : forall ops s s4, Inv s -> forallb api ops = true -> fixed_label s l -> (forall o, In o ops -> ~ binds_label o l) -> loc_of s l = Some (p, m) ->
  run ops s = Some s4 -> In OFinalize ops -> linked ops s l = Some (addr s p m).
Proof.
  induction ops as [|o ops IH]; intros s s4 Iv Ha Hf Hn Hl E Hin; [elim Hin|]. cbn [forallb] in Ha. apply andb_true_iff in Ha. destruct Ha as [Ho Ha].
  cbn [run linked] in *. destruct (after o s) as [s'|] eqn:A; [|discriminate E].
  assert (L' : loc_of s' l = Some (p, m)) by (rewrite <- Hl; apply (loc_step o s s' l Iv Ho A Hf); intro Hb; apply (Hn o (or_introl eq_refl)); apply (proj1 (binds_agree _ _) Hb)).
  assert (Iv' : Inv s') by (apply (Inv_run [o] s); [exact Iv|cbn [forallb]; rewrite Ho; reflexivity|cbn [run]; rewrite A; reflexivity]).
  assert (B' : addr s' p m = addr s p m) by (unfold addr, contents; rewrite (base_run [o] s s' Iv); [reflexivity|cbn [forallb]; rewrite Ho; reflexivity|cbn [run]; rewrite A; reflexivity]).
  destruct (is_finalize o) eqn:F.
  - unfold label_addr. rewrite L'. f_equal. exact B'.
  - rewrite <- B'. apply (IH s' s4); auto; [exact (fixed_step o s s' l Iv Ho A Hf)|intros o' Ho'; apply Hn; right; exact Ho'|]. destruct Hin as [->|Hin]; [discriminate F|exact Hin].
Qed.
Lemma two_passes ev lenv r body s o s1 ops s4 ext : reached s -> Forall (plain ev r) body -> Forall (rip_labels (eval ev r)) body ->
  step (OAsm ev lenv r body) s = Ok o s1 -> forallb api ops = true -> run ops s1 = Some s4 -> In OFinalize ops -> own_labels lenv body s ops ->
  (forall x, In x (body_labels body) -> ~ In x (defined body) -> linked ops s1 (lenv x) = Some (ext x)) ->
  exists bs, two_pass (eval ev r) ext (here s) body = Some bs /\ bytes s4 (cur s) (cursor s) (length bs) = bs /\ cursor s1 = cursor s + Z.of_nat (length bs) /\
    forall x a, symbol (eval ev r) (here s) body x = Some a -> label_addr s4 (lenv x) = Some a.
Proof.
  intros R Hp Hl Es Ha E Fin [Hnd Hown] HL. destruct (block_after _ _ _ _ _ _ _ Es) as (gs & r' & Hc & He).
  assert (A : after (OAsm ev lenv r body) s = Some s1) by (eapply after_block; eauto).
  assert (R1 : reached s1) by (apply (reached_run [OAsm ev lenv r body] s); [exact R|reflexivity|cbn [run]; rewrite A; reflexivity]).
  assert (B1 : base s1 = base s) by (apply (base_run [OAsm ev lenv r body] s s1 (Inv_reached _ R)); [reflexivity|cbn [run]; rewrite A; reflexivity]).
  assert (B4 : base s4 = base s) by (rewrite (base_run _ _ _ (Inv_reached _ R1) Ha E); exact B1).
  change (here s) with (addr s (cur s) (cursor s)).
  assert (Own : forall x a, symbol (eval ev r) (addr s (cur s) (cursor s)) body x = Some a -> linked ops s1 (lenv x) = Some a /\ label_addr s4 (lenv x) = Some a).
  { intros x a Hx. destruct (block_symbols ev lenv r body r gs s r' s1 R (same_refl r) Hp Hl Hc He Hnd x a Hx) as (m & L & Ea).
    destruct (Hown x (symbol_defined _ _ _ _ _ Hx)) as (Hlt & Hw & Hb). pose proof (waiting_fixed s (lenv x) Hlt Hw) as Hf.
    assert (Hf1 : fixed_label s1 (lenv x)) by (eapply (fixed_step (OAsm ev lenv r body) s s1); eauto using Inv_reached).
    assert (Ea1 : a = addr s1 (cur s) m) by (rewrite Ea; unfold addr, contents; rewrite B1; reflexivity).
    split; [rewrite Ea1; apply (linked_place _ _ _ ops s1 s4); auto using Inv_reached|].
    unfold label_addr. rewrite (loc_run ops s1 s4 (lenv x) (Inv_reached _ R1) Ha E Hf1); [rewrite L, Ea; unfold addr, contents; rewrite B4; reflexivity|].
    intros o' Ho' Hb'. apply (Hb o' Ho'). apply (proj1 (binds_agree _ _) Hb'). }
  set (sym := fun x => match symbol (eval ev r) (addr s (cur s) (cursor s)) body x with Some v => v | None => ext x end).
  destruct (block_two ev lenv r sym ops s4 Ha body r gs s r' s1 R (same_refl r) Hp Hl Hc He E) as (bs & W & B & C).
  { intros x Hx. unfold sym. destruct (symbol (eval ev r) (addr s (cur s) (cursor s)) body x) as [v|] eqn:Sx; [apply Own, Sx|]. apply HL; [exact Hx|].
    intro Hd. destruct (defined_symbol (eval ev r) x body (addr s (cur s) (cursor s)) Hd) as [v Hv]. rewrite Hv in Sx. discriminate Sx. }
  exists bs. replace (addr s4 (cur s) (cursor s)) with (addr s (cur s) (cursor s)) in W by (unfold addr, contents; rewrite B4; reflexivity).
  split; [exact W|]. split; [exact B|]. split; [exact C|]. intros x a Hx. apply Own, Hx.
Qed.
(** Labels bound anywhere, any number of times: with the addresses they are linked to. *)
Lemma second_pass ev lenv r body s o s1 ops s4 target : reached s -> Forall (plain ev r) body -> Forall (rip_labels (eval ev r)) body ->
  step (OAsm ev lenv r body) s = Ok o s1 -> forallb api ops = true -> run ops s1 = Some s4 ->
  (forall x, In x (body_labels body) -> linked ops s1 (lenv x) = Some (target x)) ->
  exists bs, written (eval ev r) target (here s) body = Some bs /\ bytes s4 (cur s) (cursor s) (length bs) = bs /\ cursor s1 = cursor s + Z.of_nat (length bs).
Proof.
  intros R Hp Hl Es Ha E HL. destruct (block_after _ _ _ _ _ _ _ Es) as (gs & r' & Hc & He).
  assert (A : after (OAsm ev lenv r body) s = Some s1) by (eapply after_block; eauto).
  assert (R1 : reached s1) by (apply (reached_run [OAsm ev lenv r body] s); [exact R|reflexivity|cbn [run]; rewrite A; reflexivity]).
  destruct (block_two ev lenv r target ops s4 Ha body r gs s r' s1 R (same_refl r) Hp Hl Hc He E HL) as (bs & W & B & C). exists bs. split; [|auto].
  change (here s) with (addr s (cur s) (cursor s)). replace (addr s (cur s) (cursor s)) with (addr s4 (cur s) (cursor s)); [exact W|].
  unfold addr, contents. rewrite (base_run _ _ _ (Inv_reached _ R1) Ha E). rewrite (base_run [OAsm ev lenv r body] s s1 (Inv_reached _ R)); [reflexivity|reflexivity|cbn [run]; rewrite A; reflexivity].
Qed.
