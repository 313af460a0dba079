(** Which blocks are assembled: those whose instructions, as taken, are x86 instructions. *)
From Verif Require Import Base ModelMem ModelEnc ModelSyntax ModelMacro SpecX86 SpecAsm SpecTaken SpecState SpecHist
  Emit Trace EncDec Fidelity FidelityInst StateFid EncFacts TakenFacts MemInv MemStep MemFill MemFinal MemHist MemRun MemMisc MemFacts MemPlace ProgOne SpecProg ProgBlock.
Local Notation length := List.length.
Local Open Scope list_scope.
Local Open Scope Z_scope.

Section Block.
Variables (ev : list tok -> env -> Z) (lenv : string -> label) (r0 : env).
Lemma same_assembled r i : same_but_imm r0 r -> regular ev r0 i -> assembled (eval ev r) (fun _ => 0) i = assembled (eval ev r0) (fun _ => 0) i.
Proof. intros Hs Hp. apply assembled_ext; [exact (regular_vals ev r0 r Hs i Hp)|intros x _; reflexivity]. Qed.
Lemma stmt_accepted r i g s r' s1 : same_but_imm r0 r -> regular ev r0 i -> compile i = Some g -> exec ev lenv r g s = Ok r' s1 -> taken_as_ins (eval ev r0) i.
Proof.
  intros Hs Hp Hc He Hi. pose proof Hp as [_ Hk]. destruct (Hk Hi) as [_ Hsc].
  destruct (taken_accepted ev lenv r i g s r' s1 Hi (regular_free ev r0 r Hs i Hp) (regular_u8 ev r0 r Hs i Hp Hi) Hsc Hc He) as (bs & x & _ & E & _).
  rewrite (same_assembled r i Hs Hp) in E. congruence.
Qed.
Lemma stmt_effect r i g s r' s1 : same_but_imm r0 r -> regular ev r0 i -> compile i = Some g -> exec ev lenv r g s = Ok r' s1 ->
  cursor s1 <= cursor s + 15 /\ length (labels s1) = length (labels s).
Proof.
  intros Hs Hp Hc He.
  assert (G : not_label i -> cursor s1 <= cursor s + 15 /\ length (labels s1) = length (labels s)).
  { intro Hn. destruct (stmt_items _ _ _ _ _ _ _ _ _ Hs Hp Hn Hc He) as (its & Em & _ & _ & _ & _ & H15 & _).
    split; [|rewrite (em_labels _ _ _ Em); apply add_refs_length]. unfold cursor. rewrite (em_cur _ _ _ Em), (em_page _ _ _ Em). cbn [counter with_counter]. lia. }
  destruct i; try (apply G; exact Logic.I). clear G. destruct (label_stmt _ _ _ _ _ _ _ _ Hc He) as (_ & E & _). split; [lia|].
  cbn [compile] in Hc. inversion Hc; subst. cbn in He. unfold bind, ret in He. destruct (bind_label (lenv ident) s) as [[] s2|] eqn:B; [|discriminate]. inversion He; subst.
  unfold bind_label, on_cur, bind_label_on, bind, get_counter, modify_label in B. destruct (lenv ident <? length (labels s))%nat; [|discriminate].
  inversion B; subst. cbn [labels set_labels]. apply upd_nth_length.
Qed.
Lemma stmt_goes r i g s : same_but_imm r0 r -> regular ev r0 i -> compile i = Some g -> cursor s + 15 <= PAGE_SIZE ->
  (forall x, In x (inst_labels i) \/ i = ILabel x -> (lenv x < length (labels s))%nat) -> taken_as_ins (eval ev r0) i ->
  exists r' s1, exec ev lenv r g s = Ok r' s1.
Proof.
  intros Hs Hp Hc Hr Hl Ht. destruct (is_instr i) eqn:Hi.
  - pose proof Hp as [_ Hk]. destruct (Hk Hi) as [_ Hsc].
    pose proof (taken_total ev lenv r i g s Hi (regular_free ev r0 r Hs i Hp) (regular_u8 ev r0 r Hs i Hp Hi) Hsc Hc Hr (fun x Hx => Hl x (or_introl Hx))) as T.
    rewrite (same_assembled r i Hs Hp) in T. specialize (Ht Hi). destruct (assembled _ _ i); [|congruence]. destruct T as (r' & s1 & bs & E & _). eauto.
  - destruct i; try discriminate Hi.
    + cbn [compile] in Hc; inversion Hc; subst. specialize (Hl ident (or_intror eq_refl)). apply Nat.ltb_lt in Hl. cbn. unfold bind, ret, bind_label, on_cur, bind_label_on, bind, get_counter, modify_label. rewrite Hl. eauto.
    + destruct (compile_has_trace ev lenv _ _ r Hc Logic.I) as [t Htr]. rewrite (exec_run _ _ _ _ _ s Htr).
      cbn [compile] in Hc. destruct (float_ok bits); [|discriminate Hc]. apply (f_equal (fun o => match o with Some u => u | None => g end)) in Hc. cbv beta iota in Hc. subst g.
      cbn [t_exec t_call g1] in Htr. apply (f_equal (fun o => match o with Some u => u | None => t end)) in Htr. cbv beta iota in Htr. subst t.
      destruct (run_trace_cases (tseq (tbytes (le 8 bits)) tret) s) as [(s1 & -> & _)|(e & s1 & -> & _ & [[_ H]|[[_ H]|[H _]]])]; [eauto| | |discriminate H].
      * unfold tlen in H. replace (items_len (fst (tseq (tbytes (le 8 bits)) tret))) with 8 in H by reflexivity. unfold cursor in Hr. lia.
      * elim H. repeat constructor.
    + destruct (compile_has_trace ev lenv _ _ r Hc Logic.I) as [t Htr]. rewrite (exec_run _ _ _ _ _ s Htr).
      cbn [compile] in Hc. apply (f_equal (fun o => match o with Some u => u | None => g end)) in Hc. cbv beta iota in Hc. subst g.
      cbn [t_exec t_call g1] in Htr. apply (f_equal (fun o => match o with Some u => u | None => t end)) in Htr. cbv beta iota in Htr. subst t.
      destruct (run_trace_cases (tseq (titem (IQ (u64 v))) tret) s) as [(s1 & -> & _)|(e & s1 & -> & _ & [[_ H]|[[_ H]|[H _]]])]; [eauto| | |discriminate H].
      * unfold tlen in H. replace (items_len (fst (tseq (titem (IQ (u64 v))) tret))) with 8 in H by reflexivity. unfold cursor in Hr. lia.
      * elim H. repeat constructor.
Qed.
Lemma all_accepted : forall body r gs s r' s1, same_but_imm r0 r -> Forall (regular ev r0) body ->
  compile_all body = Some gs -> exec_all ev lenv r gs s = Ok r' s1 -> Forall (taken_as_ins (eval ev r0)) body.
Proof.
  induction body as [|i body IH]; intros r gs s r' s1 Hs Hp Hc He; [constructor|].
  destruct (compile_all_cons _ _ _ Hc) as (g & gs' & Hg & Hc' & ->). destruct (exec_all_cons _ _ _ _ _ _ _ _ He) as (r2 & s2 & He1 & He2).
  inversion Hp as [|? ? Hi Hp']; subst. constructor; [eapply stmt_accepted; eauto|]. exact (IH r2 gs' s2 r' s1 (env_same _ _ _ _ _ _ _ _ _ Hs Hg He1) Hp' Hc' He2).
Qed.
Lemma all_go : forall body r gs s, same_but_imm r0 r -> Forall (regular ev r0) body -> compile_all body = Some gs ->
  cursor s + 15 * Z.of_nat (length body) <= PAGE_SIZE ->
  (forall x, In x (body_labels body) \/ In x (defined body) -> (lenv x < length (labels s))%nat) -> Forall (taken_as_ins (eval ev r0)) body ->
  exists r' s1, exec_all ev lenv r gs s = Ok r' s1.
Proof.
  induction body as [|i body IH]; intros r gs s Hs Hp Hc Hr Hl Ht.
  - cbn [compile_all] in Hc. inversion Hc; subst. cbn. eauto.
  - destruct (compile_all_cons _ _ _ Hc) as (g & gs' & Hg & Hc' & ->). inversion Hp as [|? ? Hi Hp']; subst. inversion Ht as [|? ? Ti Ht']; subst.
    cbn [length] in Hr. destruct (stmt_goes r i g s Hs Hi Hg ltac:(lia)) as (r2 & s2 & E).
    + intros x Hx. apply Hl. unfold body_labels, defined. cbn [flat_map]. rewrite !in_app_iff. destruct Hx as [Hx| ->]; [auto|]. right. left. left. reflexivity.
    + exact Ti.
    + destruct (stmt_effect r i g s r2 s2 Hs Hi Hg E) as [C L].
      destruct (IH r2 gs' s2 (env_same _ _ _ _ _ _ _ _ _ Hs Hg E) Hp' Hc' ltac:(lia)) as (r' & s1 & E').
      * intros x Hx. rewrite L. apply Hl. unfold body_labels, defined in *. cbn [flat_map]. rewrite !in_app_iff. tauto.
      * exact Ht'.
      * exists r', s1. cbn [exec_all]. unfold bind. rewrite E. exact E'.
Qed.
End Block.
Lemma block_total ev lenv r body s : Forall (regular ev r) body -> compile_all body <> None -> cursor s + 15 * Z.of_nat (length body) <= PAGE_SIZE ->
  (forall x, In x (body_labels body) \/ In x (defined body) -> (lenv x < length (labels s))%nat) ->
  ((exists s1, step (OAsm ev lenv r body) s = Ok None s1) <-> Forall (taken_as_ins (eval ev r)) body).
Proof.
  intros Hp Hc Hr Hl. destruct (compile_all body) as [gs|] eqn:E; [|congruence]. split.
  - intros [s1 Es]. destruct (block_after _ _ _ _ _ _ _ Es) as (gs' & r' & Hc' & He). rewrite E in Hc'. injection Hc' as <-.
    eapply all_accepted; eauto using same_refl.
  - intro Ht. destruct (all_go ev lenv r body r gs s (same_refl r) Hp E Hr Hl Ht) as (r' & s1 & He). exists s1. cbn [step]. rewrite E. unfold bind, ret. rewrite He. reflexivity.
Qed.
