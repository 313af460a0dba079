(** C67, part 3: instructions and blocks. *)
From Verif Require Import Base ModelMem ModelEnc ModelSyntax ModelMacro SpecX86 SpecAsm SpecTaken SpecState SpecHist SpecGas
  Emit Trace EncDec Fidelity FidelityInst StateFid EncFacts TakenFacts MemInv MemStep MemFill MemFinal MemHist MemRun MemMisc MemFacts MemPlace MemThm ProgOne SpecProg ProgBlock
  GasEnc GasInst.
Local Notation length := List.length.
Local Open Scope list_scope.
Local Open Scope Z_scope.

Lemma gas_main ev lenv r i g s r' s' : ordinary ev r i -> is_cvttsd2siq i = false -> rip_labels (eval ev r) i -> compile i = Some g -> exec ev lenv r g s = Ok r' s' ->
  exists bs x, grows s s' bs /\ denote (eval ev r) (fun _ => 0) i = Some x /\ as_gas (count_written (eval ev r) i x) bs.
Proof.
  intros Ho Hk Hl Hc He. destruct (fid_main ev lenv r i g s r' s' Ho Hk Hc He) as (b0 & x & G0 & Hd & _).
  destruct Ho as (Hi & Hw & Hn & Hu). destruct (compile_has_trace ev lenv i g r Hc) as [t Ht]; [destruct i; auto; discriminate|].
  assert (Fx : always ev r (addr_exprs i)). { intros q [->|[v ->]] e Hin; [reflexivity|apply Hn; exact Hin]. }
  pose proof (inst_gas ev lenv r zeros i g t x Hi Hk Fx Hl Hu Hc Ht Hd) as C.
  rewrite (exec_run _ _ _ _ _ s Ht) in He. destruct t as [its o].
  destruct (run_trace (its, o) s) as [[] s1|e s1] eqn:E; [|discriminate He]. inversion He; subst.
  destruct (run_trace_ok _ _ _ E) as (N & Em & R & _). cbn [fst snd] in *.
  exists (flat zeros its), x. split; [|split; [exact Hd|exact (C N)]]. apply emitted_grows; [exact Em|]. destruct R as [R|R]; [exact R|]. subst its.
  pose proof (gr_room _ _ _ G0) as Q. rewrite (em_page _ _ _ Em) in Q. exact Q.
Qed.

(** ** Lengths *)
Lemma le_length n : forall v, length (le n v) = n. Proof. induction n as [|n IH]; intro v; cbn [le length]; auto. Qed.
Lemma rex_w_length f a b c : 0 <= a -> 0 <= b -> 0 <= c -> length (rex_of true f a b c) = 1%nat.
Proof.
  intros Ha Hb Hc. unfold rex_of. cbn [Z.b2z]. assert (8 * 1 + 4 * (a / 8) + 2 * (b / 8) + c / 8 <> 0) by (pose proof (Z.div_pos a 8); pose proof (Z.div_pos b 8); pose proof (Z.div_pos c 8); lia).
  match goal with |- length (if ?q then _ else _) = _ => destruct q eqn:E end; [reflexivity|]. destruct f; cbn in E; lia.
Qed.
Lemma long_alu k w v : let x := mkIns (Alu k) w [OReg w 0; OImm v] in forall l, long_form x = Some l -> exists b, gas x = Some b /\ length l = S (length b).
Proof.
  cbv zeta. intros l H. unfold long_form in H. cbn [i_mnem i_ops i_width] in H. unfold gas, gas_alu. cbn [i_mnem i_ops i_width].
  destruct w; try discriminate H; destruct (in_i8 v); try discriminate H; injection H as <-; (eexists; split; [reflexivity|]);
    unfold form, imm_z; cbn [needs_rex orb]; rewrite !app_length, !le_length; destruct k; reflexivity.
Qed.
Lemma long_mov n v : 0 <= n -> let x := mkIns Mov W64 [OReg W64 n; OImm v] in forall l, long_form x = Some l -> exists b, gas x = Some b /\ length l = (3 + length b)%nat.
Proof.
  intro Hn. cbv zeta. intros l H. unfold long_form in H. cbn [i_mnem i_ops i_width is64 andb] in H. unfold gas, gas_mov. cbn [i_mnem i_ops i_width].
  destruct (in_i32 v); [|discriminate H]. injection H as <-. eexists. split; [reflexivity|].
  unfold form, oform. cbn [SpecGas.index_of SpecGas.base_of needs_rex orb size66 is64]. rewrite !app_length, !le_length, !rex_w_length by lia. cbn [length]. rewrite ?app_length. reflexivity.
Qed.

Definition long_mnem (m : mnem) : bool := match m with Mov | Alu _ => true | _ => false end.
Lemma long_other x : long_mnem (i_mnem x) = false -> long_form x = None.
Proof. destruct x as [m w ops]. unfold long_form. cbn [i_mnem i_ops]. destruct m; intro H; try discriminate H; reflexivity. Qed.
Lemma as_gas_len x bs : as_gas x bs -> forall e, match long_form x with None => e = 0 | Some l => exists b, gas x = Some b /\ Z.of_nat (length l) = Z.of_nat (length b) + e end ->
  exists b, gas x = Some b /\ Z.of_nat (length bs) = Z.of_nat (length b) + e.
Proof.
  unfold as_gas. destruct (long_form x) as [l|]; intros H e He.
  - subst bs. exact He.
  - exists bs. split; [exact H|lia].
Qed.
Section Longer.
Variable val : expr -> Z.
Notation rel := (fun _ : string => 0).
Definition extra (x : ins) (e : Z) : Prop :=
  match long_form x with None => e = 0 | Some l => exists b, gas x = Some b /\ Z.of_nat (length l) = Z.of_nat (length b) + e end.
Lemma two_shape m w p q x : d_two m w p q = Some x -> exists a b, p = Some a /\ q = Some b /\ x = mkIns m w [a; b].
Proof. unfold d_two. destruct p as [a|]; [|discriminate]. destruct q as [b|]; [|discriminate]. cbn [obind]. intro H. injection H as <-. eauto. Qed.
Lemma reg_shape w r o : d_reg val w r = Some o -> o = OReg w (reg_no val r) /\ 0 <= reg_no val r.
Proof. unfold d_reg, guard, is_gpr. destruct ((0 <=? reg_no val r) && (reg_no val r <=? 15)) eqn:E; [|discriminate]. cbn [obind]. intro H. injection H as <-. split; [reflexivity|lia]. Qed.
Lemma mem_shape a o : d_mem val rel a = Some o -> exists m, o = OMem m.
Proof.
  unfold d_mem, guard, obind. intro H. repeat match type of H with context [match ?z with _ => _ end] => destruct z; try discriminate H end; injection H as <-; eauto.
Qed.
Lemma alu_extra k sz a b x : d_alu val rel (Alu k) (width_of sz) a b = Some x -> extra x (alu_longer val sz a b).
Proof.
  unfold d_alu. destruct (guard _); [|discriminate]. cbn [obind]. intro H. apply two_shape in H. destruct H as (p & q & Ep & Eq & ->).
  destruct b as [e|r|m]; cbn [d_rmi] in Eq.
  - unfold d_imm in Eq. destruct (guard _); [|discriminate Eq]. cbn [obind] in Eq. injection Eq as <-. destruct a as [r|m]; cbn [d_rm] in Ep.
    + apply reg_shape in Ep. destruct Ep as [-> Hr]. unfold extra.
      destruct (reg_no val r =? 0) eqn:E0.
      * apply Z.eqb_eq in E0. unfold alu_longer. rewrite E0. pose proof (long_alu k (width_of sz) (i64 (val e))) as L. cbv zeta in L.
        destruct (long_form _) as [l|] eqn:El.
        -- destruct (L l eq_refl) as (b & Eb & Lb). exists b. split; [exact Eb|]. rewrite Lb.
           unfold long_form in El. cbn [i_mnem i_ops i_width] in El. destruct sz; cbn [width_of] in El; try discriminate El; destruct (in_i8 (i64 (val e))); try discriminate El; cbn [andb negb Z.eqb]; lia.
        -- unfold long_form in El. cbn [i_mnem i_ops i_width] in El. destruct sz; cbn [width_of] in El; try reflexivity; destruct (in_i8 (i64 (val e))); try discriminate El; reflexivity.
      * unfold alu_longer, long_form. cbn [i_mnem i_ops i_width]. rewrite E0. cbn [andb]. destruct (reg_no val r); [discriminate E0| |]; destruct sz; reflexivity.
    + apply mem_shape in Ep. destruct Ep as [o ->]. unfold extra, long_form. cbn [i_mnem i_ops]. destruct sz; reflexivity.
  - apply reg_shape in Eq. destruct Eq as [-> _]. unfold extra. rewrite (GasInst.long_noimm) by discriminate. destruct sz, a; reflexivity.
  - apply mem_shape in Eq. destruct Eq as [o ->]. unfold extra. rewrite (GasInst.long_noimm) by discriminate. destruct sz, a; reflexivity.
Qed.
Lemma mov_extra w a b x : w <> W64 -> d_alu val rel Mov w a b = Some x -> extra x 0.
Proof.
  intros Hw. unfold d_alu. destruct (guard _); [|discriminate]. cbn [obind]. intro H. apply two_shape in H. destruct H as (p & q & Ep & Eq & ->).
  unfold extra, long_form. cbn [i_mnem i_ops i_width]. destruct w; try (elim Hw; reflexivity); destruct p; try reflexivity; destruct q; reflexivity.
Qed.
Lemma movq_extra a b x : d_movq val rel a b = Some x -> extra x (longer val (IMovq a b)).
Proof.
  intro H. destruct a as [e z|r|m|q]; destruct b as [e2 z2|r2|m2|q2]; cbn [d_movq] in H; try discriminate H.
  1: { assert (D : d_two Mov W64 (d_reg val W64 r) (Some (OImm (i64 (val e2)))) = Some x) by (destruct z2 as [[]|]; try discriminate H; exact H).
       apply two_shape in D. destruct D as (p & q & Ep & Eq & ->). injection Eq as <-. apply reg_shape in Ep. destruct Ep as [-> Hr].
       unfold extra. cbn [longer]. pose proof (long_mov (reg_no val r) (i64 (val e2)) Hr) as L. cbv zeta in L. destruct (long_form _) as [l|] eqn:El.
       - destruct (L l eq_refl) as (b & Eb & Lb). exists b. split; [exact Eb|]. rewrite Lb. unfold long_form in El. cbn [i_mnem i_ops i_width is64 andb] in El.
         destruct (in_i32 (i64 (val e2))); [lia|discriminate El].
       - unfold long_form in El. cbn [i_mnem i_ops i_width is64 andb] in El. destruct (in_i32 (i64 (val e2))); [discriminate El|reflexivity]. }
  all: apply two_shape in H; destruct H as (p & q' & Ep & Eq & ->);
    repeat match goal with H : d_reg val _ _ = Some _ |- _ => apply reg_shape in H; destruct H as [-> _] | H : d_mem val _ _ = Some _ |- _ => apply mem_shape in H; destruct H as [? ->] end; reflexivity.
Qed.
Lemma extra_count i x : extra x (longer val i) -> count_written val i x = x -> extra (count_written val i x) (longer val i).
Proof. intros H ->. exact H. Qed.
Lemma other_extra x : long_mnem (i_mnem x) = false -> extra x 0.
Proof. intro H. unfold extra. rewrite (long_other x H). reflexivity. Qed.
Lemma with_count_mnem v x : i_mnem (with_count v x) = i_mnem x.
Proof. unfold with_count. destruct (i_ops x) as [|? [|[] []]]; reflexivity. Qed.
Lemma two_mnem m w p q x : d_two m w p q = Some x -> i_mnem x = m.
Proof. intro H. apply two_shape in H. destruct H as (a & b & _ & _ & ->). reflexivity. Qed.
Lemma one_mnem m w p x : d_one m w p = Some x -> i_mnem x = m.
Proof. unfold d_one. destruct p; [|discriminate]. cbn [obind]. intro H. injection H as <-. reflexivity. Qed.
Lemma dest_mnem m d x : d_dest val rel m d = Some x -> i_mnem x = m.
Proof. unfold d_dest, guard, obind. intro H. repeat match type of H with context [match ?z with _ => _ end] => destruct z; try discriminate H end; injection H as <-; reflexivity. Qed.
Lemma shift_mnem m w a b x : d_shift val rel m w a b = Some x -> i_mnem x = Shift m.
Proof. unfold d_shift. destruct b; (destruct (guard _); [|discriminate]); cbn [obind]; apply two_mnem. Qed.
Lemma longer_extra i x : denote val rel i = Some x -> extra (count_written val i x) (longer val i).
Proof.
  intro H. destruct i; cbn [denote] in H; try discriminate H; cbn [count_written longer].
  all: try (eapply alu_extra; exact H).
  all: try (eapply mov_extra; [|exact H]; discriminate).
  all: try (exact (movq_extra _ _ _ H)).
  all: try (apply other_extra; rewrite (two_mnem _ _ _ _ _ H); reflexivity).
  all: try (apply other_extra; rewrite (one_mnem _ _ _ _ H); reflexivity).
  all: try (apply other_extra; injection H as <-; reflexivity).
  all: try (apply other_extra; rewrite (dest_mnem _ _ _ H); reflexivity).
  all: try (apply other_extra; destruct b; rewrite ?with_count_mnem, (shift_mnem _ _ _ _ _ H); reflexivity).
  all: try (destruct (guard _); [|discriminate H]; cbn [obind] in H; apply other_extra; rewrite (two_mnem _ _ _ _ _ H); reflexivity).
  - destruct a; try discriminate H; destruct b; try discriminate H; apply other_extra; rewrite (two_mnem _ _ _ _ _ H); reflexivity.
  - destruct a; try discriminate H; destruct b; try discriminate H; apply other_extra; rewrite (two_mnem _ _ _ _ _ H); reflexivity.
  - destruct (d_xmm val a); [|discriminate H]. destruct (d_xm val rel b); [|discriminate H]. cbn [obind] in H. destruct (guard _); [|discriminate H]. injection H as <-. apply other_extra; reflexivity.
  - destruct d; try discriminate H; apply other_extra; rewrite (dest_mnem _ _ _ H); reflexivity.
Qed.
End Longer.
Lemma gas_length ev lenv r i g s r' s' : ordinary ev r i -> is_cvttsd2siq i = false -> rip_labels (eval ev r) i -> compile i = Some g -> exec ev lenv r g s = Ok r' s' ->
  exists b x, denote (eval ev r) (fun _ => 0) i = Some x /\ gas (count_written (eval ev r) i x) = Some b /\ cursor s' = cursor s + Z.of_nat (length b) + longer (eval ev r) i.
Proof.
  intros Ho Hk Hl Hc He. destruct (gas_main _ _ _ _ _ _ _ _ Ho Hk Hl Hc He) as (bs & x & G & Hd & A).
  destruct (as_gas_len _ _ A _ (longer_extra _ i x Hd)) as (b & Eb & Lb). exists b, x. split; [exact Hd|]. split; [exact Eb|].
  unfold cursor at 1. rewrite (gr_cur _ _ _ G), (gr_cursor _ _ _ G). lia.
Qed.

(** ** Blocks *)
Lemma grows_nil s s' : base s' = base s -> cur s' = cur s -> (forall q, pages s' q = pages s q) -> (forall x, mem s' x = mem s x) -> cursor s <= PAGE_SIZE -> grows s s' [].
Proof.
  intros B C P M R. constructor; auto.
  - rewrite P. unfold cursor. cbn. lia.
  - rewrite P. exact R.
  - rewrite P. auto.
  - intros k b H. destruct k; discriminate H.
Qed.
Lemma grows_app s s1 s2 a b : grows s s1 a -> grows s1 s2 b -> grows s s2 (a ++ b).
Proof.
  intros G1 G2. assert (Hh : here s1 = here s + Z.of_nat (length a)).
  { unfold here. rewrite (gr_base _ _ _ G1), (gr_cur _ _ _ G1). unfold cursor at 1. rewrite (gr_cur _ _ _ G1), (gr_cursor _ _ _ G1). lia. }
  assert (Hc : cursor s1 = cursor s + Z.of_nat (length a)) by (unfold cursor at 1; rewrite (gr_cur _ _ _ G1); apply (gr_cursor _ _ _ G1)).
  pose proof (gr_cur _ _ _ G1) as C1. constructor.
  - rewrite (gr_base _ _ _ G2). apply (gr_base _ _ _ G1).
  - rewrite (gr_cur _ _ _ G2). exact C1.
  - rewrite <- C1, (gr_cursor _ _ _ G2), Hc, app_length. lia.
  - rewrite <- C1. apply (gr_room _ _ _ G2).
  - pose proof (gr_page _ _ _ G1) as P1. pose proof (gr_page _ _ _ G2) as P2. rewrite C1 in P2. intuition congruence.
  - intros q Hq. rewrite (gr_others _ _ _ G2) by congruence. apply (gr_others _ _ _ G1). exact Hq.
  - intros k c H. destruct (Nat.lt_ge_cases k (length a)) as [L|L].
    + rewrite nth_error_app1 in H by exact L. rewrite (gr_frame _ _ _ G2) by (rewrite Hh; lia). apply (gr_bytes _ _ _ G1). exact H.
    + rewrite nth_error_app2 in H by exact L. pose proof (gr_bytes _ _ _ G2 _ _ H) as Q. rewrite Hh in Q. rewrite <- Q. f_equal. lia.
  - intros x Hx. rewrite app_length in Hx. rewrite (gr_frame _ _ _ G2) by (rewrite Hh; lia). apply (gr_frame _ _ _ G1). lia.
Qed.
Section Same.
Variables (ev : list tok -> env -> Z) (r r' : env) (i : inst).
Hypothesis V : forall e, In e (stmt_exprs i) -> eval ev r' e = eval ev r e.
Lemma reg_in c : In c (regs_of i) -> reg_no (eval ev r') c = reg_no (eval ev r) c.
Proof.
  intro H. apply reg_no_ext. intros e He. apply V. unfold stmt_exprs, addr_exprs. rewrite !in_app_iff. left. left. apply in_flat_map. eauto.
Qed.
Lemma mem_in a e : In a (mems_of i) -> In e (mem_exprs a) -> eval ev r' e = eval ev r e.
Proof. intros H He. apply V. unfold stmt_exprs, addr_exprs. rewrite !in_app_iff. left. right. right. apply in_flat_map. eauto. Qed.
Lemma wf_same : wf_operands (eval ev r) i -> wf_operands (eval ev r') i.
Proof.
  intros (A & B & C). rewrite Forall_forall in A, B, C. repeat split; rewrite Forall_forall.
  - intros c Hc. rewrite (reg_in c Hc). apply A, Hc.
  - intros e He. rewrite V; [apply B, He|]. unfold stmt_exprs, addr_exprs. rewrite !in_app_iff. auto.
  - intros a Ha. rewrite (d_mem_ext (eval ev r) (eval ev r') (fun _ => 0) (fun _ => 0)); [apply C, Ha|intros e He; exact (mem_in a e Ha He)|auto].
Qed.
Lemma rip_same : rip_labels (eval ev r) i -> rip_labels (eval ev r') i.
Proof.
  intro H. unfold rip_labels in *. rewrite Forall_forall in *. intros a Ha. specialize (H a Ha). unfold rip_label in *. destruct (ia_disp a); try exact I.
  rewrite <- H. apply reg_no_ext. intros e He. apply (mem_in a e Ha). unfold mem_exprs. apply in_or_app. left. exact He.
Qed.
Lemma count_same x : count_written (eval ev r') i x = count_written (eval ev r) i x.
Proof.
  destruct i; try reflexivity; destruct b as [e|c]; try reflexivity; cbn [count_written]; rewrite (V e); try reflexivity;
    unfold stmt_exprs; apply in_or_app; right; left; reflexivity.
Qed.
End Same.
Lemma stmt_gas ev lenv r0 r i g s r' s1 : same_but_imm r0 r -> plain ev r0 i -> rip_labels (eval ev r0) i -> compile i = Some g -> exec ev lenv r g s = Ok r' s1 ->
  cursor s <= PAGE_SIZE -> exists bs, stmt_bytes (eval ev r0) i bs /\ grows s s1 bs.
Proof.
  intros Hs Hp Hl Hc He Hr. pose proof (plain_regular _ _ _ Hp) as Hg. pose proof (regular_vals ev r0 r Hs i Hg) as V. destruct (is_instr i) eqn:Hi.
  - pose proof Hp as [_ K]. destruct (K Hi) as (Hw & _ & Hk & _).
    assert (Ho : ordinary ev r i) by (split; [exact Hi|]; split; [exact (wf_same _ _ _ _ V Hw)|]; split; [exact (regular_free ev r0 r Hs i Hg)|exact (regular_u8 ev r0 r Hs i Hg Hi)]).
    destruct (gas_main _ _ _ _ _ _ _ _ Ho Hk (rip_same _ _ _ _ V Hl) Hc He) as (bs & x & G & Hd & A).
    rewrite (denote_ext (eval ev r0) (eval ev r) (fun _ => 0) (fun _ => 0) i V) in Hd by (intros ? _; reflexivity).
    rewrite (count_same _ _ _ _ V) in A. exists bs. split; [|exact G]. destruct i; try discriminate Hi; exists x; auto.
  - assert (D : not_label i -> exists bs, reads_back ev lenv r i [] \/ True -> (match i with IF64 v | II64 v => bs = le 8 v | _ => True end) /\ grows s s1 bs).
    { intro Hn. destruct (stmt_items _ _ _ _ _ _ _ _ _ Hs Hg Hn Hc He) as (its & Em & Rm & _ & _ & _ & _ & Rb). exists (flat zeros its). intros _.
      split; [destruct i; try exact I; apply Rb|]. apply emitted_grows; [exact Em|]. destruct Rm as [Rm|Rm]; [exact Rm|]. subst its. cbn. unfold cursor in Hr. lia. }
    destruct i; try discriminate Hi; [clear D| |].
    + exists []. split; [reflexivity|]. cbn [compile] in Hc. inversion Hc; subst. cbn in He. unfold bind, ret in He. destruct (bind_label (lenv ident) s) as [[] s2|] eqn:E; [|discriminate]. inversion He; subst.
      unfold bind_label, on_cur, bind_label_on, bind, get_counter, modify_label in E. destruct (lenv ident <? length (labels s))%nat; [|discriminate].
      inversion E; subst. apply grows_nil; auto.
    + destruct (D I) as (bs & H). destruct (H (or_intror I)) as [-> G]. eexists; split; [|exact G]; reflexivity.
    + destruct (D I) as (bs & H). destruct (H (or_intror I)) as [-> G]. eexists; split; [|exact G]; reflexivity.
Qed.
Lemma all_gas ev lenv r0 : forall body r gs s r' s1, same_but_imm r0 r -> Forall (plain ev r0) body -> Forall (rip_labels (eval ev r0)) body ->
  compile_all body = Some gs -> exec_all ev lenv r gs s = Ok r' s1 -> cursor s <= PAGE_SIZE ->
  exists bss, Forall2 (stmt_bytes (eval ev r0)) body bss /\ grows s s1 (List.concat bss).
Proof.
  induction body as [|i body IH]; intros r gs s r' s1 Hs Hp Hl Hc He Hr.
  - cbn [compile_all] in Hc. inversion Hc; subst. cbn in He. inversion He; subst. exists []. split; [constructor|]. apply grows_nil; auto.
  - destruct (compile_all_cons _ _ _ Hc) as (g & gs' & Hg & Hc' & ->). destruct (exec_all_cons _ _ _ _ _ _ _ _ He) as (r2 & s2 & He1 & He2).
    inversion Hp as [|? ? Hi Hp']; subst. inversion Hl as [|? ? Li Hl']; subst.
    destruct (stmt_gas _ _ _ _ _ _ _ _ _ Hs Hi Li Hg He1 Hr) as (bs & B & G).
    assert (Hr2 : cursor s2 <= PAGE_SIZE) by (unfold cursor; rewrite (gr_cur _ _ _ G); apply (gr_room _ _ _ G)).
    destruct (IH r2 gs' s2 r' s1 (env_same _ _ _ _ _ _ _ _ _ Hs Hg He1) Hp' Hl' Hc' He2 Hr2) as (bss & F & G2).
    exists (bs :: bss). split; [constructor; assumption|]. cbn [List.concat]. exact (grows_app _ _ _ _ _ G G2).
Qed.
Lemma block_gas ev lenv r body s q s1 : reached s -> step (OAsm ev lenv r body) s = Ok q s1 -> Forall (plain ev r) body -> Forall (rip_labels (eval ev r)) body ->
  exists bss, Forall2 (stmt_bytes (eval ev r)) body bss /\ grows s s1 (List.concat bss).
Proof.
  intros R A Hp Hl. unfold step in A. destruct (compile_all body) as [gs|] eqn:Hc; [|discriminate A].
  unfold bind, ret in A. destruct (exec_all ev lenv r gs s) as [r' s2|e s2] eqn:He; [|discriminate A].
  injection A as _ ->. eapply all_gas; eauto. { apply same_refl. } apply (reached_cursor s (cur s) R).
Qed.
