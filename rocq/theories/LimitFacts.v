(** Lemmas behind C76: how many bytes an instruction takes. *)
From Coq Require Import Lia ZifyBool.
From Verif Require Import Base ModelMem ModelEnc ModelSyntax ModelMacro SpecX86 SpecAsm SpecState SpecHist Trace Emit StateFid SpecLimit.
Local Open Scope list_scope.
Local Open Scope Z_scope.

(** ** At least *)
Lemma tseq_ok a b : snd (tseq a b) = None -> snd a = None /\ snd b = None /\ tlen (tseq a b) = tlen a + tlen b.
Proof.
  unfold tseq, tlen. destruct (snd a) eqn:E; cbn [fst snd]; [discriminate|]. intros H. rewrite items_len_app. auto.
Qed.
Lemma tlen_nonneg t : 0 <= tlen t. Proof. apply items_len_nonneg. Qed.
Lemma seq_r a b n : (snd b = None -> n <= tlen b) -> snd (tseq a b) = None -> n <= tlen (tseq a b).
Proof. intros H K. destruct (tseq_ok a b K) as (_ & B & ->). pose proof (tlen_nonneg a). specialize (H B). lia. Qed.
Lemma seq_l a b n : (snd a = None -> n <= tlen a) -> snd (tseq a b) = None -> n <= tlen (tseq a b).
Proof. intros H K. destruct (tseq_ok a b K) as (A & _ & ->). pose proof (tlen_nonneg b). specialize (H A). lia. Qed.
Lemma fail_no e n : snd (tfail e) = None -> n <= tlen (tfail e). Proof. discriminate. Qed.

Lemma encode_least op rk mm r i : snd (t_encode op rk mm r i) = None -> 1 <= tlen (t_encode op rk mm r i).
Proof.
  assert (G : forall m k t, snd (tseq (t_modrm mm m k) t) = None -> 1 <= tlen (tseq (t_modrm mm m k) t)).
  { intros m k t. apply seq_l. intros _. rewrite tlen_modrm. lia. }
  unfold t_encode. apply seq_r.
  destruct r as [b [|[|k x] [|d|d|l]]]; cbn [rm_base rm_mode mode_disp mode_scale scale_index rip_ind_from mode_is_reg negb andb is_indirect_no_disp];
  repeat match goal with |- context [if ?b then _ else _] => destruct b end;
  first [apply fail_no | apply seq_r, seq_r, G].
Qed.
Definition call_least (c : gcall) : Z :=
  match c with
  | GBindLabel _ | GSaveReloc _ _ => 0
  | GEmit bs => Z.of_nat (List.length bs)
  | GEmitwImm => 2 | GEmitlImm | GEmitl _ => 4 | GEmitqLit _ | GEmitqImm => 8
  | GEncD op _ => Z.of_nat (List.length op) + 4
  | _ => 1
  end.
Fixpoint code_least (g : gcode) : Z :=
  match g with
  | GNil => 0
  | GPanic => 100
  | GDo c k => call_least c + code_least k
  | GLetImm _ k => code_least k
  | GIf _ t e k => Z.min (code_least t) (code_least e) + code_least k
  end.
Lemma op_least m a b : snd (tseq a (tseq m (titem (IB b)))) = None -> 1 <= tlen (tseq a (tseq m (titem (IB b)))).
Proof. apply seq_r, seq_r. intros _. rewrite tlen_item. cbn. lia. Qed.
Lemma call_at_least ev lenv r c t : t_call ev lenv r c = Some t -> snd t = None -> call_least c <= tlen t.
Proof.
  destruct c; cbn [t_call]; intros H; inversion H; subst; clear H; cbn [call_least];
    rewrite ?tlen_bytes, ?tlen_item; cbn [item_len]; try lia; try apply encode_least;
    try (unfold t_enc_o, t_enc_oi_byte, t_enc_rexw_o, t_op_with_rd; apply op_least).
  - intros _. unfold t_enc_d. unfold tlen, tseq, tbytes, titem. cbn [fst snd]. rewrite items_len_app, items_len_bytes.
    change (items_len [IRel false (lenv ident) 4]) with 4. lia.
  - unfold t_enc_digit_imm_byte. destruct (rm_is_rax _); [|destruct (rm_is_reg _); apply encode_least].
    apply seq_l. intros _. rewrite tlen_item. cbn. lia.
Qed.
Lemma exec_at_least ev lenv g : forall r t, t_exec ev lenv r g = Some t -> snd t = None -> code_least g <= tlen t.
Proof.
  induction g as [|c k IH|e k IH|c t1 IHt e1 IHe k IH|]; intros r t H N.
  - inversion H. cbn. lia.
  - assert (Hgen : match t_call ev lenv r c, t_exec ev lenv r k with Some a, Some b => Some (tseq a b) | _, _ => None end = Some t ->
                   code_least (GDo c k) <= tlen t).
    { intro K. destruct (t_call ev lenv r c) as [a|] eqn:Ea; [|discriminate]. destruct (t_exec ev lenv r k) as [b|] eqn:Eb; [|discriminate].
      inversion K; subst. destruct (tseq_ok a b N) as (A & B & ->). cbn [code_least].
      pose proof (call_at_least _ _ _ _ _ Ea A). pose proof (IH _ _ Eb B). lia. }
    destruct c; try (apply Hgen; exact H). cbn [t_exec] in H.
    destruct k as [|c2 k2| | |]; try discriminate. destruct c2; try discriminate.
    destruct v; try discriminate.
    destruct (t_exec ev lenv r k2) as [b|] eqn:Eb; [|discriminate]. inversion H; subst. destruct (tseq_ok _ b N) as (_ & B & ->).
    specialize (IH r (tseq (titem (IL 0)) b)). cbn [t_exec t_call] in IH. rewrite Eb in IH. specialize (IH eq_refl).
    assert (S : snd (tseq (titem (IL 0)) b) = None) by exact B. specialize (IH S). destruct (tseq_ok _ _ S) as (_ & _ & L). rewrite L in IH.
    rewrite tlen_item in *. cbn [item_len] in *. cbn [code_least call_least] in *. lia.
  - cbn [t_exec code_least] in *. eapply IH; [exact H|exact N].
  - cbn [t_exec code_least] in *. destruct (run_cond ev r c) as [bb r'].
    destruct (if bb then t_exec ev lenv r' t1 else t_exec ev lenv r e1) as [a|] eqn:Ea; [|discriminate].
    destruct (t_exec ev lenv r k) as [b|] eqn:Eb; [|discriminate]. inversion H; subst. destruct (tseq_ok a b N) as (A & B & ->).
    pose proof (IH _ _ Eb B). destruct bb; [pose proof (IHt _ _ Ea A)|pose proof (IHe _ _ Ea A)]; lia.
  - inversion H; subst. discriminate N.
Qed.
Lemma compile_bounds i g : compile i = Some g -> least i <= code_least g /\ gcode_len g <= most i.
Proof.
  intro H. destruct i; cbn [compile] in H;
  try (unfold binary_op, binary_opq, binary_opl, binary_opw, binary_opb, shift_op, divide_op, binary_sd_op,
         push_pop, count_op, xchg, testq, testb, movq, movl, movw, movb in H);
  repeat match goal with H : context [match ?x with _ => _ end] |- _ => destruct x; try discriminate end;
  inversion H; subst; clear H; vm_compute; split; discriminate.
Qed.

(** ** Overflow *)
Lemma encode_no_over op rk mm r i : snd (t_encode op rk mm r i) <> Some PageOverflow.
Proof.
  assert (S : forall a b, snd a <> Some PageOverflow -> snd b <> Some PageOverflow -> snd (tseq a b) <> Some PageOverflow).
  { intros a b. unfold tseq. destruct (snd a) as [e|]; cbn [snd]; auto. }
  assert (A : forall b, snd (tassert b) <> Some PageOverflow) by (intros []; discriminate).
  assert (N1 : forall a b c d, snd (t_rex_fn rk a b c d) <> Some PageOverflow).
  { intros. destruct rk; cbn [t_rex_fn]; unfold t_rexw, t_rex_none, t_rex_none_byte, t_rex;
    repeat match goal with |- context [if ?b then _ else _] => destruct b end; discriminate. }
  assert (N3 : forall a b c, snd (t_sib a b c) <> Some PageOverflow) by (intros; unfold t_sib; apply S; [apply A|apply S; [apply A|discriminate]]).
  assert (N4 : forall d, snd (t_disp_imm d i) <> Some PageOverflow) by (intros; unfold t_disp_imm; apply S; [destruct d|destruct i]; discriminate).
  assert (N5 : forall e, snd (t_modrm mm (fst e) (snd e)) <> Some PageOverflow) by (intros; discriminate).
  unfold t_encode. apply S; [apply A|].
  destruct r as [b [|[|k x] [|d|d|l]]]; cbn [rm_base rm_mode mode_disp mode_scale scale_index rip_ind_from mode_is_reg negb andb is_indirect_no_disp];
  repeat match goal with |- context [if ?b then _ else _] => destruct b end;
  repeat first [ simple apply S | simple apply N1 | simple apply N3 | simple apply N4 | discriminate ].
Qed.
Lemma call_no_over ev lenv r c t : t_call ev lenv r c = Some t -> snd t <> Some PageOverflow.
Proof.
  assert (S : forall a b, snd a <> Some PageOverflow -> snd b <> Some PageOverflow -> snd (tseq a b) <> Some PageOverflow).
  { intros a b. unfold tseq. destruct (snd a) as [e|]; cbn [snd]; auto. }
  assert (A : forall b, snd (tassert b) <> Some PageOverflow) by (intros []; discriminate).
  destruct c; cbn [t_call]; intro H; inversion H; subst; clear H; try discriminate; try apply encode_no_over.
  - apply S; [apply A|]. apply S; [|discriminate]. unfold t_rex_none; destruct (_ || _); discriminate.
  - apply S; [apply A|]. apply S; [|discriminate]. unfold t_rex_none; destruct (_ || _); discriminate.
  - apply S; [apply A|]. apply S; [|discriminate]. unfold t_rex_none_byte; destruct (_ || _); [discriminate|]. destruct (_ || _); discriminate.
  - apply S; [apply A|]. apply S; discriminate.
  - unfold t_enc_digit_imm_byte. destruct (rm_is_rax _); [|destruct (rm_is_reg _); apply encode_no_over].
    apply S; [discriminate|]. destruct i; discriminate.
Qed.
Lemma exec_no_over ev lenv g : forall r t, t_exec ev lenv r g = Some t -> snd t <> Some PageOverflow.
Proof.
  assert (S : forall a b, snd a <> Some PageOverflow -> snd b <> Some PageOverflow -> snd (tseq a b) <> Some PageOverflow).
  { intros a b. unfold tseq. destruct (snd a) as [e|]; cbn [snd]; auto. }
  induction g as [|c k IH|e k IH|c t1 IHt e1 IHe k IH|]; intros r t H.
  - inversion H. discriminate.
  - assert (Hgen : match t_call ev lenv r c, t_exec ev lenv r k with Some a, Some b => Some (tseq a b) | _, _ => None end = Some t ->
                   snd t <> Some PageOverflow).
    { intro K. destruct (t_call ev lenv r c) as [a|] eqn:Ea; [|discriminate]. destruct (t_exec ev lenv r k) as [b|] eqn:Eb; [|discriminate].
      inversion K; subst. apply S; [eapply call_no_over; exact Ea|eapply IH; eauto]. }
    destruct c; try (apply Hgen; exact H). cbn [t_exec] in H.
    destruct k as [|c2 k2| | |]; try discriminate. destruct c2; try discriminate.
    destruct v; try discriminate.
    destruct (t_exec ev lenv r k2) as [b|] eqn:Eb; [|discriminate]. inversion H; subst.
    specialize (IH r (tseq (titem (IL 0)) b)). cbn [t_exec t_call] in IH. rewrite Eb in IH. specialize (IH eq_refl).
    exact IH.
  - cbn [t_exec] in *. eapply IH; eassumption.
  - cbn [t_exec] in *.
    destruct (run_cond ev r c) as [bb r'].
    destruct (if bb then t_exec ev lenv r' t1 else t_exec ev lenv r e1) as [a|] eqn:Ea; [|discriminate].
    destruct (t_exec ev lenv r k) as [b|] eqn:Eb; [|discriminate]. inversion H; subst.
    apply S; [destruct bb; [eapply IHt|eapply IHe]; eauto|eapply IH; eauto].
  - inversion H; subst. discriminate.
Qed.

(** ** States *)
Lemma stmt_takes ev lenv i g r s : compile i = Some g ->
  match exec ev lenv r g s with
  | Ok _ s' => cur s' = cur s /\ cursor s + least i <= cursor s' <= cursor s + most i
  | Panic e s' => e = PageOverflow -> PAGE_SIZE < cursor s + most i
  end.
Proof.
  intros Hc. assert (D : (exists x, i = ILabel x) \/ match i with ILabel _ => False | _ => True end) by (destruct i; eauto).
  destruct D as [[x ->]|D].
  - cbn [compile] in Hc. injection Hc as <-. change (least (ILabel x)) with 0. change (most (ILabel x)) with 0. unfold g1, exec. unfold run_call, bind_label, on_cur, bind_label_on, bind, get_counter, modify_label, get, ret.
    unfold cursor. destruct (_ <? _)%nat; cbn; [split; [reflexivity|lia]|discriminate].
  - destruct (compile_has_trace ev lenv i g r Hc D) as [t Ht]. rewrite (exec_run _ _ _ _ _ s Ht).
    destruct (compile_bounds i g Hc) as [L U]. pose proof (t_exec_len _ _ _ _ _ Ht) as U'. pose proof (exec_no_over _ _ _ _ _ Ht) as V.
    destruct (run_trace_cases t s) as [(s1 & -> & N & E & _)|(e & s1 & -> & _ & C)].
    + pose proof (exec_at_least _ _ _ _ _ Ht N) as L'. destruct E as [B C LL P O M]. split; [exact C|]. unfold cursor. rewrite C, P. cbn [counter with_counter].
      unfold tlen in *. lia.
    + intros ->. destruct C as [[_ C]|[[C _]|[C _]]]; [unfold cursor; lia|discriminate C|congruence].
Qed.
Lemma instr_takes ev lenv r i g s r' s' : is_instr i = true -> compile i = Some g -> exec ev lenv r g s = Ok r' s' ->
  cursor s + 1 <= cursor s' <= cursor s + 12.
Proof.
  intros I Hc E. pose proof (stmt_takes ev lenv i g r s Hc) as H. rewrite E in H. unfold least, most in H. destruct i; try discriminate I; cbn [fixed] in H; try lia; destruct d; lia.
Qed.
Lemma stmt_bounds ev lenv r i g s r' s' : compile i = Some g -> exec ev lenv r g s = Ok r' s' -> cursor s + least i <= cursor s' <= cursor s + most i.
Proof. intros Hc E. pose proof (stmt_takes ev lenv i g r s Hc) as H. rewrite E in H. apply H. Qed.
Lemma sum_nonneg body : 0 <= sum most body.
Proof. induction body as [|i l IH]; cbn [sum fold_right]; [lia|]. unfold sum in IH. unfold most at 1. destruct i; cbn [fixed]; try lia; destruct d; lia. Qed.
Lemma all_take ev lenv body : forall gs r s, compile_all body = Some gs ->
  match exec_all ev lenv r gs s with
  | Ok _ s' => cur s' = cur s /\ cursor s + sum least body <= cursor s' <= cursor s + sum most body
  | Panic e s' => e = PageOverflow -> PAGE_SIZE < cursor s + sum most body
  end.
Proof.
  induction body as [|i l IH]; intros gs r s; cbn [compile_all].
  - intros H. injection H as <-. cbn. split; [reflexivity|lia].
  - destruct (compile i) as [g|] eqn:Hc; [|discriminate]. destruct (compile_all l) as [gl|] eqn:Hl; [|discriminate]. intros H. injection H as <-.
    cbn [exec_all]. unfold bind. pose proof (stmt_takes ev lenv i g r s Hc) as A. pose proof (sum_nonneg l) as N.
    change (sum least (i :: l)) with (least i + sum least l). change (sum most (i :: l)) with (most i + sum most l).
    destruct (exec ev lenv r g s) as [r1 s1|e s1]; [|intros Q; specialize (A Q); lia].
    specialize (IH gl r1 s1 eq_refl). destruct A as [A1 A2].
    destruct (exec_all ev lenv r1 gl s1) as [r2 s2|e s2]; [destruct IH as [B1 B2]; split; [congruence|lia]|intros Q; specialize (IH Q); lia].
Qed.
Lemma block_takes ev lenv r body s o s' : step (OAsm ev lenv r body) s = Ok o s' ->
  cursor s + sum least body <= cursor s' <= cursor s + sum most body.
Proof.
  cbn [step]. destruct (compile_all body) as [gs|] eqn:Hc; [|discriminate]. unfold bind. pose proof (all_take ev lenv body gs r s Hc) as A.
  destruct (exec_all ev lenv r gs s) as [r1 s1|e s1]; [|discriminate]. unfold ret. intros H. injection H as <- <-. apply A.
Qed.
Lemma block_overflow ev lenv r body s s' : step (OAsm ev lenv r body) s = Panic PageOverflow s' -> PAGE_SIZE < cursor s + sum most body.
Proof.
  cbn [step]. destruct (compile_all body) as [gs|] eqn:Hc; [|discriminate]. unfold bind. pose proof (all_take ev lenv body gs r s Hc) as A.
  destruct (exec_all ev lenv r gs s) as [r1 s1|e s1]; [discriminate|]. intros H. injection H as -> <-. apply A. reflexivity.
Qed.
