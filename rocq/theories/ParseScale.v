(** What the parser yields has scale factors 1, 2, 4 or 8 only. *)
From Verif Require Import Base ModelSyntax ModelParse SpecAsm SpecTaken.

Section Scale.
Variable is_expr : list tok -> bool.
Variable checks : bool.
Notation ok a := (match ia_scale a with PScaleNone => True | PS1 k _ => 0 <= k <= 3 end).
Definition yields {A} (P : A -> Prop) (p : parser A) : Prop := forall ts a r, p ts = Some (a, r) -> P a.

Lemma y_scale ts k r : p_scale ts = Some (k, r) -> 0 <= k <= 3.
Proof.
  unfold p_scale. intro H.
  repeat match type of H with context [match ?x with _ => _ end] => destruct x; try discriminate H end; injection H as <- <-; lia.
Qed.
Ltac cases H := repeat match type of H with context [match ?x with _ => _ end] => destruct x eqn:?; try discriminate H end.
Lemma y_body : yields (fun a => ok a) (p_ind_body is_expr checks).
Proof.
  intros ts a r H. unfold p_ind_body in H. cases H; injection H as <- <-; cbn [ia_scale]; auto; eapply y_scale; eassumption.
Qed.
Lemma y_ind : yields (fun a => ok a) (p_ind is_expr checks).
Proof. intros ts a r H. unfold p_ind in H. cases H. injection H as <- <-. eapply y_body; eassumption. Qed.
Lemma y_rm : yields (fun a => Forall (fun a => ok a) (rm_mems a)) (p_rm is_expr checks).
Proof. intros ts a r H. unfold p_rm in H. cases H; injection H as <- <-; repeat constructor. eapply y_ind; eassumption. Qed.
Lemma y_rmi : yields (fun a => Forall (fun a => ok a) (rmi_mems a)) (p_rmi is_expr checks).
Proof. intros ts a r H. unfold p_rmi in H. cases H; injection H as <- <-; repeat constructor. eapply y_ind; eassumption. Qed.
Lemma y_xm : yields (fun a => Forall (fun a => ok a) (xm_mems a)) (p_xm is_expr checks).
Proof. intros ts a r H. unfold p_xm in H. cases H; injection H as <- <-; repeat constructor. eapply y_ind; eassumption. Qed.
Lemma y_mov : yields (fun a => Forall (fun a => ok a) (mov_mems a)) (p_mov is_expr checks).
Proof. intros ts a r H. unfold p_mov in H. cases H; injection H as <- <-; repeat constructor. eapply y_ind; eassumption. Qed.
Lemma y_dest : yields (fun d => match d with DestInd a => ok a | _ => True end) (p_dest is_expr checks).
Proof. intros ts a r H. unfold p_dest in H. cases H; injection H as <- <-; auto. eapply y_ind; eassumption. Qed.
Lemma y_any A (p : parser A) : yields (fun _ => True) p. Proof. intros ts a r _. exact I. Qed.

Lemma y0 i : scales_written i -> yields scales_written (p0 i).
Proof. intros Hi ts a r H. unfold p0 in H. cases H. injection H as <- <-. exact Hi. Qed.
Lemma y1 A (P : A -> Prop) p f : yields P p -> (forall a, P a -> scales_written (f a)) -> yields scales_written (p1 p f).
Proof. intros Hp Hf ts a r H. unfold p1 in H. destruct (p ts) as [[x r']|] eqn:E; [|discriminate H]. eapply y0; [|exact H]. eauto. Qed.
Lemma y2 A B (P : A -> Prop) (Q : B -> Prop) p q f : yields P p -> yields Q q -> (forall a b, P a -> Q b -> scales_written (f a b)) ->
  yields scales_written (p2 p q f).
Proof.
  intros Hp Hq Hf ts a r H. unfold p2, p_comma in H. destruct (p ts) as [[x r']|] eqn:E; [|discriminate H].
  destruct (p_punct "," r') as [[u r2]|]; [|discriminate H]. eapply (y1 _ Q q (f x)); [exact Hq| |exact H]. eauto.
Qed.
Lemma y3 A B C (P : A -> Prop) (Q : B -> Prop) (R : C -> Prop) p q t f : yields P p -> yields Q q -> yields R t ->
  (forall a b c, P a -> Q b -> R c -> scales_written (f a b c)) -> yields scales_written (p3 p q t f).
Proof.
  intros Hp Hq Ht Hf ts a r H. unfold p3, p_comma in H. destruct (p ts) as [[x r']|] eqn:E; [|discriminate H].
  destruct (p_punct "," r') as [[u r2]|]; [|discriminate H]. destruct (q r2) as [[y r3]|] eqn:Eq; [|discriminate H].
  destruct (p_punct "," r3) as [[u' r4]|]; [|discriminate H]. eapply (y1 _ R t (f x y)); [exact Ht| |exact H]. eauto.
Qed.
Ltac fin := intros; unfold scales_written, mems_of; cbn [operands fst snd]; rewrite ?Forall_app; auto using Forall_nil.
Lemma y_mnemonics : Forall (fun e => yields scales_written (snd e)) (mnemonics is_expr checks).
Proof.
  unfold mnemonics. repeat constructor; cbn [snd].
  all: try (eapply y2; [exact y_rm|exact y_rmi|fin]; fail).
  all: try (eapply y2; [apply y_any|exact y_rm|fin]; fail).
  all: try (eapply y2; [exact y_rm|apply y_any|fin]; fail).
  all: try (eapply y2; [exact y_rm|exact y_rm|fin]; fail).
  all: try (eapply y2; [apply y_any|exact y_xm|fin]; fail).
  all: try (eapply y1; [exact y_rm|fin]; fail).
  all: try (apply y0; fin; fail).
  all: try (eapply y1; [apply y_any|fin]; fail).
  - eapply y2; [exact y_mov|exact y_mov|fin].
  - eapply y2; [exact y_rmi|exact y_rmi|fin].
  - eapply y2; [exact y_xm|exact y_xm|fin].
  - eapply y3; [apply y_any|exact y_xm|apply y_any|fin].
  - eapply y1; [exact y_dest|]. intros d Hd. unfold scales_written, mems_of. destruct d; cbn [operands fst snd]; repeat constructor. exact Hd.
  - eapply y1; [exact y_dest|]. intros d Hd. unfold scales_written, mems_of. destruct d; cbn [operands fst snd]; repeat constructor. exact Hd.
  - intros ts a r H. unfold p_dq in H. cases H; (eapply y0; [|exact H]); fin.
Qed.
Lemma assoc_in A s (l : list (string * A)) v : assoc s l = Some v -> exists k, In (k, v) l.
Proof.
  induction l as [|[k x] l IH]; cbn [assoc]; [discriminate|]. destruct (String.eqb _ _).
  - intro H; injection H as ->. exists k. left. reflexivity.
  - intro H. destruct (IH H) as [k' Hk]. exists k'. right. exact Hk.
Qed.
Lemma y_inst : yields scales_written (p_inst is_expr checks).
Proof.
  intros ts a r H. unfold p_inst in H. destruct (p_ident ts) as [[s r']|]; [|discriminate H].
  destruct (peek_punct ":" r'); [injection H as <- <-; constructor|]. unfold p_mnemonic in H.
  destruct (assoc s (mnemonics is_expr checks)) as [p|] eqn:E.
  - destruct (assoc_in _ _ _ _ E) as [k Hk]. pose proof y_mnemonics as Y. rewrite Forall_forall in Y. exact (Y _ Hk _ _ _ H).
  - destruct (starts_with "cmov" s).
    + unfold p_cmov in H. cases H; (eapply (y2 _ _ _ _ (p_register is_expr) (p_rm is_expr checks)); [apply y_any|exact y_rm| |exact H]; fin).
    + destruct (starts_with "set" s); [|discriminate H]. unfold p_set in H. cases H.
      eapply (y1 _ _ (p_rm is_expr checks)); [exact y_rm| |exact H]; fin.
Qed.
Lemma parsed_scales ts is : p_stmts is_expr checks ts = Some is -> Forall scales_written is.
Proof.
  unfold p_stmts. generalize (List.length ts). intro n. revert ts is. induction n as [|n IH]; intros ts is H; destruct ts; cbn [p_stmts_n] in H;
    try discriminate H; try (injection H as <-; constructor).
  destruct (p_inst is_expr checks (t :: ts)) as [[i r]|] eqn:E; [|discriminate H]. destruct (p_stmts_n is_expr checks n r) eqn:E2; [|discriminate H].
  injection H as <-. constructor; [eapply y_inst; exact E|eapply IH; exact E2].
Qed.
End Scale.
