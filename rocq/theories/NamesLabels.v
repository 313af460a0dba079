(** Labels named as a variable of the expansion. *)
From Verif Require Import Base ModelMem ModelEnc ModelSyntax ModelMacro ModelEff ModelNames SpecX86 SpecAsm SpecTaken SpecState SpecHist SpecProg SpecScope SpecNames NamesFacts.
Local Open Scope list_scope.
Local Open Scope Z_scope.

Lemma vis l hid : negb (existsb (fun x => within_names x hid) l) = true <-> forall x, In x l -> ~ In x hid.
Proof.
  assert (W : forall x, within_names x hid = true <-> In x hid).
  { intro x. unfold within_names. rewrite existsb_exists. split; [intros (y & H & E); apply String.eqb_eq in E; subst; exact H|]. intro H. exists x. split; [exact H|apply String.eqb_refl]. }
  rewrite negb_true_iff. split.
  - intros H x Hx Hh. rewrite <- not_true_iff_false, existsb_exists in H. apply H. exists x. split; [exact Hx|apply W, Hh].
  - intro H. apply not_true_iff_false. rewrite existsb_exists. intros (x & Hx & Hh). apply (H x Hx), W, Hh.
Qed.
Lemma declares_declared i g : compile i = Some g -> declares i = declared i.
Proof. destruct i; operands; try discriminate; cbn; try reflexivity; destruct (float_ok bits); reflexivity. Qed.
Lemma idents_spec i g hid : compile i = Some g -> (idents_ok hid g = true <-> forall x, In x (inst_labels i) \/ i = ILabel x -> ~ In x (declared i ++ hid)).
Proof.
  assert (D : forall d, label_of_disp d = disp_ident d) by (intro d; destruct d; reflexivity).
  intro H. destruct i; operands; cbn in H; try (destruct (float_ok bits)); try discriminate H; injection H as <-;
  cbn -[disp_ident label_of_disp existsb]; rewrite ?app_nil_r, ?D, ?andb_true_iff, ?vis.
  all: try (split; [intros _ x [Hx|Hx]; [destruct Hx|discriminate Hx]|intros _; intuition; fail]).
  all: cbn [In app] in *.
  all: try (split; [intros K x Hx; destruct Hx as [Hx|Hx]; try discriminate Hx; try (injection Hx as <-); decompose [and] K; intuition (subst; eauto); fail|intros K; repeat split; intros x Hx; specialize (K x); intuition (subst; eauto); fail]).
Qed.
Lemma n_compile_iff i : n_compile i = None <-> compile i = None.
Proof. destruct i; operands; cbn; try (destruct (float_ok bits)); cbn; split; intro H; try reflexivity; discriminate H. Qed.
Theorem labels_names hid body : n_compile_all hid body <> None <-> compile_all body <> None /\ labels_visible hid body.
Proof.
  revert hid. induction body as [|i b IH]; intro hid; cbn.
  { split; [intros _; split; [discriminate|exact I]|intros _; discriminate]. }
  destruct (compile i) as [g|] eqn:Ec; [|split; [intro H; elim H; reflexivity|intros [H _]; elim H; reflexivity]].
  destruct (n_compile i) as [n|] eqn:En; [|apply n_compile_iff in En; congruence].
  rewrite (declares_declared i g Ec). specialize (IH (declared i ++ hid)).
  pose proof (idents_spec i g hid Ec) as HI.
  destruct (n_compile_all (declared i ++ hid) b); destruct (compile_all b); destruct (idents_ok hid g); intuition congruence.
Qed.
Lemma macro_labels W ev lenv evb base r body (w : W) : n_macro W ev lenv evb base r body w <> None <-> compile_all body <> None /\ labels_visible ["jit"%string] body.
Proof. rewrite <- labels_names. unfold n_macro. destruct (n_compile_all ["jit"%string] body); split; congruence. Qed.
