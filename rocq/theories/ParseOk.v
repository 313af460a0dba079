(** The parser (ModelParse.v) accepts exactly the grammar (SpecGrammar.v): operands. *)
From Coq Require Import Lia ZifyBool ZifyNat.
From Verif Require Import Base ModelSyntax ModelParse SpecX86 SpecAsm SpecGrammar.
Open Scope string_scope.
Local Open Scope list_scope.
Local Open Scope Z_scope.
Local Notation length := List.length.

(** ** Words *)
Lemma incl_of (l m : list string) : forallb (fun x => existsb (String.eqb x) m) l = true -> incl l m.
Proof.
  intros H x Hx. rewrite forallb_forall in H. specialize (H x Hx). rewrite existsb_exists in H.
  destruct H as [y [Hy E]]. apply String.eqb_eq in E. subst. exact Hy.
Qed.
Lemma is_ident_spec s : is_ident s = true <-> name s.
Proof.
  unfold is_ident, name. rewrite negb_true_iff, <- not_true_iff_false, existsb_exists. split; intros H K; apply H.
  - exists s. split; [|apply String.eqb_refl].
    refine (incl_of reserved keywords _ s K). vm_compute. reflexivity.
  - destruct K as [x [Hx E]]. apply String.eqb_eq in E. subst.
    refine (incl_of keywords reserved _ x Hx). vm_compute. reflexivity.
Qed.
Lemma lower_same a b : same_char a b -> lower_ascii a = lower_ascii b.
Proof.
  intros [->|[n [[Hn [-> ->]]|[Hn [-> ->]]]]]; [reflexivity| |]; unfold lower_ascii; rewrite !nat_ascii_embedding by lia;
    replace (Nat.leb 65 n && Nat.leb n 90)%bool with true by lia; replace (Nat.leb 65 (n + 32) && Nat.leb (n + 32) 90)%bool with false by lia;
    reflexivity.
Qed.
Lemma same_lower a : same_char a (lower_ascii a).
Proof.
  unfold lower_ascii. set (n := nat_of_ascii a). destruct (Nat.leb 65 n && Nat.leb n 90)%bool eqn:E; [|left; reflexivity].
  right. exists n. left. split; [lia|]. split; [|reflexivity]. unfold n. symmetry. apply ascii_nat_embedding.
Qed.
Lemma lower_same_word s t : same_word s t -> lower s = lower t.
Proof. induction 1; simpl; [reflexivity|]. f_equal; [apply lower_same; assumption|assumption]. Qed.
Lemma same_lower_word s : same_word s (lower s).
Proof. induction s; simpl; constructor; [apply same_lower|assumption]. Qed.
Lemma assoc_in {A} s (l : list (string * A)) v : assoc s l = Some v -> In (s, v) l.
Proof.
  induction l as [|[k w] l IH]; simpl; [discriminate|]. destruct (String.eqb s k) eqn:E; intros H.
  - apply String.eqb_eq in E. inversion H. subst. left. reflexivity.
  - right. auto.
Qed.
Lemma reg_spec s n : reg_from_str s = Some n <-> register_name s n.
Proof.
  unfold reg_from_str, register_name. split.
  - intros H. apply assoc_in in H. exists (lower s). split; [|apply same_lower_word].
    simpl in H. repeat (destruct H as [H|H]; [injection H as <- <-; vm_compute; tauto|]). destruct H.
  - intros [t [Hin Hs]]. apply lower_same_word in Hs. rewrite Hs. clear Hs.
    simpl in Hin. repeat (destruct Hin as [Hin|Hin]; [injection Hin as <- <-; vm_compute; reflexivity|]). destruct Hin.
Qed.
Lemma reg_none s : reg_from_str s = None <-> forall n, ~ register_name s n.
Proof.
  split.
  - intros H n K. apply reg_spec in K. congruence.
  - intros H. destruct (reg_from_str s) as [n|] eqn:E; [|reflexivity]. apply reg_spec in E. destruct (H n E).
Qed.
(** Register names start with r or c in either case: no keyword, not R. *)
Lemma reg_word s n : register_name s n -> is_ident s = true /\ String.eqb s "R" = false /\ starts_with "xmm" s = false /\ String.eqb s "qword" = false.
Proof.
  intros H. apply reg_spec in H.
  assert (K : forall t, reg_from_str t = None -> s <> t) by (intros t Ht ->; congruence).
  split.
  - apply is_ident_spec. intros Hin. revert H.
    assert (Hall : Forall (fun t => reg_from_str t = None) reserved) by (repeat constructor).
    rewrite Forall_forall in Hall. rewrite (Hall s Hin). discriminate.
  - split; [apply String.eqb_neq, K; reflexivity|]. split; [|apply String.eqb_neq, K; reflexivity].
    destruct s as [|c s']; [reflexivity|]. unfold starts_with. cbn [String.prefix]. destruct (ascii_dec "x" c) as [<-|]; [|reflexivity].
    exfalso. unfold reg_from_str in H. apply assoc_in in H. cbn [lower] in H. change (lower_ascii "x") with "x"%char in H.
    simpl in H. repeat (destruct H as [H|H]; [discriminate H|]). destruct H.
Qed.

(** ** Numbers *)
Lemma digit_spec c d :
  digit c d <-> (let n := nat_of_ascii c in (Nat.leb 48 n && Nat.leb n 57)%bool = true /\ Z.of_nat (n - 48) = d).
Proof.
  split.
  - intros [n Hn]. cbv zeta. rewrite nat_ascii_embedding by lia. split; lia.
  - cbv zeta. intros [H <-]. rewrite <- (ascii_nat_embedding c) at 1. set (n := nat_of_ascii c) in *.
    replace n with (48 + (n - 48))%nat at 1 by lia. constructor. lia.
Qed.
Lemma digits_snoc s : forall acc c,
  digits (s ++ String c "") acc =
  match digits s acc with
  | Some n => let k := nat_of_ascii c in if (Nat.leb 48 k && Nat.leb k 57)%bool then Some (10 * n + Z.of_nat (k - 48)) else None
  | None => None
  end.
Proof.
  induction s as [|x s IH]; intros acc c; cbn [digits append]; [reflexivity|].
  destruct (_ && _)%bool; [apply IH|reflexivity].
Qed.
Lemma string_snoc s : s = "" \/ exists t c, s = (t ++ String c "")%string.
Proof.
  induction s as [|x s IH]; [left; reflexivity|right]. destruct IH as [->|[t [c ->]]].
  - exists "", x. reflexivity.
  - exists (String x t), c. reflexivity.
Qed.
Lemma length_snoc t c : String.length (t ++ String c "") = S (String.length t).
Proof. induction t; simpl; [reflexivity|]. rewrite IHt. reflexivity. Qed.
Lemma decimal_spec s n : decimal s n <-> s <> "" /\ digits s 0 = Some n.
Proof.
  split.
  - induction 1 as [c d H|s n c d H [IH1 IH2] Hd].
    + split; [discriminate|]. apply digit_spec in H. cbv zeta in H. destruct H as [H <-]. cbn [digits]. rewrite H. reflexivity.
    + split; [destruct s; discriminate|]. rewrite digits_snoc, IH2. apply digit_spec in Hd. cbv zeta in *. destruct Hd as [Hd <-]. rewrite Hd. reflexivity.
  - intros [H1 H2]. remember (String.length s) as m eqn:Em. revert s n Em H1 H2. induction m as [|m IH]; intros s n Em H1 H2.
    + destruct s; [congruence|discriminate].
    + destruct (string_snoc s) as [->|[t [c ->]]]; [congruence|]. rewrite digits_snoc in H2. cbv zeta in H2.
      destruct (digits t 0) as [k|] eqn:Et; [|discriminate].
      destruct (_ && _)%bool eqn:Ec; [|discriminate]. injection H2 as <-.
      assert (Hd : digit c (Z.of_nat (nat_of_ascii c - 48))) by (apply digit_spec; split; [exact Ec|reflexivity]).
      destruct (string_snoc t) as [->|[t' [c' ->]]].
      * cbn in Et. injection Et as <-. apply (dec_one c _ Hd).
      * apply dec_more; [|exact Hd]. apply IH; [rewrite length_snoc in Em; congruence| |exact Et]. destruct t'; discriminate.
Qed.
Lemma substring_all s : String.substring 0 (String.length s) s = s.
Proof. induction s; simpl; [reflexivity|]. rewrite IHs. reflexivity. Qed.
Lemma from_3 a b c s : from_ 3 (String a (String b (String c s))) = s.
Proof. unfold from_. cbn [String.length]. replace (S (S (S (String.length s))) - 3)%nat with (String.length s) by lia. cbn [String.substring]. apply substring_all. Qed.
Lemma starts_xmm s : starts_with "xmm" s = true <-> exists t, s = ("xmm" ++ t)%string.
Proof.
  unfold starts_with. split.
  - destruct s as [|a [|b [|c t]]]; cbn [String.prefix]; repeat (destruct (ascii_dec _ _) as [<-|]; [|try discriminate]); try discriminate.
    intros _. exists t. reflexivity.
  - intros [t ->]. cbn [append String.prefix]. repeat (destruct (ascii_dec _ _) as [_|N]; [|congruence]). destruct t; reflexivity.
Qed.
Lemma xmm_ident t : is_ident ("xmm" ++ t) = true.
Proof.
  unfold is_ident. apply negb_true_iff. rewrite <- not_true_iff_false, existsb_exists. intros [x [Hx E]]. apply String.eqb_eq in E. subst x.
  cbn in Hx. repeat (destruct Hx as [Hx|Hx]; [discriminate Hx|]). destruct Hx.
Qed.

Ltac kase := match goal with
  | H : context [match ?x with _ => _ end] |- _ => destruct x eqn:?; try discriminate
  end.
Ltac eqb_char := repeat match goal with
  | H : Ascii.eqb ?a ?b = true |- _ => apply Ascii.eqb_eq in H; try subst
  | H : String.eqb ?a ?b = true |- _ => apply String.eqb_eq in H; try subst
  end.

Section Ok.
Variable is_expr : list tok -> bool.
Variable checks : bool.
Local Notation E := (fun ts => is_expr ts = true).
Local Notation g_register := (g_register E).
Local Notation g_offset := (g_offset E checks true).
Local Notation g_address := (g_address E checks true).
Local Notation g_mem := (g_mem E checks true).
Local Notation g_disp := (g_disp E).

(** ** Operands *)
Lemma lit_complete w v rest : g_int w v -> p_lit (w ++ rest) = Some (v, rest).
Proof. intros []; reflexivity. Qed.
Lemma lit_sound ts v rest : p_lit ts = Some (v, rest) -> exists w, ts = w ++ rest /\ g_int w v.
Proof.
  unfold p_lit. intros H. repeat kase; subst; injection H as <- <-; eqb_char.
  - eexists [_]. split; [reflexivity|constructor].
  - eexists [_; _]. split; [reflexivity|constructor].
Qed.
Lemma float_complete w v rest : g_float w v -> p_float (w ++ rest) = Some (v, rest).
Proof. intros []; reflexivity. Qed.
Lemma float_sound ts v rest : p_float ts = Some (v, rest) -> exists w, ts = w ++ rest /\ g_float w v.
Proof.
  unfold p_float. intros H. repeat kase; subst; injection H as <- <-; eqb_char.
  - eexists [_]. split; [reflexivity|constructor].
  - eexists [_; _]. split; [reflexivity|constructor].
Qed.
Lemma int_head w v rest : g_int w v -> peek_ident (w ++ rest) = false /\ peek_paren (w ++ rest) = false /\ peek_bracket (w ++ rest) = false /\ peek_lit (w ++ rest) = true.
Proof. intros []; repeat split; reflexivity. Qed.
Lemma register_complete w r rest : g_register w r -> p_register is_expr (w ++ rest) = Some (r, rest).
Proof.
  intros [s n H|e He]; unfold p_register, p_ident, parse_register.
  - destruct (reg_word s n H) as [H1 [H2 _]]. apply reg_spec in H. cbn [app]. rewrite H1, H2, H. reflexivity.
  - cbn. cbn in He. rewrite He. reflexivity.
Qed.
Lemma parse_register_sound s ts r rest : parse_register is_expr s ts = Some (r, rest) -> exists w, TIdent s :: ts = w ++ rest /\ g_register w r.
Proof.
  unfold parse_register, p_paren_expr. intros H. repeat kase; subst; injection H as <- <-; eqb_char.
  - injection Heqo as <- <-. eexists [_; _]. split; [reflexivity|]. constructor. assumption.
  - eexists [_]. split; [reflexivity|]. constructor. apply reg_spec. assumption.
Qed.
Lemma register_sound ts r rest : p_register is_expr ts = Some (r, rest) -> exists w, ts = w ++ rest /\ g_register w r.
Proof.
  unfold p_register, p_ident. intros H. repeat kase; subst. injection Heqo as <- <-. apply parse_register_sound. exact H.
Qed.
Lemma register_head w r rest : g_register w r -> peek_ident (w ++ rest) = true.
Proof. intros [s n H|e He]; cbn; [exact (proj1 (reg_word s n H))|reflexivity]. Qed.
Lemma check_complete w r rest : g_register w r ->
  exists s w', w = TIdent s :: w' /\ is_ident s = true /\ check_register is_expr s (w' ++ rest) = Some (Some r, rest).
Proof.
  intros [s n H|e He].
  - exists s, []. destruct (reg_word s n H) as [H1 [H2 _]]. apply reg_spec in H. repeat split; [exact H1|]. unfold check_register. cbn [app]. rewrite H2, H. reflexivity.
  - exists "R", [TGroup Paren e]. repeat split. cbn. cbn in He. rewrite He. reflexivity.
Qed.
Lemma check_sound s ts r rest : check_register is_expr s ts = Some (Some r, rest) -> exists w, TIdent s :: ts = w ++ rest /\ g_register w r.
Proof.
  intros H. apply parse_register_sound. unfold check_register in H. unfold parse_register. repeat kase; subst; injection H as <- <-; reflexivity.
Qed.
Lemma check_none s ts rest : check_register is_expr s ts = Some (None, rest) -> rest = ts /\ s <> "R" /\ reg_from_str s = None.
Proof.
  unfold check_register. intros H. repeat kase; subst; injection H as <-. split; [reflexivity|]. split; [|reflexivity].
  intros ->. discriminate.
Qed.
Lemma disp_complete w d rest : g_disp w d -> p_disp is_expr (w ++ rest) = Some (d, rest) /\ peek_ident (w ++ rest) = false.
Proof.
  intros [w' v H1 H2|e He]; unfold p_disp.
  - destruct (int_head w' v rest H1) as [A [B [_ D]]]. rewrite A, B, D, (lit_complete _ _ _ H1), H2. split; reflexivity.
  - cbn. cbn in He. rewrite He. split; reflexivity.
Qed.
Lemma disp_sound ts d rest : p_disp is_expr ts = Some (d, rest) ->
  exists w, ts = w ++ rest /\ (g_disp w d \/ exists x, name x /\ w = [TIdent x] /\ d = PLabel x).
Proof.
  unfold p_disp. destruct (peek_paren ts).
  - unfold p_paren_expr. intros H. repeat kase; subst; injection H as <- <-. injection Heqo as <- <-.
    eexists [_]. split; [reflexivity|]. left. constructor. assumption.
  - destruct (peek_lit ts).
    + destruct (p_lit ts) as [[v r]|] eqn:El; [|discriminate]. destruct (in_i32 v) eqn:Ei; [|discriminate]. intros [= <- <-].
      destruct (lit_sound _ _ _ El) as [w [-> Hw]]. exists w. split; [reflexivity|]. left. constructor; assumption.
    + unfold p_ident. intros H. repeat kase; subst; injection H as <- <-. injection Heqo as <- <-.
      eexists [_]. split; [reflexivity|]. right. eexists. split; [apply is_ident_spec; eassumption|]. split; reflexivity.
Qed.
Lemma in_i32_neg v : in_i32 v = true -> v <> - 2 ^ 31 -> in_i32 (- v) = true.
Proof. unfold in_i32. lia. Qed.
Lemma scale_complete w k rest : g_scale w k -> peek_punct "*" rest = false -> p_scale (w ++ rest) = Some (k, rest).
Proof.
  intros [|w' j Hj Hw] Hr; unfold p_scale.
  - cbn [app]. rewrite Hr. reflexivity.
  - cbn [app peek_punct tl]. rewrite (lit_complete _ _ _ Hw).
    assert (D : j = 0 \/ j = 1 \/ j = 2 \/ j = 3) by lia. destruct D as [->|[->|[->| ->]]]; reflexivity.
Qed.
Lemma scale_sound ts k rest : p_scale ts = Some (k, rest) -> exists w, ts = w ++ rest /\ g_scale w k.
Proof.
  unfold p_scale. destruct (peek_punct "*" ts) eqn:Ep.
  - unfold peek_punct in Ep. repeat kase. eqb_char. cbn [tl]. destruct (p_lit l) as [[v r]|] eqn:El; [|discriminate].
    destruct (lit_sound _ _ _ El) as [w [-> Hw]]. intros H. exists (TPunct "*" :: w).
    assert (K : 0 <= k <= 3 /\ v = 2 ^ k /\ r = rest).
    { repeat kase; injection H as <- <-; (split; [lia|split; [lia|reflexivity]]). }
    destruct K as [K1 [-> ->]]. split; [reflexivity|]. constructor; assumption.
  - intros [= <- <-]. exists []. split; [reflexivity|constructor].
Qed.
(** A sign and a displacement. *)
Lemma disp_sign_minus ts d rest : p_disp_sign is_expr checks true ts = Some (d, rest) ->
  forall ix, exists w, TPunct "-" :: ts = w ++ rest /\ g_offset ix w d.
Proof.
  unfold p_disp_sign. destruct (p_disp is_expr ts) as [[d0 r]|] eqn:Ed; [|discriminate]. destruct (disp_sound _ _ _ Ed) as [w [-> Hw]].
  intros H ix. exists (TPunct "-" :: w). destruct Hw as [Hw|[x [Hx [-> ->]]]].
  - destruct Hw as [w v Hv Hi|e He]; cbn [neg_disp] in H.
    + destruct (Z.eqb_spec v (- 2 ^ 31)) as [->|Hne].
      * destruct checks eqn:Ec; [discriminate|]. injection H as <- <-. split; [reflexivity|]. apply go_quirk_min; auto.
      * injection H as <- <-. split; [reflexivity|]. apply go_minus_lit; auto. apply in_i32_neg; auto.
    + injection H as <- <-. split; [reflexivity|]. apply go_minus_expr. exact He.
  - cbn [neg_disp] in H. injection H as <- <-. split; [reflexivity|]. apply go_quirk_minus; auto.
Qed.
Lemma minus_complete ix w d rest : g_offset ix (TPunct "-" :: w) d -> p_disp_sign is_expr checks true (w ++ rest) = Some (d, rest).
Proof.
  unfold p_disp_sign. intros H. inversion H; subst.
  - rewrite (proj1 (disp_complete _ _ rest (gd_lit _ _ _ H1 H2))). cbn [neg_disp].
    replace (v =? - 2 ^ 31) with false; [reflexivity|]. unfold in_i32 in *. lia.
  - match goal with K : is_expr ?e = true |- _ => rewrite (proj1 (disp_complete _ _ rest (gd_expr E e K))) end. reflexivity.
  - match goal with K : name ?x |- _ => apply is_ident_spec in K; cbn; rewrite K end. reflexivity.
  - match goal with K : g_int w _ |- _ => rewrite (proj1 (disp_complete _ _ rest (gd_lit _ _ _ K eq_refl))) end. cbn [neg_disp].
    rewrite Z.eqb_refl. reflexivity.
Qed.
Lemma offset_shape ix w d : g_offset ix w d -> (exists w', w = TPunct "-" :: w') \/ (exists w', w = TPunct "+" :: w').
Proof. intros []; eauto. Qed.
Lemma plus_indexed w d rest : g_offset true (TPunct "+" :: w) d -> p_disp is_expr (w ++ rest) = Some (d, rest).
Proof.
  intros H. inversion H; subst.
  - apply (proj1 (disp_complete _ _ rest H1)).
  - destruct H1 as [K _]. apply is_ident_spec in K. cbn. rewrite K. reflexivity.
  - match goal with K : register_name _ _ |- _ => destruct (reg_word _ _ K) as [K1 _] end. cbn. rewrite K1. reflexivity.
Qed.

Lemma address_complete w a : g_address w a -> p_ind_body is_expr checks w = Some (a, []).
Proof.
  intros [w0 b Hb|w0 b w' d Hb Ho|w0 b wi r ws k Hb Hi Hs|w0 b wi r ws k w' d Hb Hi Hs Ho]; unfold p_ind_body.
  - rewrite <- (app_nil_r w0), (register_complete _ _ _ Hb). reflexivity.
  - rewrite (register_complete _ _ _ Hb). destruct (offset_shape _ _ _ Ho) as [[v ->]|[v ->]].
    + cbn [p_sign peek_punct tl Ascii.eqb Bool.eqb]. rewrite <- (app_nil_r v), (minus_complete _ _ _ _ Ho). reflexivity.
    + cbn [p_sign peek_punct tl Ascii.eqb Bool.eqb]. inversion Ho; subst; [| |discriminate].
      * match goal with K : g_disp _ _ |- _ => destruct (disp_complete _ _ [] K) as [K1 K2] end. rewrite app_nil_r in *. rewrite K1, K2. reflexivity.
      * match goal with K : label_name _ |- _ => destruct K as [K1 K2] end. cbn [peek_ident p_ident].
        apply is_ident_spec in K1. rewrite K1. unfold check_register. apply reg_none in K2. rewrite K2.
        replace (String.eqb x "R") with false; [reflexivity|]. symmetry. apply String.eqb_neq.
        match goal with K : _ \/ _ |- _ => destruct K as [K|K]; [discriminate|exact K] end.
  - rewrite (register_complete _ _ _ Hb). cbn [p_sign peek_punct tl Ascii.eqb Bool.eqb].
    destruct (check_complete _ _ (ws ++ []) Hi) as [s [w' [-> [Hid Hc]]]]. cbn [app]. cbn [peek_ident p_ident]. rewrite Hid.
    rewrite <- (app_nil_r ws), Hc. rewrite (scale_complete _ _ [] Hs eq_refl). reflexivity.
  - rewrite (register_complete _ _ _ Hb). cbn [p_sign peek_punct tl Ascii.eqb Bool.eqb].
    destruct (check_complete _ _ (ws ++ w') Hi) as [s [v [-> [Hid Hc]]]]. cbn [app]. cbn [peek_ident p_ident]. rewrite Hid, Hc.
    destruct (offset_shape _ _ _ Ho) as [[u ->]|[u ->]]; rewrite (scale_complete _ _ _ Hs) by reflexivity.
    + cbn [p_sign peek_punct tl Ascii.eqb Bool.eqb]. rewrite <- (app_nil_r u), (minus_complete _ _ _ _ Ho). reflexivity.
    + cbn [p_sign peek_punct tl Ascii.eqb Bool.eqb]. unfold p_disp_sign. rewrite <- (app_nil_r u), (plus_indexed _ _ _ Ho). reflexivity.
Qed.
Lemma sign_true ts r : p_sign ts = Some (Some true, r) -> ts = TPunct "-" :: r.
Proof. unfold p_sign. intros H. repeat kase; injection H as <-; unfold peek_punct in *; repeat kase; eqb_char; reflexivity. Qed.
Lemma sign_false ts r : p_sign ts = Some (Some false, r) -> ts = TPunct "+" :: r.
Proof. unfold p_sign. intros H. repeat kase; injection H as <-; unfold peek_punct in *; repeat kase; eqb_char; reflexivity. Qed.
Lemma sign_none ts r : p_sign ts = Some (None, r) -> r = ts.
Proof. unfold p_sign. intros H. repeat kase; injection H as <-; reflexivity. Qed.
Lemma sign_some ts : p_sign ts <> None.
Proof. unfold p_sign. repeat match goal with |- context [if ?b then _ else _] => destruct b end; discriminate. Qed.
(** Soundness with the tokens after the address. *)
Lemma address_sound ts a rest : p_ind_body is_expr checks ts = Some (a, rest) -> exists w, ts = w ++ rest /\ g_address w a.
Proof.
  unfold p_ind_body. destruct (p_register is_expr ts) as [[b r]|] eqn:Eb; [|discriminate].
  destruct (register_sound _ _ _ Eb) as [w [-> Hb]]. clear Eb.
  destruct (p_sign r) as [[[[]|] r2]|] eqn:Es; [| | |destruct (sign_some _ Es)].
  - apply sign_true in Es. subst r. destruct (p_disp_sign is_expr checks true r2) as [[d r3]|] eqn:Ed; [|discriminate].
    intros [= <- <-]. destruct (disp_sign_minus _ _ _ Ed false) as [w' [-> Ho]]. exists (w ++ w'). split; [rewrite app_assoc; reflexivity|].
    apply ga_disp; assumption.
  - apply sign_false in Es. subst r. destruct (peek_ident r2) eqn:Ei.
    + destruct (p_ident r2) as [[s r3]|] eqn:Ep; [|discriminate].
      assert (Hr2 : r2 = TIdent s :: r3 /\ is_ident s = true).
      { unfold p_ident in Ep. repeat kase. injection Ep as <- <-. split; [reflexivity|assumption]. }
      destruct Hr2 as [-> Hid]. destruct (check_register is_expr s r3) as [[[reg|] r4]|] eqn:Ec; [| |discriminate].
      * destruct (check_sound _ _ _ _ Ec) as [wi [Ewi Hi]]. rewrite Ewi in *. clear Ec Ewi.
        destruct (p_scale r4) as [[k r5]|] eqn:Ek; [|discriminate]. destruct (scale_sound _ _ _ Ek) as [ws [-> Hs]].
        destruct (p_sign r5) as [[[n|] r6]|] eqn:Es; [| |destruct (sign_some _ Es)].
        -- destruct (p_disp_sign is_expr checks n r6) as [[d r7]|] eqn:Ed; [|discriminate]. intros [= <- <-].
           assert (K : exists w', r5 = w' ++ r7 /\ g_offset true w' d).
           { destruct n; [apply sign_true in Es|apply sign_false in Es]; subst r5; [apply disp_sign_minus; exact Ed|].
             unfold p_disp_sign in Ed. destruct (p_disp is_expr r6) as [[d0 r0]|] eqn:Ed0; [|discriminate]. injection Ed as -> ->.
             destruct (disp_sound _ _ _ Ed0) as [w1 [-> [Hd|[x [Hx [-> ->]]]]]].
             - exists (TPunct "+" :: w1). split; [reflexivity|]. apply go_plus. exact Hd.
             - exists [TPunct "+"; TIdent x]. split; [reflexivity|]. destruct (reg_from_str x) as [m|] eqn:Er.
               + apply reg_spec in Er. eapply go_quirk_label; eauto.
               + pose proof (proj1 (reg_none x) Er) as Er'. apply go_plus_label; [split; assumption|left; reflexivity]. }
           destruct K as [w' [-> Ho]]. exists (w ++ TPunct "+" :: wi ++ ws ++ w').
           split; [rewrite <- !app_assoc; cbn [app]; rewrite <- !app_assoc; reflexivity|]. apply ga_full; assumption.
        -- intros [= <- <-]. exists (w ++ TPunct "+" :: wi ++ ws). split; [rewrite <- !app_assoc; cbn [app]; rewrite <- !app_assoc; reflexivity|].
           apply ga_index; assumption.
      * intros [= <- <-]. destruct (check_none _ _ _ Ec) as [-> [HR Hn]]. exists (w ++ [TPunct "+"; TIdent s]). split; [rewrite <- app_assoc; reflexivity|].
        apply ga_disp; [assumption|]. apply go_plus_label; [|right; exact HR]. split; [apply is_ident_spec; assumption|apply reg_none; exact Hn].
    + destruct (p_disp is_expr r2) as [[d r3]|] eqn:Ed; [|discriminate]. intros [= <- <-].
      destruct (disp_sound _ _ _ Ed) as [w' [-> [Hd|[x [Hx [-> ->]]]]]].
      * exists (w ++ TPunct "+" :: w'). split; [rewrite <- app_assoc; reflexivity|]. apply ga_disp; [assumption|]. apply go_plus. exact Hd.
      * exfalso. apply is_ident_spec in Hx. cbn in Ei. congruence.
  - intros [= <- <-]. exists w. split; [reflexivity|]. apply ga_base. exact Hb.
Qed.
Lemma mem_complete w a rest : g_mem w a -> p_ind is_expr checks (w ++ rest) = Some (a, rest).
Proof. intros [w' a' H]. cbn. rewrite (address_complete _ _ H). reflexivity. Qed.
Lemma mem_sound ts a rest : p_ind is_expr checks ts = Some (a, rest) -> exists w, ts = w ++ rest /\ g_mem w a.
Proof.
  unfold p_ind. intros H. repeat kase. subst. injection H as <- <-. destruct (address_sound _ _ _ Heqo) as [w [Ew Hw]]. rewrite app_nil_r in Ew. subst.
  eexists [_]. split; [reflexivity|]. constructor. exact Hw.
Qed.
Lemma mem_head w a rest : g_mem w a -> peek_ident (w ++ rest) = false /\ peek_lit (w ++ rest) = false /\ peek_paren (w ++ rest) = false /\ peek_bracket (w ++ rest) = true.
Proof. intros []; repeat split; reflexivity. Qed.

(** Every operand is followed by a comma or a semicolon. *)
Definition follow (ts : list tok) : Prop := (peek_punct "," ts || peek_punct ";" ts)%bool = true.
Lemma single_one t rest : follow rest -> is_single (t :: rest) = true.
Proof. intros H. exact H. Qed.
Lemma parse_xmm_complete s w e rest : g_xmm (TIdent s :: w) e -> starts_with "xmm" s = true /\ is_ident s = true /\ parse_xmm s (w ++ rest) = Some (e, rest).
Proof.
  intros H. inversion H; subst.
  - split; [apply starts_xmm; eexists; reflexivity|]. split; [apply xmm_ident|]. unfold parse_xmm. match goal with K : decimal _ _ |- _ => apply decimal_spec in K; destruct K as [Hne Hd] end.
    cbn [append]. rewrite from_3. replace (Nat.eqb _ 3) with false; [|destruct s0; [congruence|reflexivity]]. rewrite Hd. replace (n <=? 15) with true by lia. reflexivity.
  - split; [reflexivity|]. split; reflexivity.
Qed.
Lemma parse_xmm_sound s ts e rest : starts_with "xmm" s = true -> parse_xmm s ts = Some (e, rest) -> exists w, TIdent s :: ts = w ++ rest /\ g_xmm w e.
Proof.
  intros Hs H. apply starts_xmm in Hs. destruct Hs as [t ->]. unfold parse_xmm in H. cbn [append] in H. rewrite from_3 in H.
  destruct t as [|c t].
  - unfold p_group_stream in H. cbn in H. repeat kase. injection H as <- <-. eexists [_; _]. split; [reflexivity|]. apply gx_expr.
  - cbn [String.length Nat.eqb] in H. destruct (digits (String c t) 0) as [n|] eqn:Ed; [|discriminate]. destruct (n <=? 15) eqn:En; [|discriminate].
    injection H as <- <-. eexists [_]. split; [reflexivity|]. apply (gx_name (String c t)); [|lia]. apply decimal_spec. split; [discriminate|exact Ed].
Qed.
Lemma xmm_shape w e : g_xmm w e -> exists s w', w = TIdent s :: w'.
Proof. intros []; eauto. Qed.
Lemma xmm_complete w e rest : g_xmm w e -> p_xmm (w ++ rest) = Some (e, rest) /\ peek_ident (w ++ rest) = true.
Proof.
  intros H. destruct (xmm_shape _ _ H) as [s [w' ->]]. destruct (parse_xmm_complete _ _ _ rest H) as [A [B C]].
  unfold p_xmm, p_ident. cbn [app]. rewrite B, A. split; [exact C|exact B].
Qed.
Lemma xmm_sound ts e rest : p_xmm ts = Some (e, rest) -> exists w, ts = w ++ rest /\ g_xmm w e.
Proof.
  unfold p_xmm, p_ident. intros H. repeat kase; subst. injection Heqo as <- <-. eapply parse_xmm_sound; eauto.
Qed.

Definition ok {A} (p : parser A) (c : A -> arg) : Prop :=
  (forall w a rest, g_arg E checks true w (c a) -> follow rest -> p (w ++ rest) = Some (a, rest)) /\
  (forall ts a rest, p ts = Some (a, rest) -> exists w, ts = w ++ rest /\ g_arg E checks true w (c a)).
Ltac sound_with L := match goal with K : _ = Some (_, _) |- _ => apply L in K; destruct K as [? [-> ?]]; eexists; split; [reflexivity|eassumption] end.
Lemma imm_complete w e rest : g_imm w e -> follow rest ->
  peek_ident (w ++ rest) = false /\ peek_bracket (w ++ rest) = false /\
  ((peek_lit (w ++ rest) && is_single (w ++ rest))%bool = true /\ p_imm_lit (w ++ rest) = Some (e, rest) \/
   (peek_lit (w ++ rest) && is_single (w ++ rest))%bool = false /\ peek_paren (w ++ rest) = true /\ p_group_stream (w ++ rest) = Some (e, rest)).
Proof. intros [v|g] Hf; repeat split; [left|right]; repeat split. exact Hf. Qed.
Lemma imm_lit_sound ts e rest : (peek_lit ts && is_single ts)%bool = true -> p_imm_lit ts = Some (e, rest) -> exists w, ts = w ++ rest /\ g_imm w e.
Proof.
  intros Hs. unfold p_imm_lit, p_lit. intros H. repeat kase; subst; injection H as <- <-; try (injection Heqo as <- <-).
  - eexists [_]. split; [reflexivity|]. constructor.
  - cbn in Hs. rewrite andb_false_r in Hs. discriminate.
Qed.
Lemma group_sound ts e rest : p_group_stream ts = Some (e, rest) -> exists w, ts = w ++ rest /\ g_imm w e.
Proof. unfold p_group_stream. intros H. repeat kase; injection H as <- <-. eexists [_]. split; [reflexivity|]. constructor. Qed.

Lemma ok_reg : ok (p_register is_expr) AReg.
Proof. split; [intros; apply register_complete; assumption|]. intros ts a rest H. apply register_sound. exact H. Qed.
Lemma ok_rm : ok (p_rm is_expr checks) ARm.
Proof.
  split.
  - intros w [r|m] rest H Hf; cbn in H; unfold p_rm.
    + rewrite (register_head _ _ rest H), (register_complete _ _ rest H). reflexivity.
    + destruct (mem_head _ _ rest H) as [A [_ [_ D]]]. rewrite A, D, (mem_complete _ _ rest H). reflexivity.
  - intros ts a rest H. unfold p_rm in H. repeat kase; subst; injection H as <- <-; cbn [g_arg]; [sound_with register_sound|sound_with mem_sound].
Qed.
Lemma p_ident_inv ts s r : p_ident ts = Some (s, r) -> ts = TIdent s :: r /\ is_ident s = true.
Proof. unfold p_ident. intros H. repeat kase. injection H as <- <-. auto. Qed.
Lemma p_register_ident ts : p_register is_expr ts = match p_ident ts with Some (s, r) => parse_register is_expr s r | None => None end.
Proof. reflexivity. Qed.
Lemma ok_rmi : ok (p_rmi is_expr checks) ARmi.
Proof.
  split.
  - intros w [e|r|m] rest H Hf; cbn in H; unfold p_rmi.
    + destruct (imm_complete _ _ _ H Hf) as [A [B [[C D]|[C [D F]]]]]; rewrite A, C; [rewrite D; reflexivity|]. rewrite B, D, F. reflexivity.
    + rewrite (register_head _ _ rest H). pose proof (register_complete _ _ rest H) as K. rewrite p_register_ident in K.
      destruct (p_ident (w ++ rest)) as [[s r']|]; [|discriminate]. rewrite K. reflexivity.
    + destruct (mem_head _ _ rest H) as [A [B [C D]]]. rewrite A, B, D, (mem_complete _ _ rest H). reflexivity.
  - intros ts a rest H. unfold p_rmi in H. repeat kase; subst; injection H as <- <-; cbn [g_arg].
    + apply p_ident_inv in Heqo. destruct Heqo as [-> _]. apply parse_register_sound. assumption.
    + eapply imm_lit_sound; eauto.
    + sound_with mem_sound.
    + apply group_sound; assumption.
Qed.
Lemma ok_ri : ok (p_ri is_expr) ARi.
Proof.
  split.
  - intros w [e|r] rest H Hf; cbn in H; unfold p_ri.
    + destruct (imm_complete _ _ _ H Hf) as [A [B [[C D]|[C [D F]]]]]; rewrite A, C; [rewrite D; reflexivity|]. rewrite D, F. reflexivity.
    + rewrite (register_head _ _ rest H), (register_complete _ _ rest H). reflexivity.
  - intros ts a rest H. unfold p_ri in H. repeat kase; subst; injection H as <- <-; cbn [g_arg].
    + sound_with register_sound.
    + eapply imm_lit_sound; eauto.
    + apply group_sound; assumption.
Qed.
Lemma ok_imm : ok p_imm AImm.
Proof.
  split.
  - intros w e rest H Hf; cbn in H; unfold p_imm.
    destruct (imm_complete _ _ _ H Hf) as [A [B [[C D]|[C [D F]]]]]; rewrite C; [rewrite D; reflexivity|]. rewrite D, F. reflexivity.
  - intros ts a rest H. unfold p_imm in H. repeat kase; cbn [g_arg]; [eapply imm_lit_sound; eauto|apply group_sound; assumption].
Qed.
Lemma ok_xmm : ok p_xmm AXmm.
Proof. split; [intros w a rest H _; exact (proj1 (xmm_complete _ _ rest H))|]. intros ts a rest H. apply xmm_sound. exact H. Qed.
Lemma ok_xm : ok (p_xm is_expr checks) AXm.
Proof.
  split.
  - intros w [r|m] rest H Hf; cbn in H; unfold p_xm.
    + destruct (xmm_complete _ _ rest H) as [A B]. rewrite A, B. reflexivity.
    + destruct (mem_head _ _ rest H) as [A [_ [_ D]]]. rewrite A, D, (mem_complete _ _ rest H). reflexivity.
  - intros ts a rest H. unfold p_xm in H. repeat kase; subst; injection H as <- <-; cbn [g_arg]; [sound_with xmm_sound|sound_with mem_sound].
Qed.
Lemma qword_words : is_ident "qword" = true /\ starts_with "xmm" "qword" = false.
Proof. split; reflexivity. Qed.
Lemma p_imm_sound ts e rest : p_imm ts = Some (e, rest) -> exists w, ts = w ++ rest /\ g_imm w e.
Proof. exact (proj2 ok_imm ts e rest). Qed.
Lemma ok_mov : ok (p_mov is_expr checks) AMov.
Proof.
  split.
  - intros w [e sz|r|x|m] rest H Hf; cbn in H; unfold p_mov.
    + destruct sz as [[]|]; [| destruct H | destruct H | destruct H |].
      * destruct H as [x [-> H]]. cbn [app]. change (peek_ident (TIdent "qword" :: x ++ rest)) with true. change (p_ident (TIdent "qword" :: x ++ rest)) with (Some ("qword", x ++ rest)).
        cbn [String.eqb Ascii.eqb Bool.eqb]. rewrite (proj1 ok_imm x e rest H Hf). reflexivity.
      * destruct (imm_complete _ _ _ H Hf) as [A [B [[C D]|[C [D F]]]]]; rewrite A, C; [rewrite D; reflexivity|]. rewrite B, D, F. reflexivity.
    + rewrite (register_head _ _ rest H). destruct H as [s n H|g Hg].
      * destruct (reg_word s n H) as [A [B [C D]]]. apply reg_spec in H. cbn [app p_ident]. rewrite A, D, C. unfold parse_register. rewrite B, H. reflexivity.
      * cbn. cbn in Hg. rewrite Hg. reflexivity.
    + rewrite (proj2 (xmm_complete _ _ rest H)). destruct (xmm_shape _ _ H) as [s [w' ->]]. destruct (parse_xmm_complete _ _ _ rest H) as [A [B C]].
      cbn [app p_ident]. rewrite B, A, C. replace (String.eqb s "qword") with false; [reflexivity|]. symmetry. apply String.eqb_neq. intros ->. discriminate.
    + destruct (mem_head _ _ rest H) as [A [B [C D]]]. rewrite A, B, D, (mem_complete _ _ rest H). reflexivity.
  - intros ts a rest H. unfold p_mov in H. destruct (peek_ident ts).
    + destruct (p_ident ts) as [[s r]|] eqn:Ep; [|discriminate]. apply p_ident_inv in Ep. destruct Ep as [-> _].
      destruct (String.eqb s "qword") eqn:Eq; [|destruct (starts_with "xmm" s) eqn:Ex].
      * eqb_char. destruct (p_imm r) as [[e r']|] eqn:Ei; [|discriminate]. injection H as <- <-. apply p_imm_sound in Ei. destruct Ei as [w [-> Hw]].
        exists (TIdent "qword" :: w). split; [reflexivity|]. cbn. eauto.
      * destruct (parse_xmm s r) as [[e r']|] eqn:Ei; [|discriminate]. injection H as <- <-. eapply parse_xmm_sound; eauto.
      * destruct (parse_register is_expr s r) as [[e r']|] eqn:Ei; [|discriminate]. injection H as <- <-. apply parse_register_sound. exact Ei.
    + repeat kase; subst; injection H as <- <-; cbn [g_arg].
      * eapply imm_lit_sound; eauto.
      * sound_with mem_sound.
      * apply group_sound; assumption.
Qed.
Lemma ok_dest : ok (p_dest is_expr checks) ADest.
Proof.
  split.
  - intros w [n|x|e|m] rest H Hf; cbn in H; unfold p_dest.
    + destruct H as [s [-> H]]. destruct (reg_word s n H) as [A _]. apply reg_spec in H. cbn [app]. rewrite (single_one _ _ Hf). cbn [peek_ident p_ident]. rewrite A, H. reflexivity.
    + destruct H as [-> [H1 H2]]. apply is_ident_spec in H1. apply reg_none in H2. cbn [app]. rewrite (single_one _ _ Hf). cbn [peek_ident p_ident]. rewrite H1, H2. reflexivity.
    + destruct H as [g [-> ->]]. reflexivity.
    + destruct (mem_head _ _ rest H) as [A [_ [C D]]]. rewrite A, C, D, (mem_complete _ _ rest H). reflexivity.
  - intros ts a rest H. unfold p_dest in H. repeat kase; subst; injection H as <- <-; cbn [g_arg].
    + apply p_ident_inv in Heqo. destruct Heqo as [-> _]. apply reg_spec in Heqo0. eexists [_]. split; [reflexivity|]. eauto.
    + apply p_ident_inv in Heqo. destruct Heqo as [-> Hid]. pose proof (proj1 (reg_none _) Heqo0) as Hno. eexists [_]. split; [reflexivity|]. split; [reflexivity|].
      split; [apply is_ident_spec; exact Hid|exact Hno].
    + apply group_sound in Heqo. destruct Heqo as [w [-> K]]. exists w. split; [reflexivity|]. 
      match goal with Hx : peek_paren _ = true |- _ => destruct K; [discriminate Hx|] end. eauto.
    + sound_with mem_sound.
Qed.
Lemma ok_ident : ok p_ident ALabel.
Proof.
  split.
  - intros w x rest [-> H] _. apply is_ident_spec in H. cbn. rewrite H. reflexivity.
  - intros ts x rest H. apply p_ident_inv in H. destruct H as [-> H]. eexists [_]. split; [reflexivity|]. split; [reflexivity|]. apply is_ident_spec. exact H.
Qed.
End Ok.
