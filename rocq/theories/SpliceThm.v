(** What the expansion evaluates, against what is meant. *)
From Verif Require Import Base ModelSyntax SpecRust ModelSplice SpecSplice SpliceParse SpliceFacts.
Local Open Scope list_scope.
Local Open Scope Z_scope.

Lemma takes_tight p G r checks e : tight e -> takes p G r checks (spliced p e) = takes p G r checks (whole p e).
Proof.
  intros T. destruct p as [|[]| |]; cbn [spliced whole]; try reflexivity; rewrite (cast_tight _ _ T); reflexivity.
Qed.
Lemma disp_same G r checks e : typed G r -> kind_of G e = KTy I32 \/ kind_of G e = KOpen ->
  Forall (fun x => one_type (snd x)) (lefts e) ->
  kind_of G (cast_last I32 e) = KTy I32 /\ kind_of G (XCast (XParen e) I32) = KTy I32 /\
  fits G I32 (cast_last I32 e) = fits G I32 (XCast (XParen e) I32) /\
  (fits G I32 (cast_last I32 e) = true -> value G r checks I32 (cast_last I32 e) = value G r checks I32 (XCast (XParen e) I32)).
Proof.
  intros TG K L. assert (C : compat I32 (kind_of G e)) by (destruct K; [right|left]; assumption).
  pose proof (last_compat G I32 e C L) as CL.
  destruct (cast_last_same G r checks TG I32 e C L (own_i32 G _ CL)) as (A1 & A2 & A3).
  destruct (whole_same G r checks TG I32 e C (own_i32 G _ C)) as (B1 & B2 & B3).
  split; [exact A1|]. split; [exact B1|]. split; [congruence|]. intros F. rewrite A3, B3 by congruence. reflexivity.
Qed.
Lemma takes_same p G r checks e : typed G r -> harmless p G e -> takes p G r checks (spliced p e) = takes p G r checks (whole p e).
Proof.
  intros TG H. destruct p as [|n| |]; cbn [harmless] in H; [reflexivity| | |reflexivity].
  - destruct H as [H|[K L]]; [apply takes_tight; exact H|]. destruct (disp_same G r checks e TG K L) as (A & B & C & D).
    destruct n; cbn [spliced whole takes].
    + apply means_same; [cbn [kind_of]; rewrite A; reflexivity|cbn [kind_of] in *; rewrite B; reflexivity|exact C|].
      intros F. change (value G r checks I32 (XUn UNeg (XParen (cast_last I32 e)))) with
        (match value G r checks I32 (cast_last I32 e) with Some v => arith checks I32 (- v) | None => None end).
      rewrite D by exact F. reflexivity.
    + apply means_same; assumption.
  - destruct H as [H|(K & L & E)]; [apply takes_tight; exact H|].
    assert (C : compat I64 (kind_of G e)) by (right; exact K).
    assert (O : own G I64 (last_operand e) = I64).
    { unfold own. destruct (is_lit (last_operand e)) eqn:Q; [reflexivity|]. destruct E as [E|E]; [rewrite E; reflexivity|congruence]. }
    assert (O' : own G I64 e = I64) by (unfold own; rewrite K; destruct (is_lit e); reflexivity).
    destruct (cast_last_same G r checks TG I64 e C L O) as (A1 & A2 & A3).
    destruct (whole_same G r checks TG I64 e C O') as (B1 & B2 & B3).
    cbn [spliced whole]. unfold takes. rewrite A1, B1. apply means_same; [exact A1|exact B1|congruence|].
    intros F. rewrite A3, B3 by congruence. reflexivity.
Qed.
Theorem splice_partial p ts e : reads ts e -> exists x, reads (code p ts) x /\
  forall G r checks, typed G r -> harmless p G e -> takes p G r checks x = takes p G r checks (whole p e).
Proof. intros H. exists (spliced p e). split; [exact (code_reads p ts e H)|]. intros. apply takes_same; assumption. Qed.
Theorem splice_reading p ts e x : reads ts e -> reads (code p ts) x ->
  x = match p with
      | AtImm => XCast (XParen e) I64
      | AtDisp false => cast_last I32 e
      | AtDisp true => XUn UNeg (XParen (cast_last I32 e))
      | AtCall => cast_last I64 e
      | AtReg => e
      end.
Proof. intros H X. exact (reads_unique _ _ _ X (code_reads p ts e H)). Qed.

(** ** Products and sums with literals in front *)
Lemma mod_low t v : 32 <= bits t -> (wrap t v) mod 2 ^ 32 = v mod 2 ^ 32.
Proof.
  intros L. assert (E : 2 ^ bits t = 2 ^ 32 * 2 ^ (bits t - 32)) by (rewrite <- Z.pow_add_r by lia; f_equal; lia).
  assert (P : 0 < 2 ^ (bits t - 32)) by (apply Z.pow_pos_nonneg; lia).
  assert (M : forall x, (x mod 2 ^ bits t) mod 2 ^ 32 = x mod 2 ^ 32).
  { intros x. rewrite E, Z.rem_mul_r by lia. rewrite Z.mul_comm, Z.mod_add by lia. apply Z.mod_mod. lia. }
  rewrite <- (M (wrap t v)), wrap_mod. apply M.
Qed.
Lemma land_mod a b n : 0 <= n -> (Z.land a b) mod 2 ^ n = Z.land (a mod 2 ^ n) (b mod 2 ^ n).
Proof.
  intros N. apply Z.bits_inj'. intros i I. rewrite Z.land_spec. destruct (Z_lt_le_dec i n).
  - rewrite !Z.mod_pow2_bits_low by lia. apply Z.land_spec.
  - rewrite !Z.mod_pow2_bits_high by lia. reflexivity.
Qed.
Lemma lor_mod a b n : 0 <= n -> (Z.lor a b) mod 2 ^ n = Z.lor (a mod 2 ^ n) (b mod 2 ^ n).
Proof.
  intros N. apply Z.bits_inj'. intros i I. rewrite Z.lor_spec. destruct (Z_lt_le_dec i n).
  - rewrite !Z.mod_pow2_bits_low by lia. apply Z.lor_spec.
  - rewrite !Z.mod_pow2_bits_high by lia. reflexivity.
Qed.
Lemma lxor_mod a b n : 0 <= n -> (Z.lxor a b) mod 2 ^ n = Z.lxor (a mod 2 ^ n) (b mod 2 ^ n).
Proof.
  intros N. apply Z.bits_inj'. intros i I. rewrite Z.lxor_spec. destruct (Z_lt_le_dec i n).
  - rewrite !Z.mod_pow2_bits_low by lia. apply Z.lxor_spec.
  - rewrite !Z.mod_pow2_bits_high by lia. reflexivity.
Qed.
Lemma arith_wrap t v : arith false t v = Some (wrap t v).
Proof. unfold arith. destruct (in_ty t v) eqn:E; [rewrite (wrap_id _ _ E)|]; reflexivity. Qed.
Lemma ring_val o t v w : ring o -> 32 <= bits t -> in_ty I32 v = true ->
  bin_val false o I32 v (wrap I32 w) = match bin_val false o t v w with Some x => Some (wrap I32 x) | None => None end.
Proof.
  intros R L V. assert (W : (wrap I32 w) mod 2 ^ 32 = w mod 2 ^ 32) by exact (wrap_mod I32 w).
  assert (Q : forall x y, x mod 2 ^ 32 = y mod 2 ^ 32 -> wrap I32 x = wrap I32 y) by (intros; apply wrap_of_mod; assumption).
  assert (BI : forall x, in_ty I32 x = true -> forall y, x mod 2 ^ 32 = y mod 2 ^ 32 -> x = wrap I32 y).
  { intros x X y E. rewrite <- (Q _ _ E). symmetry. exact (wrap_id _ _ X). }
  pose proof (bits_in I32 v (wrap I32 w) V (wrap_in _ _)) as (B1 & B2 & B3).
  unfold ring in R. cbn [In] in R. destruct R as [<-|[<-|[<-|[<-|[<-|[<-|[]]]]]]]; cbn [bin_val].
  - rewrite !arith_wrap. f_equal. apply Q. rewrite mod_low by exact L. rewrite Z.add_mod, W, <- Z.add_mod by lia. reflexivity.
  - rewrite !arith_wrap. f_equal. apply Q. rewrite mod_low by exact L. rewrite Zminus_mod, W, <- Zminus_mod. reflexivity.
  - rewrite !arith_wrap. f_equal. apply Q. rewrite mod_low by exact L. rewrite Z.mul_mod, W, <- Z.mul_mod by lia. reflexivity.
  - f_equal. apply BI; [exact B1|]. rewrite !land_mod, W by lia. reflexivity.
  - f_equal. apply BI; [exact B2|]. rewrite !lor_mod, W by lia. reflexivity.
  - f_equal. apply BI; [exact B3|]. rewrite !lxor_mod, W by lia. reflexivity.
Qed.
Lemma lit_ty G t e : kind_of G e = KTy t -> is_lit e = false.
Proof.
  revert t. induction e as [z|b|x|e IH|o e IH|e IH u|o a IHa b IHb]; intros t K; try reflexivity; cbn [is_lit kind_of] in *.
  - discriminate.
  - exact (IH _ K).
  - destruct o; [|reflexivity]. destruct (kind_of G e) eqn:E; try discriminate. exact (IH _ eq_refl).
Qed.
Lemma ring_value G r t e : kind_of G e = KTy t -> 32 <= bits t ->
  Forall (fun x => (exists z, fst x = XLit z) /\ ring (snd x)) (lefts e) -> fits G I32 (cast_last I32 e) = true ->
  kind_of G (cast_last I32 e) = KTy I32 /\
  value G r false I32 (cast_last I32 e) = match value G r false t e with Some v => Some (wrap I32 v) | None => None end.
Proof.
  intros K L F. assert (Base : forall e, kind_of G e = KTy t -> kind_of G (XCast e I32) = KTy I32 /\
    value G r false I32 (XCast e I32) = match value G r false t e with Some v => Some (wrap I32 v) | None => None end).
  { intros x Kx. cbn [kind_of value]. unfold own. rewrite (lit_ty _ _ _ Kx), Kx. split; reflexivity. }
  revert K F. induction e as [z|b|x|e _|o e _|e _ u|o a _ b IHb]; intros K F Fit; cbn [cast_last lefts] in *; try exact (Base _ K).
  apply Forall_cons_iff in F. destruct F as [[[z E] R] F]. cbn [fst snd] in E, R. subst a.
  assert (KB : kind_of G b = KTy t /\ class o <> Shifts /\ class o <> Cmps /\ class o <> Logic).
  { cbn [kind_of] in K. unfold ring in R. cbn [In] in R.
    destruct R as [<-|[<-|[<-|[<-|[<-|[<-|[]]]]]]]; cbn [class] in K |- *; (split; [|repeat split; discriminate]);
      destruct (kind_of G b); cbn [join] in K; congruence. }
  destruct KB as (KB & N1 & N2 & N3). cbn [fits] in Fit.
  assert (FB : in_ty I32 z = true /\ fits G I32 (cast_last I32 b) = true).
  { destruct (class o); try congruence; apply andb_prop in Fit; exact Fit. }
  destruct FB as [Fz FB]. destruct (IHb KB F FB) as [I1 I2]. split.
  - cbn [kind_of]. rewrite I1. cbn [join]. destruct (class o); try congruence.
  - cbn [value]. rewrite I2. destruct (class o) eqn:C; try congruence.
    + destruct (value G r false t b) as [w|]; [|reflexivity]. apply (ring_val o t z w R L Fz).
    + destruct (value G r false t b) as [w|]; [|reflexivity]. apply (ring_val o t z w R L Fz).
Qed.
Theorem splice_ring n ts e x G r t : reads ts e -> reads (code (AtDisp n) ts) x -> kind_of G e = KTy t -> 32 <= bits t ->
  Forall (fun y => (exists z, fst y = XLit z) /\ ring (snd y)) (lefts e) ->
  takes (AtDisp n) G r false x <> None -> takes (AtDisp n) G r false (whole (AtDisp n) e) <> None ->
  takes (AtDisp n) G r false x = takes (AtDisp n) G r false (whole (AtDisp n) e).
Proof.
  intros H X K L F A B. rewrite (splice_reading _ _ _ _ H X) in *. clear H X.
  assert (KW : kind_of G (XCast (XParen e) I32) = KTy I32) by (cbn [kind_of]; rewrite K; reflexivity).
  assert (VW : value G r false I32 (XCast (XParen e) I32) = match value G r false t e with Some v => Some (wrap I32 v) | None => None end).
  { cbn [value]. unfold own. cbn [is_lit kind_of]. rewrite (lit_ty _ _ _ K), K. reflexivity. }
  destruct (fits G I32 (cast_last I32 e)) eqn:Fit.
  - destruct (ring_value G r t e K L F Fit) as [K1 V1].
    destruct n; cbn [takes whole] in *; unfold means in *.
    + change (kind_of G (XUn UNeg (XParen (cast_last I32 e)))) with
        (match kind_of G (cast_last I32 e) with KOpen => KOpen | KTy t => if is_signed t then KTy t else KErr | _ => KErr end) in *.
      change (kind_of G (XUn UNeg (XParen (XCast (XParen e) I32)))) with
        (match kind_of G (XCast (XParen e) I32) with KOpen => KOpen | KTy t => if is_signed t then KTy t else KErr | _ => KErr end) in *.
      change (fits G I32 (XUn UNeg (XParen (cast_last I32 e)))) with (fits G I32 (cast_last I32 e)) in *.
      change (fits G I32 (XUn UNeg (XParen (XCast (XParen e) I32)))) with (fits G I32 (XCast (XParen e) I32)) in *.
      change (value G r false I32 (XUn UNeg (XParen (cast_last I32 e)))) with
        (match value G r false I32 (cast_last I32 e) with Some v => arith false I32 (- v) | None => None end) in *.
      change (value G r false I32 (XUn UNeg (XParen (XCast (XParen e) I32)))) with
        (match value G r false I32 (XCast (XParen e) I32) with Some v => arith false I32 (- v) | None => None end) in *.
      rewrite K1, KW, Fit in *. cbn [is_signed ity_eqb andb] in *. destruct (fits G I32 (XCast (XParen e) I32)); [|congruence].
      rewrite V1, VW. reflexivity.
    + rewrite K1, KW, Fit in *. cbn [ity_eqb andb] in *. destruct (fits G I32 (XCast (XParen e) I32)); [|congruence].
      rewrite V1, VW. reflexivity.
  - exfalso. apply A. destruct n; cbn [takes]; unfold means.
    + change (fits G I32 (XUn UNeg (XParen (cast_last I32 e)))) with (fits G I32 (cast_last I32 e)). rewrite Fit.
      destruct (kind_of G (XUn UNeg (XParen (cast_last I32 e)))); try reflexivity. rewrite Bool.andb_false_r. reflexivity.
    + rewrite Fit. destruct (kind_of G (cast_last I32 e)); try reflexivity. rewrite Bool.andb_false_r. reflexivity.
Qed.
