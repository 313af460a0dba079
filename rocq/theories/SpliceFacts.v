(** When a cast on the last operand is a cast on the whole. *)
From Verif Require Import Base ModelSyntax SpecRust ModelSplice SpecSplice SpliceParse.
Local Open Scope list_scope.
Local Open Scope Z_scope.

(** ** Ranges *)
Lemma bits_pos t : 8 <= bits t. Proof. destruct t; cbn; lia. Qed.
Lemma half t : 2 ^ bits t = 2 * 2 ^ (bits t - 1) /\ 0 < 2 ^ (bits t - 1).
Proof.
  pose proof (bits_pos t). split; [|apply Z.pow_pos_nonneg; lia].
  replace (bits t) with (Z.succ (bits t - 1)) at 1 by lia. apply Z.pow_succ_r. lia.
Qed.
Lemma wrap_in t v : in_ty t (wrap t v) = true.
Proof.
  destruct (half t) as [H P]. unfold in_ty, wrap, signed. rewrite H. set (k := 2 ^ (bits t - 1)) in *.
  pose proof (Z.mod_pos_bound v (2 * k) ltac:(lia)) as B. replace (2 * k / 2) with k by (rewrite Z.mul_comm, Z.div_mul; lia).
  destruct (is_signed t); [destruct (v mod (2 * k) <? k) eqn:E|]; apply andb_true_intro; split; lia.
Qed.
Lemma wrap_id t v : in_ty t v = true -> wrap t v = v.
Proof.
  destruct (half t) as [H P]. unfold in_ty, wrap, signed. rewrite H. set (k := 2 ^ (bits t - 1)) in *.
  replace (2 * k / 2) with k by (rewrite Z.mul_comm, Z.div_mul; lia).
  destruct (is_signed t); intros B; apply andb_prop in B; destruct B as [B1 B2].
  - destruct (Z_lt_le_dec v 0) as [N|N].
    + assert (E : v mod (2 * k) = v + 2 * k) by (symmetry; apply Z.mod_unique with (q := -1); lia).
      rewrite E. replace (v + 2 * k <? k) with false by lia. lia.
    + rewrite Z.mod_small by lia. replace (v <? k) with true by lia. reflexivity.
  - apply Z.mod_small. lia.
Qed.
Lemma wrap_mod t v : (wrap t v) mod 2 ^ bits t = v mod 2 ^ bits t.
Proof.
  destruct (half t) as [H P]. unfold wrap, signed. set (m := 2 ^ bits t) in *. assert (0 < m) by lia.
  destruct (is_signed t); [|apply Z.mod_mod; lia]. destruct (_ <? _); [apply Z.mod_mod; lia|].
  rewrite <- Zminus_mod_idemp_r, Z_mod_same_full, Z.sub_0_r. apply Z.mod_mod. lia.
Qed.
Lemma wrap_of_mod t v w : v mod 2 ^ bits t = w mod 2 ^ bits t -> wrap t v = wrap t w.
Proof. intros E. unfold wrap, signed. rewrite E. reflexivity. Qed.
Lemma arith_in checks t v w : arith checks t v = Some w -> in_ty t w = true.
Proof.
  unfold arith. destruct (in_ty t v) eqn:E; [intros [= <-]; exact E|]. destruct checks; [discriminate|]. intros [= <-]. apply wrap_in.
Qed.
(** The bits above the type's are copies of the sign or zero. *)
Definition tops (t : ity) : Z := if is_signed t then bits t - 1 else bits t.
Lemma in_ty_tops t v : in_ty t v = true <-> Z.shiftr v (tops t) = 0 \/ (is_signed t = true /\ Z.shiftr v (tops t) = -1).
Proof.
  destruct (half t) as [H P]. pose proof (bits_pos t) as Hb. unfold in_ty, tops. destruct (is_signed t).
  - rewrite Z.shiftr_div_pow2 by lia. set (k := 2 ^ (bits t - 1)) in *. pose proof (Z.div_mod v k ltac:(lia)) as D.
    pose proof (Z.mod_pos_bound v k P) as B. rewrite Bool.andb_true_iff. split.
    + intros [B1 B2]. assert (v / k = 0 \/ v / k = -1) by nia. tauto.
    + intros [E|[_ E]]; rewrite E in D; lia.
  - rewrite Z.shiftr_div_pow2 by lia. set (k := 2 ^ bits t) in *. assert (Pk : 0 < k) by lia.
    pose proof (Z.div_mod v k ltac:(lia)) as D. pose proof (Z.mod_pos_bound v k Pk) as B. rewrite Bool.andb_true_iff. split.
    + intros [B1 B2]. left. apply Z.div_small. lia.
    + intros [E|[E _]]; [|discriminate]. rewrite E in D. lia.
Qed.
Lemma bits_in t v w : in_ty t v = true -> in_ty t w = true ->
  in_ty t (Z.land v w) = true /\ in_ty t (Z.lor v w) = true /\ in_ty t (Z.lxor v w) = true.
Proof.
  rewrite !in_ty_tops, Z.shiftr_land, Z.shiftr_lor, Z.shiftr_lxor. intros V W.
  destruct V as [->|[S ->]]; destruct W as [->|[S' ->]]; repeat split; cbn; auto.
Qed.
Lemma rem_in t v w : in_ty t v = true -> w <> 0 -> in_ty t (Z.rem v w) = true.
Proof.
  intros V N. destruct (half t) as [H P].
  assert (A : Z.abs (Z.rem v w) <= Z.abs v) by (rewrite <- Z.rem_abs by exact N; apply Z.rem_le; lia).
  assert (S1 : 0 <= v -> 0 <= Z.rem v w) by (intros; apply Z.rem_nonneg; assumption).
  assert (S2 : v <= 0 -> Z.rem v w <= 0) by (intros; apply Z.rem_nonpos; assumption).
  unfold in_ty in *. destruct (is_signed t); apply andb_prop in V; destruct V as [V1 V2]; apply andb_true_intro;
    destruct (Z_le_dec 0 v) as [L|L]; split; lia.
Qed.
Lemma shr_in t v k : in_ty t v = true -> 0 <= k -> in_ty t (v / 2 ^ k) = true.
Proof.
  intros V K. assert (Q : 0 < 2 ^ k) by (apply Z.pow_pos_nonneg; lia). set (m := 2 ^ k) in *. destruct (half t) as [H P].
  pose proof (Z.div_mod v m ltac:(lia)) as D. pose proof (Z.mod_pos_bound v m Q) as B.
  unfold in_ty in *. set (h := 2 ^ (bits t - 1)) in *. set (g := 2 ^ bits t) in *.
  destruct (is_signed t); apply andb_prop in V; destruct V as [V1 V2]; apply andb_true_intro;
    destruct (Z_le_dec 0 v) as [L|L]; split; nia.
Qed.
Lemma bin_in checks o t v w x : class o = Arith \/ class o = Bits \/ class o = Shifts -> in_ty t v = true ->
  (class o = Bits -> in_ty t w = true) -> bin_val checks o t v w = Some x -> in_ty t x = true.
Proof.
  intros C V W H. pose proof (bits_pos t) as Hb. destruct o; cbn [class] in *; try (destruct C as [C|[C|C]]; discriminate); cbn [bin_val] in H.
  - exact (arith_in _ _ _ _ H).
  - destruct (w =? 0); [discriminate|]. destruct (in_ty t (Z.quot v w)) eqn:E; [|discriminate]. injection H as <-. exact E.
  - destruct (w =? 0) eqn:E0; [discriminate|]. destruct (in_ty t (Z.quot v w)); [|discriminate]. injection H as <-. apply rem_in; [exact V|lia].
  - exact (arith_in _ _ _ _ H).
  - exact (arith_in _ _ _ _ H).
  - destruct (_ && _); [|destruct checks; [discriminate|]]; injection H as <-; apply wrap_in.
  - destruct ((0 <=? w) && (w <? bits t)) eqn:E; [|destruct checks; [discriminate|]]; injection H as <-; apply shr_in; try exact V.
    + apply andb_prop in E. lia.
    + apply Z.mod_pos_bound. lia.
  - injection H as <-. apply (bits_in t v w V (W eq_refl)).
  - injection H as <-. apply (bits_in t v w V (W eq_refl)).
  - injection H as <-. apply (bits_in t v w V (W eq_refl)).
Qed.

(** ** Types *)
Definition compat (t : ity) (k : kind) : Prop := k = KOpen \/ k = KTy t.
Lemma ity_eqb_refl t : ity_eqb t t = true. Proof. destruct t; reflexivity. Qed.
Lemma ity_eqb_eq t u : ity_eqb t u = true -> t = u. Proof. destruct t, u; (reflexivity || discriminate). Qed.
Lemma join_compat t a b : compat t (join a b) -> compat t a /\ compat t b.
Proof.
  intros H. destruct a, b; cbn [join] in H; try (destruct H; discriminate); try (split; (left; reflexivity) || exact H).
  destruct (ity_eqb t0 t1) eqn:E; [|destruct H; discriminate]. apply ity_eqb_eq in E. subst. split; exact H.
Qed.
Lemma join_ty t a b : compat t (join a b) -> join a (KTy t) = KTy t.
Proof.
  intros H. destruct (join_compat _ _ _ H) as [[->| ->] _]; [reflexivity|]. cbn. rewrite ity_eqb_refl. reflexivity.
Qed.
Lemma arith_compat t k : compat t (match k with KOpen => KOpen | KTy u => KTy u | _ => KErr end) -> compat t k.
Proof. destruct k; auto. intros [H|H]; discriminate. Qed.
Section Facts.
Variables (G : string -> option ity) (r : string -> Z) (checks : bool).
Hypothesis TG : typed G r.
Local Notation kind_of := (kind_of G).
Local Notation fits := (fits G).
Local Notation value := (value G r checks).
Local Notation own := (own G).
Lemma neg_value t e : (exists z, e = XLit z) \/
  value t (XUn UNeg e) = match value t e with Some v => arith checks t (- v) | None => None end /\ fits t (XUn UNeg e) = fits t e.
Proof. destruct e; [left; eexists; reflexivity|right; split; reflexivity..]. Qed.
Lemma neg_open_value t e v : fits t (XUn UNeg e) = true -> value t (XUn UNeg e) = Some v -> in_ty t v = true.
Proof.
  intros F H. destruct (neg_value t e) as [[z ->]|[E _]].
  - cbn in F, H. injection H as <-. exact F.
  - rewrite E in H. destruct (value t e); [|discriminate]. exact (arith_in _ _ _ _ H).
Qed.
Lemma value_in e : forall t v, compat t (kind_of e) -> fits t e = true -> value t e = Some v -> in_ty t v = true.
Proof.
  induction e as [z|b|x|e IH|o e IH|e IH u|o a IHa b IHb]; intros t v K F H.
  - cbn in H, F. injection H as <-. exact F.
  - destruct K; discriminate.
  - cbn in H, K. injection H as <-. destruct (G x) as [u|] eqn:E; [|destruct K; discriminate]. destruct K as [K|K]; [discriminate|].
    injection K as ->. exact (TG _ _ E).
  - exact (IH _ _ K F H).
  - destruct o; [exact (neg_open_value _ _ _ F H)|]. cbn [SpecRust.value SpecRust.kind_of] in *.
    destruct (value t e) as [w|] eqn:E; [|discriminate]. injection H as <-.
    destruct K as [K|K]; rewrite K; apply wrap_in.
  - cbn [SpecRust.value SpecRust.kind_of] in *. destruct (value (own u e) e) as [w|]; [|discriminate]. injection H as <-.
    destruct (kind_of e); (destruct K as [K|K]; [discriminate|]); try discriminate; injection K as ->; apply wrap_in.
  - cbn [SpecRust.value SpecRust.kind_of SpecRust.fits] in *. destruct (class o) eqn:C.
    + apply arith_compat in K. destruct (join_compat _ _ _ K) as [Ka Kb]. apply andb_prop in F. destruct F as [Fa Fb].
      destruct (value t a) as [va|] eqn:Ea; [|discriminate]. destruct (value t b) as [vb|] eqn:Eb; [|discriminate].
      refine (bin_in _ _ _ _ _ _ _ (IHa _ _ Ka Fa Ea) _ H); [auto|intros; exact (IHb _ _ Kb Fb Eb)].
    + destruct (join_compat _ _ _ K) as [Ka Kb]. apply andb_prop in F. destruct F as [Fa Fb].
      destruct (value t a) as [va|] eqn:Ea; [|discriminate]. destruct (value t b) as [vb|] eqn:Eb; [|discriminate].
      refine (bin_in _ _ _ _ _ _ _ (IHa _ _ Ka Fa Ea) _ H); [auto|intros; exact (IHb _ _ Kb Fb Eb)].
    + destruct (is_int (kind_of b)); [|destruct K; discriminate]. apply arith_compat in K. apply andb_prop in F. destruct F as [Fa Fb].
      destruct (value t a) as [va|] eqn:Ea; [|discriminate]. destruct (value (settle (kind_of b)) b) as [vb|] eqn:Eb; [|discriminate].
      refine (bin_in _ _ _ _ _ _ _ (IHa _ _ K Fa Ea) _ H); [auto|rewrite C; discriminate].
    + destruct (join (kind_of a) (kind_of b)); destruct K; discriminate.
    + destruct (kind_of a); try (destruct K; discriminate). destruct (kind_of b); destruct K; discriminate.
Qed.

(** ** The cast on the last operand *)
Lemma cast_last_same T e : compat T (kind_of e) -> Forall (fun x => one_type (snd x)) (lefts e) -> own T (last_operand e) = T ->
  kind_of (cast_last T e) = KTy T /\ fits T (cast_last T e) = fits T e /\ (fits T e = true -> value T (cast_last T e) = value T e).
Proof.
  assert (Base : forall e, compat T (kind_of e) -> own T e = T ->
    kind_of (XCast e T) = KTy T /\ fits T (XCast e T) = fits T e /\ (fits T e = true -> value T (XCast e T) = value T e)).
  { intros x K O. cbn [SpecRust.kind_of SpecRust.fits SpecRust.value]. rewrite O. split; [|split; [reflexivity|]].
    - destruct K as [K|K]; rewrite K; reflexivity.
    - intros F. destruct (value T x) as [v|] eqn:E; [|reflexivity]. rewrite (wrap_id _ _ (value_in _ _ _ K F E)). reflexivity. }
  induction e as [z|b|x|e _|o e _|e _ u|o a _ b IHb]; intros K L O; cbn [cast_last last_operand lefts] in *; try exact (Base _ K O).
  apply Forall_cons_iff in L. destruct L as [Lo L]. cbn [snd] in Lo.
  assert (KJ : compat T (join (kind_of a) (kind_of b))).
  { cbn [SpecRust.kind_of] in K. destruct Lo as [C|C]; rewrite C in K; [exact (arith_compat _ _ K)|exact K]. }
  destruct (join_compat _ _ _ KJ) as [Ka Kb]. destruct (IHb Kb L O) as (I1 & I2 & I3).
  split; [|split].
  - cbn [SpecRust.kind_of]. rewrite I1, (join_ty _ _ _ KJ). destruct Lo as [C|C]; rewrite C; reflexivity.
  - cbn [SpecRust.fits]. rewrite I2. destruct Lo as [C|C]; rewrite C; reflexivity.
  - intros F. cbn [SpecRust.fits SpecRust.value] in *.
    destruct Lo as [C|C]; rewrite C in *; apply andb_prop in F; destruct F as [Fa Fb]; rewrite (I3 Fb); reflexivity.
Qed.
Lemma own_i32 e : compat I32 (kind_of e) -> own I32 e = I32.
Proof. intros [K|K]; unfold SpecRust.own; rewrite K; destruct (is_lit e); reflexivity. Qed.
Lemma last_compat T e : compat T (kind_of e) -> Forall (fun x => one_type (snd x)) (lefts e) -> compat T (kind_of (last_operand e)).
Proof.
  induction e as [z|b|x|e _|o e _|e _ u|o a _ b IHb]; intros K L; cbn [last_operand lefts] in *; try exact K.
  apply Forall_cons_iff in L. destruct L as [Lo L]. apply IHb; [|exact L]. cbn [SpecRust.kind_of] in K.
  destruct Lo as [C|C]; cbn [snd] in C; rewrite C in K; [apply arith_compat in K|]; exact (proj2 (join_compat _ _ _ K)).
Qed.
(** The whole, cast. *)
Lemma whole_same T e : compat T (kind_of e) -> own T e = T ->
  kind_of (XCast (XParen e) T) = KTy T /\ fits T (XCast (XParen e) T) = fits T e /\
  (fits T e = true -> value T (XCast (XParen e) T) = value T e).
Proof.
  intros K O. assert (O' : own T (XParen e) = T) by exact O. cbn [SpecRust.kind_of SpecRust.fits SpecRust.value]. rewrite O'.
  split; [|split; [reflexivity|]].
  - destruct K as [K|K]; rewrite K; reflexivity.
  - intros F. cbn [SpecRust.value]. destruct (value T e) as [v|] eqn:E; [|reflexivity].
    rewrite (wrap_id _ _ (value_in _ _ _ K F E)). reflexivity.
Qed.
Lemma means_same T x y : kind_of x = KTy T -> kind_of y = KTy T -> fits T x = fits T y ->
  (fits T x = true -> value T x = value T y) -> means G r checks T x = means G r checks T y.
Proof.
  intros Kx Ky F V. unfold means. rewrite Kx, Ky, ity_eqb_refl, <- F. cbn [andb]. destruct (fits T x); [rewrite V; reflexivity|reflexivity].
Qed.
End Facts.
