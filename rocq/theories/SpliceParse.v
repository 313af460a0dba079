(** A cast written behind an expression binds to its last operand. *)
From Verif Require Import Base ModelSyntax SpecRust ModelSplice SpecSplice.
Local Open Scope list_scope.

Definition starts_id (x : list tok) : Prop := exists s y, x = TIdent s :: y.
Lemma p_binop_app ts o r x : p_binop ts = Some (o, r) -> starts_id x -> p_binop (ts ++ x) = Some (o, r ++ x).
Proof.
  intros H [s [y ->]]. destruct ts as [|t ts]; [discriminate|]. destruct t; try discriminate. cbn [p_binop app] in *.
  destruct ts as [|t ts].
  - cbn [app]. destruct (one_punct c) eqn:E; [|discriminate]. injection H as <- <-. reflexivity.
  - cbn [app]. destruct t; try (destruct (one_punct c) eqn:E; [|discriminate]; injection H as <- <-; reflexivity).
    destruct (two_puncts c c0) eqn:E2; [injection H as <- <-; reflexivity|].
    destruct (one_punct c) eqn:E; [|discriminate]. injection H as <- <-. reflexivity.
Qed.
Lemma p_binop_app_none ts x : p_binop ts = None -> starts_id x -> p_binop (ts ++ x) = None.
Proof.
  intros H [s [y ->]]. destruct ts as [|t ts]; [reflexivity|]. destruct t; try reflexivity. cbn [p_binop app] in *.
  destruct ts as [|t ts].
  - cbn [app]. destruct (one_punct c) eqn:E; [discriminate|reflexivity].
  - cbn [app]. destruct t; try (destruct (one_punct c) eqn:E; [discriminate|reflexivity]).
    destruct (two_puncts c c0) eqn:E2; [discriminate|]. destruct (one_punct c) eqn:E; [discriminate|reflexivity].
Qed.
Lemma p_un_app n : forall ts e r x, p_un n ts = Some (e, r) -> p_un n (ts ++ x) = Some (e, r ++ x).
Proof.
  induction n as [|n IH]; intros ts e r x H; [discriminate|]. cbn [p_un] in *. destruct ts as [|t ts]; [discriminate|]. cbn [app].
  destruct t; try discriminate.
  - destruct (String.eqb s "true"); [injection H as <- <-; reflexivity|]. destruct (String.eqb s "false"); [injection H as <- <-; reflexivity|].
    destruct (reserved s); [discriminate|]. injection H as <- <-. reflexivity.
  - injection H as <- <-. reflexivity.
  - destruct (if Ascii.eqb c "-" then Some UNeg else if Ascii.eqb c "!" then Some UNot else None); [|discriminate].
    destruct (p_un n ts) as [[e' r']|] eqn:E; [|discriminate]. rewrite (IH _ _ _ x E). injection H as <- <-. reflexivity.
  - destruct d; try discriminate. destruct (p_bin n 0 ts0) as [[e' [|]]|]; try discriminate. injection H as <- <-. reflexivity.
Qed.
Lemma p_un_tight n : forall ts e r, p_un n ts = Some (e, r) -> tight e.
Proof.
  induction n as [|n IH]; intros ts e r H; [discriminate|]. cbn [p_un] in H. destruct ts as [|t ts]; [discriminate|].
  intros o a b ->. destruct t; try discriminate.
  - destruct (String.eqb s "true"); [discriminate|]. destruct (String.eqb s "false"); [discriminate|]. destruct (reserved s); discriminate.
  - destruct (if Ascii.eqb c "-" then Some UNeg else if Ascii.eqb c "!" then Some UNot else None); [|discriminate].
    destruct (p_un n ts) as [[e' r']|]; discriminate.
  - destruct d; try discriminate. destruct (p_bin n 0 ts0) as [[e' [|]]|]; discriminate.
Qed.
Definition put_cast (T : ity) (e : rexpr) (r x : list tok) : rexpr * list tok :=
  match r with [] => (cast_last T e, []) | _ => (e, r ++ x) end.
Lemma put_cast_cons T e t r x : put_cast T e (t :: r) x = (e, (t :: r) ++ x).
Proof. reflexivity. Qed.
Lemma p_casts_nil e : p_casts e [] = Some (e, []).
Proof. reflexivity. Qed.
Lemma p_casts_end e s T : ty_name s = Some T -> p_casts e (as_ty s) = Some (XCast e T, []).
Proof. intros H. cbn. rewrite H. reflexivity. Qed.
Lemma cast_tight T e : tight e -> cast_last T e = XCast e T.
Proof. intros H. destruct e; try reflexivity. exfalso. exact (H _ _ _ eq_refl). Qed.
Lemma p_casts_tight k : forall ts e c r, (List.length ts <= k)%nat -> tight e -> p_casts e ts = Some (c, r) -> tight c.
Proof.
  induction k as [|k IH]; intros ts e c r L Te H.
  { destruct ts; [|cbn in L; lia]. injection H as <- <-. exact Te. }
  destruct ts as [|t ts]; [injection H as <- <-; exact Te|]. destruct t; try (injection H as <- <-; exact Te).
  cbn [p_casts] in H. destruct (String.eqb s "as"); [|injection H as <- <-; exact Te]. destruct ts as [|t ts]; [discriminate|].
  destruct t; try discriminate. destruct (ty_name s0) as [T|]; [|discriminate].
  assert (Tc : tight (XCast e T)) by (intros o a b ?; discriminate).
  cbn [List.length] in L. assert (L' : (List.length ts <= k)%nat) by lia.
  destruct ts as [|t ts]; [exact (IH _ _ _ _ L' Tc H)|]. destruct t; try exact (IH _ _ _ _ L' Tc H).
  destruct (Ascii.eqb c0 "<"); [discriminate|]. injection H as <- <-. exact Tc.
Qed.
Lemma p_casts_app s T k : ty_name s = Some T -> forall ts e c r, (List.length ts <= k)%nat -> tight e -> p_casts e ts = Some (c, r) ->
  p_casts e (ts ++ as_ty s) = Some (put_cast T c r (as_ty s)).
Proof.
  intros HT. induction k as [|k IH]; intros ts e c r L Te H.
  { destruct ts; [|cbn in L; lia]. injection H as <- <-. cbn [app put_cast]. rewrite (p_casts_end _ _ _ HT), (cast_tight _ _ Te). reflexivity. }
  destruct ts as [|t ts].
  { injection H as <- <-. cbn [app put_cast]. rewrite (p_casts_end _ _ _ HT), (cast_tight _ _ Te). reflexivity. }
  destruct t; try (injection H as <- <-; reflexivity).
  cbn [p_casts app] in *. destruct (String.eqb s0 "as"); [|injection H as <- <-; reflexivity]. destruct ts as [|t ts]; [discriminate|].
  destruct t; try discriminate. cbn [app]. destruct (ty_name s1) as [U|]; [|discriminate].
  assert (Tc : tight (XCast e U)) by (intros o a b ?; discriminate).
  cbn [List.length] in L. assert (L' : (List.length ts <= k)%nat) by lia.
  destruct ts as [|t ts]; [exact (IH _ _ _ _ L' Tc H)|]. destruct t; try exact (IH _ _ _ _ L' Tc H).
  cbn [app]. destruct (Ascii.eqb c0 "<"); [discriminate|]. injection H as <- <-. reflexivity.
Qed.
Lemma as_starts s : starts_id (as_ty s).
Proof. exists "as"%string, [TIdent s]. reflexivity. Qed.
Lemma p_loop_nil n m e : p_loop (S n) m e [] = Some (e, []).
Proof. reflexivity. Qed.
Lemma p_loop_some_nil n m e x : p_loop n m e [] = Some x -> x = (e, []).
Proof. destruct n; [discriminate|]. cbn. congruence. Qed.
Lemma append_cast s T : ty_name s = Some T -> forall n,
  (forall m ts e r, p_bin n m ts = Some (e, r) -> p_bin n m (ts ++ as_ty s) = Some (put_cast T e r (as_ty s))) /\
  (forall m l t ts e r, p_loop n m l (t :: ts) = Some (e, r) -> p_loop n m l ((t :: ts) ++ as_ty s) = Some (put_cast T e r (as_ty s))).
Proof.
  intros HT n. induction n as [|n [IB IL]]; [split; intros; discriminate|]. split.
  - intros m ts e r H. cbn [p_bin] in *. destruct (p_un n ts) as [[u r0]|] eqn:EU; [|discriminate]. rewrite (p_un_app _ _ _ _ (as_ty s) EU).
    destruct (p_casts u r0) as [[c r1]|] eqn:EC; [|discriminate].
    rewrite (p_casts_app s T _ HT _ _ _ _ (Nat.le_refl _) (p_un_tight _ _ _ _ EU) EC).
    destruct r1 as [|t r1].
    + pose proof (p_loop_some_nil _ _ _ _ H) as E. injection E as -> ->. cbn [put_cast]. destruct n; [discriminate|]. apply p_loop_nil.
    + rewrite put_cast_cons. exact (IL _ _ _ _ _ _ H).
  - intros m l t ts e r H. cbn [p_loop] in H. change (p_loop (S n) m l ((t :: ts) ++ as_ty s)) with
      (match p_binop ((t :: ts) ++ as_ty s) with
      | Some (o, r) =>
          if Nat.leb m (level o) then
            if is_cmp o && is_cmp_expr l then None
            else match p_bin n (S (level o)) r with
                 | Some (rhs, r') => p_loop n m (XBin o l rhs) r'
                 | None => None
                 end
          else Some (l, (t :: ts) ++ as_ty s)
      | None => Some (l, (t :: ts) ++ as_ty s)
      end).
    destruct (p_binop (t :: ts)) as [[o r0]|] eqn:EO.
    + rewrite (p_binop_app _ _ _ _ EO (as_starts s)). destruct (Nat.leb m (level o)); [|injection H as <- <-; reflexivity].
      destruct (is_cmp o && is_cmp_expr l); [discriminate|]. destruct (p_bin n (S (level o)) r0) as [[rhs r1]|] eqn:EB; [|discriminate].
      rewrite (IB _ _ _ _ EB). destruct r1 as [|t1 r1].
      * pose proof (p_loop_some_nil _ _ _ _ H) as E. injection E as -> ->. cbn [put_cast]. destruct n; [discriminate|]. apply p_loop_nil.
      * rewrite put_cast_cons. exact (IL _ _ _ _ _ _ H).
    + rewrite (p_binop_app_none _ _ EO (as_starts s)). injection H as <- <-. reflexivity.
Qed.
Lemma reads_cast s T ts e : ty_name s = Some T -> reads ts e -> reads (ts ++ as_ty s) (cast_last T e).
Proof. intros HT [n H]. exists n. exact (proj1 (append_cast s T HT n) _ _ _ _ H). Qed.

(** ** Parentheses *)
(** More fuel does not change what is read. *)
Lemma more_fuel n :
  (forall ts x, p_un n ts = Some x -> p_un (S n) ts = Some x) /\
  (forall m ts x, p_bin n m ts = Some x -> p_bin (S n) m ts = Some x) /\
  (forall m l ts x, p_loop n m l ts = Some x -> p_loop (S n) m l ts = Some x).
Proof.
  induction n as [|n (IU & IB & IL)]; [repeat split; intros; discriminate|]. repeat split.
  - intros ts x H. change (p_un (S n) ts = Some x) in H. cbn [p_un] in H. remember (S n) as k eqn:Hk. cbn [p_un]. 
    destruct ts as [|t ts]; [discriminate|]. destruct t; try discriminate; try exact H.
    + destruct (if Ascii.eqb c "-" then Some UNeg else if Ascii.eqb c "!" then Some UNot else None); [|discriminate].
      destruct (p_un n ts) as [y|] eqn:E; [|discriminate]. rewrite (IU _ _ E). exact H.
    + destruct d; try discriminate. destruct (p_bin n 0 ts0) as [y|] eqn:E; [|discriminate]. rewrite (IB _ _ _ E). exact H.
  - intros m ts x H. cbn [p_bin] in H. remember (S n) as k eqn:Hk. cbn [p_bin]. destruct (p_un n ts) as [[u r]|] eqn:E; [|discriminate].
    rewrite (IU _ _ E). destruct (p_casts u r) as [[c r']|]; [|discriminate]. exact (IL _ _ _ _ H).
  - intros m l ts x H. cbn [p_loop] in H. remember (S n) as k eqn:Hk. cbn [p_loop]. destruct (p_binop ts) as [[o r]|]; [|exact H].
    destruct (Nat.leb m (level o)); [|exact H]. destruct (is_cmp o && is_cmp_expr l); [discriminate|].
    destruct (p_bin n (S (level o)) r) as [[rhs r']|] eqn:E; [|discriminate]. rewrite (IB _ _ _ E). exact (IL _ _ _ _ H).
Qed.
Lemma bin_fuel n k m ts x : (n <= k)%nat -> p_bin n m ts = Some x -> p_bin k m ts = Some x.
Proof. intros L H. induction L as [|k L IH]; [exact H|]. exact (proj1 (proj2 (more_fuel k)) _ _ _ IH). Qed.
Lemma reads_unique ts a b : reads ts a -> reads ts b -> a = b.
Proof.
  intros [n Ha] [k Hb]. apply (bin_fuel _ (n + k)) in Ha; [|lia]. apply (bin_fuel _ (n + k)) in Hb; [|lia].
  rewrite Ha in Hb. congruence.
Qed.
Lemma reads_paren_cast s T ts e : ty_name s = Some T -> reads ts e -> reads (TGroup Paren ts :: as_ty s) (XCast (XParen e) T).
Proof.
  intros HT [n H]. exists (S (S (S n))). apply (bin_fuel n (S n)) in H; [|lia]. remember (S n) as k eqn:Hk. cbn [p_bin p_un]. rewrite H.
  rewrite (p_casts_end _ _ _ HT). reflexivity.
Qed.
Lemma reads_neg_paren ts e : reads ts e -> reads [TPunct "-"; TGroup Paren ts] (XUn UNeg (XParen e)).
Proof.
  intros [n H]. exists (S (S (S n))). remember (S n) as k eqn:Hk. cbn [p_bin p_un]. cbn [Ascii.eqb Bool.eqb].
  subst k. cbn [p_un]. rewrite H. reflexivity.
Qed.
Definition spliced (p : place) (e : rexpr) : rexpr :=
  match p with
  | AtImm => XCast (XParen e) I64
  | AtDisp false => cast_last I32 e
  | AtDisp true => XUn UNeg (XParen (cast_last I32 e))
  | AtCall => cast_last I64 e
  | AtReg => e
  end.
Lemma code_reads p ts e : reads ts e -> reads (code p ts) (spliced p e).
Proof.
  intros H. destruct p as [|[]| |]; cbn [code spliced].
  - apply reads_paren_cast; [reflexivity|exact H].
  - apply reads_neg_paren. apply reads_cast; [reflexivity|exact H].
  - apply reads_cast; [reflexivity|exact H].
  - apply reads_cast; [reflexivity|exact H].
  - exact H.
Qed.
