(** The parser accepts exactly the grammar: statements and blocks. *)
From Coq Require Import Lia ZifyBool ZifyNat.
From Verif Require Import Base ModelSyntax ModelParse SpecX86 SpecAsm SpecGrammar ParseOk.
Open Scope string_scope.
Local Open Scope list_scope.
Local Open Scope Z_scope.
Local Notation length := List.length.

Lemma punct_inv c ts r : p_punct c ts = Some (tt, r) -> ts = TPunct c :: r.
Proof. unfold p_punct. intros H. repeat kase. eqb_char. injection H as <-. reflexivity. Qed.
Lemma punct_some c r : p_punct c (TPunct c :: r) = Some (tt, r).
Proof. unfold p_punct. rewrite Ascii.eqb_refl. reflexivity. Qed.
Lemma follow_comma r : follow (TPunct "," :: r).
Proof. reflexivity. Qed.
Lemma follow_semi r : follow (TPunct ";" :: r).
Proof. reflexivity. Qed.
Lemma p0_inv i ts j r : p0 i ts = Some (j, r) -> j = i /\ ts = TPunct ";" :: r.
Proof. unfold p0. destruct (p_punct ";" ts) as [[[] r']|] eqn:E; [|discriminate]. intros [= <- <-]. split; [reflexivity|]. apply punct_inv. exact E. Qed.
Lemma p0_some i r : p0 i (TPunct ";" :: r) = Some (i, r).
Proof. reflexivity. Qed.

(** String facts for cmov.. and set... *)
Lemma starts_lit (p s : string) : starts_with p s = true -> exists t, s = (p ++ t)%string.
Proof.
  revert s. induction p as [|a p IH]; intros s H; [exists s; reflexivity|].
  destruct s as [|b s]; [discriminate|]. unfold starts_with in *. cbn [String.prefix] in H. destruct (ascii_dec a b) as [<-|]; [|discriminate].
  destruct (IH s H) as [t ->]. exists t. reflexivity.
Qed.
Lemma last_snoc t c : last_char (t ++ String c "") = Some c.
Proof.
  unfold last_char. rewrite length_snoc. replace (S (String.length t) - 1)%nat with (String.length t) by lia.
  induction t; [reflexivity|]. cbn. exact IHt.
Qed.
Lemma substring_snoc t c : String.substring 0 (String.length t) (t ++ String c "") = t.
Proof. induction t; [reflexivity|]. cbn. rewrite IHt. reflexivity. Qed.
Lemma cmov_middle t c : let s := ("cmov" ++ t ++ String c "")%string in String.substring 4 (String.length s - 5) s = t /\ last_char s = Some c.
Proof.
  cbv zeta. change ("cmov" ++ t ++ String c "")%string with (("cmov" ++ t) ++ String c "")%string. split; [|apply last_snoc].
  rewrite length_snoc. cbn [append String.length]. replace (S (S (S (S (S (String.length t))))) - 5)%nat with (String.length t) by lia.
  cbn [String.substring]. apply substring_snoc.
Qed.
Lemma append_assoc (a b c : string) : ((a ++ b) ++ c)%string = (a ++ b ++ c)%string.
Proof. induction a; [reflexivity|]. cbn. rewrite IHa. reflexivity. Qed.

Lemma conds_names n c : assoc n conds = Some c -> In n (cc_names c).
Proof.
  intros H. apply assoc_in in H. cbn in H.
  repeat (destruct H as [H|H]; [injection H as <- <-; cbn; tauto|]). destruct H.
Qed.
Lemma names_conds n c : In n (cc_names c) -> assoc n conds = Some c.
Proof. destruct c; cbn [cc_names In]; intros H; repeat (destruct H as [<-|H]; [reflexivity|]); destruct H. Qed.

Section Stmt.
Variable is_expr : list tok -> bool.
Variable checks : bool.
Local Notation E := (fun ts => is_expr ts = true).
Local Notation g_arg := (g_arg E checks true).
Local Notation ok := (ok is_expr checks).
Local Notation p_mnemonic := (p_mnemonic is_expr checks).
Local Notation mnemonics := (mnemonics is_expr checks).

(** ** Soundness *)
Definition reads (s : string) (p : parser inst) : Prop :=
  forall ts i rest, p ts = Some (i, rest) ->
  exists ws, ts = commas ws ++ TPunct ";" :: rest /\ In s (spelled i) /\ Forall2 g_arg ws (args i).
Lemma reads0 s i : In s (spelled i) -> args i = [] -> reads s (p0 i).
Proof. intros H1 H2 ts j rest H. apply p0_inv in H. destruct H as [-> ->]. exists []. rewrite H2. repeat split; [exact H1|constructor]. Qed.
Lemma reads1 {A} s (p : parser A) c f : ok p c -> (forall a, In s (spelled (f a))) -> (forall a, args (f a) = [c a]) -> reads s (p1 p f).
Proof.
  intros [_ Ok] H1 H2 ts j rest H. unfold p1 in H. destruct (p ts) as [[a r]|] eqn:Ep; [|discriminate]. apply p0_inv in H. destruct H as [-> ->].
  destruct (Ok _ _ _ Ep) as [w [-> Hw]]. exists [w]. rewrite H2. split; [reflexivity|]. split; [apply H1|]. repeat constructor. exact Hw.
Qed.
Lemma comma_inv {A B} (p : parser A) (q : A -> parser B) c ts b rest : ok p c -> p_comma p q ts = Some (b, rest) ->
  exists w a r, ts = w ++ TPunct "," :: r /\ g_arg w (c a) /\ q a r = Some (b, rest).
Proof.
  intros [_ Ok] H. unfold p_comma in H. destruct (p ts) as [[a r]|] eqn:Ep; [|discriminate]. destruct (p_punct "," r) as [[[] r']|] eqn:Ec; [|discriminate].
  apply punct_inv in Ec. subst. destruct (Ok _ _ _ Ep) as [w [-> Hw]]. exists w, a, r'. auto.
Qed.
Lemma reads2 {A B} s (p : parser A) (q : parser B) c d f : ok p c -> ok q d -> (forall a b, In s (spelled (f a b))) ->
  (forall a b, args (f a b) = [c a; d b]) -> reads s (p2 p q f).
Proof.
  intros Op Oq H1 H2 ts j rest H. unfold p2 in H. apply (comma_inv _ _ c) in H; [|exact Op]. destruct H as [w [a [r [-> [Hw H]]]]].
  unfold p1 in H. destruct (q r) as [[b r']|] eqn:Ep; [|discriminate]. apply p0_inv in H. destruct H as [-> ->].
  destruct (proj2 Oq _ _ _ Ep) as [v [-> Hv]]. exists [w; v]. rewrite H2. split; [cbn [commas]; rewrite <- app_assoc; reflexivity|]. split; [apply H1|].
  repeat constructor; assumption.
Qed.
Lemma reads3 {A B C} s (p : parser A) (q : parser B) (t : parser C) c d e f : ok p c -> ok q d -> ok t e -> (forall x y z, In s (spelled (f x y z))) ->
  (forall x y z, args (f x y z) = [c x; d y; e z]) -> reads s (p3 p q t f).
Proof.
  intros Op Oq Ot H1 H2 ts j rest H. unfold p3 in H. apply (comma_inv _ _ c) in H; [|exact Op]. destruct H as [w [a [r [-> [Hw H]]]]].
  apply (comma_inv _ _ d) in H; [|exact Oq]. destruct H as [u [b [r' [-> [Hu H]]]]].
  unfold p1 in H. destruct (t r') as [[z r2]|] eqn:Ep; [|discriminate]. apply p0_inv in H. destruct H as [-> ->].
  destruct (proj2 Ot _ _ _ Ep) as [v [-> Hv]]. exists [w; u; v]. rewrite H2. split; [cbn [commas]; rewrite <- app_assoc; cbn [app]; rewrite <- app_assoc; reflexivity|]. split; [apply H1|].
  repeat constructor; assumption.
Qed.
Lemma in_i64_spec v : in_i64 v = true <-> - 2 ^ 63 <= v < 2 ^ 63.
Proof. unfold in_i64. lia. Qed.
Lemma reads_dq : reads "dq" p_dq.
Proof.
  intros ts j rest H. unfold p_dq in H. repeat kase; subst; apply p0_inv in H; destruct H as [-> ->].
  - apply float_sound in Heqo. destruct Heqo as [w [-> Hw]]. exists [w]. split; [reflexivity|]. split; [left; reflexivity|]. repeat constructor. exact Hw.
  - apply lit_sound in Heqo. destruct Heqo as [w [-> Hw]]. exists [w]. split; [reflexivity|]. split; [left; reflexivity|]. constructor; [|constructor].
    split; [exact Hw|]. apply in_i64_spec. assumption.
Qed.
Lemma ok_reg' : ok (p_register is_expr) AReg. Proof. apply ok_reg. Qed.
Lemma ok_xmm' : ok p_xmm AXmm. Proof. apply ok_xmm. Qed.
Ltac solve_reads :=
  first [ apply reads0; [cbn; tauto|reflexivity]
        | apply reads_dq
        | eapply reads1; [first [apply ok_rm|apply ok_dest|apply ok_ident]|intros; cbn; tauto|intros; reflexivity]
        | eapply reads2; [first [apply ok_rm|apply ok_mov|apply ok_reg|apply ok_rmi|apply ok_xmm|apply ok_xm]
                         |first [apply ok_rm|apply ok_mov|apply ok_rmi|apply ok_ri|apply ok_xm]|intros; cbn; tauto|intros; reflexivity]
        | eapply reads3; [apply ok_xmm|apply ok_xm|apply ok_imm|intros; cbn; tauto|intros; reflexivity] ].
Lemma reads_table : Forall (fun sp => reads (fst sp) (snd sp)) mnemonics.
Proof. unfold ModelParse.mnemonics. repeat (apply Forall_cons; [unfold fst, snd, p_jcc; solve_reads|]). apply Forall_nil. Qed.
Lemma reads_mnemonic s : reads s (p_mnemonic s).
Proof.
  intros ts i rest. unfold ModelParse.p_mnemonic. destruct (assoc s mnemonics) as [p|] eqn:Ea.
  - apply assoc_in in Ea. pose proof reads_table as T. rewrite Forall_forall in T. exact (T _ Ea ts i rest).
  - destruct (starts_with "cmov" s) eqn:Ec.
    + apply starts_lit in Ec. destruct Ec as [t ->]. unfold p_cmov.
      destruct (string_snoc t) as [->|[u [c ->]]]; [discriminate|].
      destruct (cmov_middle u c) as [M L]. cbv zeta in M, L. rewrite L, M.
      assert (Hw : forall w, (if Nat.leb (String.length ("cmov" ++ u ++ String c "")) 5 then None
                else match assoc u conds with None => None | Some cc => p2 (p_register is_expr) (p_rm is_expr checks) (ICmovcc w cc) ts end) = Some (i, rest) ->
              (c = "q"%char /\ w = QWORD \/ c = "l"%char /\ w = DWORD \/ c = "w"%char /\ w = WORD) ->
              exists ws, ts = commas ws ++ TPunct ";" :: rest /\ In ("cmov" ++ u ++ String c "")%string (spelled i) /\ Forall2 g_arg ws (args i)).
      { intros w H D. destruct (Nat.leb _ 5); [discriminate|]. destruct (assoc u conds) as [cc|] eqn:Eu; [|discriminate]. apply conds_names in Eu.
        refine (reads2 _ _ _ AReg ARm (ICmovcc w cc) _ _ _ _ ts i rest H); [apply ok_reg|apply ok_rm| |reflexivity].
        intros a b. destruct D as [[-> ->]|[[-> ->]|[-> ->]]]; cbn [spelled suffix]; apply in_map_iff; exists u; (split; [reflexivity|exact Eu]). }
      intros H. destruct c as [[] [] [] [] [] [] [] []]; try discriminate H; (eapply Hw; [exact H|tauto]).
    + destruct (starts_with "set" s) eqn:Es; [|discriminate]. apply starts_lit in Es. destruct Es as [t ->]. unfold p_set. cbn [append]. rewrite from_3.
      destruct (Nat.leb _ 3); [discriminate|]. destruct (assoc t conds) as [c|] eqn:Et; [|discriminate]. apply conds_names in Et.
      intros H. refine (reads1 _ _ ARm (ISetcc c) _ _ _ ts i rest H); [apply ok_rm| |reflexivity].
      intros a. cbn [spelled]. apply in_map_iff. exists t. split; [reflexivity|exact Et].
Qed.

(** ** Completeness *)
Lemma takes0 s i ws rest : p_mnemonic s = p0 i -> args i = [] -> Forall2 g_arg ws (args i) -> p_mnemonic s (commas ws ++ TPunct ";" :: rest) = Some (i, rest).
Proof. intros -> -> H. inversion H; subst. reflexivity. Qed.
Lemma takes1 {A} s (p : parser A) c f a ws rest : p_mnemonic s = p1 p f -> ok p c -> Forall2 g_arg ws [c a] ->
  p_mnemonic s (commas ws ++ TPunct ";" :: rest) = Some (f a, rest).
Proof.
  intros -> Op H. inversion H as [|w x ws' l' Hw Hr]; subst. inversion Hr; subst. cbn [commas]. unfold p1.
  rewrite (proj1 Op w a _ Hw (follow_semi rest)). reflexivity.
Qed.
Lemma takes2 {A B} s (p : parser A) (q : parser B) c d f a b ws rest : p_mnemonic s = p2 p q f -> ok p c -> ok q d -> Forall2 g_arg ws [c a; d b] ->
  p_mnemonic s (commas ws ++ TPunct ";" :: rest) = Some (f a b, rest).
Proof.
  intros -> Op Oq H. inversion H as [|w x ws' l' Hw Hr]; subst. inversion Hr as [|v y ws'' l'' Hv Hr']; subst. inversion Hr'; subst. cbn [commas].
  rewrite <- app_assoc. cbn [app]. unfold p2, p_comma, p1.
  rewrite (proj1 Op w a _ Hw (follow_comma _)), punct_some, (proj1 Oq v b _ Hv (follow_semi rest)). reflexivity.
Qed.
Lemma takes3 {A B C} s (p : parser A) (q : parser B) (t : parser C) c d e f a b z ws rest : p_mnemonic s = p3 p q t f -> ok p c -> ok q d -> ok t e ->
  Forall2 g_arg ws [c a; d b; e z] -> p_mnemonic s (commas ws ++ TPunct ";" :: rest) = Some (f a b z, rest).
Proof.
  intros -> Op Oq Ot H. inversion H as [|w x ws' l' Hw Hr]; subst. inversion Hr as [|v y ws'' l'' Hv Hr']; subst.
  inversion Hr' as [|u k ws3 l3 Hu Hr3]; subst. inversion Hr3; subst. cbn [commas].
  rewrite <- app_assoc. cbn [app]. rewrite <- app_assoc. cbn [app]. unfold p3, p_comma, p1.
  rewrite (proj1 Op w a _ Hw (follow_comma _)), punct_some, (proj1 Oq v b _ Hv (follow_comma _)), punct_some, (proj1 Ot u z _ Hu (follow_semi rest)). reflexivity.
Qed.
Ltac solve_takes :=
  first [ apply takes0; [reflexivity|reflexivity|assumption]
        | eapply takes1; [reflexivity|first [apply ok_rm|apply ok_dest|apply ok_ident]|eassumption]
        | eapply takes2; [reflexivity|first [apply ok_rm|apply ok_mov|apply ok_reg|apply ok_rmi|apply ok_xmm|apply ok_xm]
                         |first [apply ok_rm|apply ok_mov|apply ok_rmi|apply ok_ri|apply ok_xm]|eassumption]
        | eapply takes3; [reflexivity|apply ok_xmm|apply ok_xm|apply ok_imm|eassumption] ].
Lemma takes_dq_float b ws rest : Forall2 g_arg ws [AFloat b] -> p_mnemonic "dq" (commas ws ++ TPunct ";" :: rest) = Some (IF64 b, rest).
Proof. intros H. inversion H as [|w x ws' l' Hw Hr]; subst. inversion Hr; subst. destruct Hw; reflexivity. Qed.
Lemma takes_dq_int v ws rest : Forall2 g_arg ws [AInt v] -> p_mnemonic "dq" (commas ws ++ TPunct ";" :: rest) = Some (II64 v, rest).
Proof.
  intros H. inversion H as [|w x ws' l' Hw Hr]; subst. inversion Hr; subst. destruct Hw as [Hw Hi]. cbn [commas].
  change (p_mnemonic "dq") with p_dq. unfold p_dq.
  rewrite (lit_complete _ _ _ Hw). destruct (int_head _ _ (TPunct ";" :: rest) Hw) as [_ [_ [_ ->]]]. apply in_i64_spec in Hi. rewrite Hi.
  destruct Hw; reflexivity.
Qed.
Ltac each_name := match goal with H : In ?s _ |- _ => cbn [In spelled sized sized2 suffix append map cc_names jcc_names filter String.eqb Ascii.eqb Bool.eqb negb orb] in H; repeat (destruct H as [<-|H]; [|]); try destruct H end.
Lemma takes_mnemonic i s ws rest : In s (spelled i) -> Forall2 g_arg ws (args i) -> p_mnemonic s (commas ws ++ TPunct ";" :: rest) = Some (i, rest).
Proof.
  intros Hs Hw. destruct i; try destruct sz; try destruct c; cbn [args] in Hw; each_name; first [apply takes_dq_float; exact Hw|apply takes_dq_int; exact Hw|solve_takes].
Qed.
Lemma spelled_ident i s : In s (spelled i) -> is_ident s = true.
Proof. intros Hs. destruct i; try destruct sz; try destruct c; each_name; reflexivity. Qed.
Lemma arg_head w a : g_arg w a -> exists t w', w = t :: w' /\ t <> TPunct ":".
Proof.
  assert (R : forall r, SpecGrammar.g_register E w r -> exists t w', w = t :: w' /\ t <> TPunct ":") by (intros r []; do 2 eexists; (split; [reflexivity|discriminate])).
  assert (M : forall r, SpecGrammar.g_mem E checks true w r -> exists t w', w = t :: w' /\ t <> TPunct ":") by (intros r []; do 2 eexists; (split; [reflexivity|discriminate])).
  assert (X : forall r, g_xmm w r -> exists t w', w = t :: w' /\ t <> TPunct ":") by (intros r []; do 2 eexists; (split; [reflexivity|discriminate])).
  assert (I : forall r, g_imm w r -> exists t w', w = t :: w' /\ t <> TPunct ":") by (intros r []; do 2 eexists; (split; [reflexivity|discriminate])).
  intros H. destruct a as [r|[]|[]|[]|e|[]|[e [[]|]| | |]|e|[]|x|v|b]; cbn in H; try (solve [eauto]); try (destruct H; fail).
  - destruct H as [w' [-> _]]. do 2 eexists; (split; [reflexivity|discriminate]).
  - destruct H as [s [-> _]]. do 2 eexists; (split; [reflexivity|discriminate]).
  - destruct H as [-> _]. do 2 eexists; (split; [reflexivity|discriminate]).
  - destruct H as [g [-> _]]. do 2 eexists; (split; [reflexivity|discriminate]).
  - destruct H as [-> _]. do 2 eexists; (split; [reflexivity|discriminate]).
  - destruct H as [[] _]; do 2 eexists; (split; [reflexivity|discriminate]).
  - destruct H; do 2 eexists; (split; [reflexivity|discriminate]).
Qed.
Lemma not_label ws l rest : Forall2 g_arg ws l -> peek_punct ":" (commas ws ++ TPunct ";" :: rest) = false.
Proof.
  intros H. destruct H as [|w a ws l Hw Hr]; [reflexivity|]. apply arg_head in Hw. destruct Hw as [t [w' [-> Ht]]].
  assert (K : peek_punct ":" (t :: w' ++ match ws with [] => [] | _ => TPunct "," :: commas ws end ++ TPunct ";" :: rest) = false).
  { destruct t; try reflexivity. cbn [peek_punct]. apply Ascii.eqb_neq. intros <-. apply Ht. reflexivity. }
  destruct ws as [|v ws]; cbn [commas]; [exact K|]. rewrite <- app_assoc. exact K.
Qed.

Theorem inst_exact ts i rest : p_inst is_expr checks ts = Some (i, rest) <-> exists w, ts = w ++ rest /\ g_stmt E checks true w i.
Proof.
  unfold p_inst. split.
  - destruct (p_ident ts) as [[s r]|] eqn:Ep; [|discriminate]. apply p_ident_inv in Ep. destruct Ep as [-> Hid].
    destruct (peek_punct ":" r) eqn:Ec.
    + intros [= <- <-]. unfold peek_punct in Ec. repeat kase. eqb_char. exists [TIdent s; TPunct ":"]. split; [reflexivity|]. constructor. apply is_ident_spec. exact Hid.
    + intros H. apply reads_mnemonic in H. destruct H as [ws [-> [Hs Hw]]]. exists (TIdent s :: commas ws ++ [TPunct ";"]). split; [cbn [app]; rewrite <- app_assoc; reflexivity|].
      constructor; assumption.
  - intros [w [-> H]]. destruct H as [x Hx|s ws i Hs Hw].
    + apply is_ident_spec in Hx. cbn. rewrite Hx. reflexivity.
    + cbn [app p_ident]. rewrite (spelled_ident _ _ Hs), <- app_assoc. cbn [app]. rewrite (not_label _ _ _ Hw). apply takes_mnemonic; assumption.
Qed.
Lemma stmt_nonempty w i q : g_stmt E checks q w i -> exists t w', w = t :: w'.
Proof. intros []; eauto. Qed.
Lemma stmts_n_exact : forall n ts is, (length ts <= n)%nat -> (p_stmts_n is_expr checks n ts = Some is <-> g_block E checks true ts is).
Proof.
  induction n as [|n IH]; intros ts is Hn.
  - destruct ts; [|cbn in Hn; lia]. cbn. split; [intros [= <-]; constructor|]. intros H. inversion H; [reflexivity|]. subst.
    apply stmt_nonempty in H1. destruct H1 as [t [w' ->]]. discriminate.
  - destruct ts as [|t ts].
    + cbn. split; [intros [= <-]; constructor|]. intros H. inversion H; [reflexivity|]. subst. apply stmt_nonempty in H1. destruct H1 as [t [w' ->]]. discriminate.
    + cbn [p_stmts_n]. split.
      * destruct (p_inst is_expr checks (t :: ts)) as [[i r]|] eqn:Ei; [|discriminate]. destruct (p_stmts_n is_expr checks n r) as [js|] eqn:Ej; [|discriminate]. intros [= <-].
        apply inst_exact in Ei. destruct Ei as [w [Ew Hw]]. rewrite Ew. constructor; [exact Hw|]. apply IH; [|exact Ej].
        destruct (stmt_nonempty _ _ _ Hw) as [t' [w' ->]]. assert (L : length (t :: ts) = length ((t' :: w') ++ r)) by (rewrite Ew; reflexivity). rewrite app_length in L. cbn in *. lia.
      * intros H. inversion H as [|w i ws js Hw Hr Ew]; subst. 
        assert (Ei : p_inst is_expr checks (w ++ ws) = Some (i, ws)) by (apply inst_exact; exists w; auto).
        rewrite Ei. destruct (stmt_nonempty _ _ _ Hw) as [t' [w' ->]]. assert (L : length (t :: ts) = length ((t' :: w') ++ ws)) by congruence.
        rewrite app_length in L. apply IH in Hr; [|cbn in *; lia]. rewrite Hr. reflexivity.
Qed.
Theorem stmts_exact ts is : p_stmts is_expr checks ts = Some is <-> g_block E checks true ts is.
Proof. apply stmts_n_exact. apply le_n. Qed.
End Stmt.
