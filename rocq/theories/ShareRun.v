(** Assemblers that share a memory. *)
From Verif Require Import Base ModelMem ModelEnc ModelSyntax ModelMacro SpecState SpecHist MemInv MemSafe SpecShare ShareFacts.
Local Notation length := List.length.
Local Open Scope list_scope.
Local Open Scope Z_scope.

Lemma knows_view w k s : knows (objs w k) = knows s -> knows (view w k) = knows s. Proof. intro K. exact K. Qed.
Lemma run_any_step o r s : run_any (o :: r) s = run_any r (outcome (step o s)).
Proof. cbn [run_any]. unfold outcome. destruct (step o s); reflexivity. Qed.
Lemma history_cons e r w : history (e :: r) w = history r (happen e w). Proof. reflexivity. Qed.
Lemma objs_call k o w j : objs (happen (Call k o) w) j = if Nat.eqb j k then outcome (step o (view w k)) else objs w j. Proof. reflexivity. Qed.

(** ** Answers and bookkeeping: whatever happens to the memory *)
Lemma knows_history k : forall es w s, knows (objs w k) = knows s ->
  answers k es w = answers_alone (calls_on k es) s /\ knows (objs (history es w) k) = knows (run_any (calls_on k es) s).
Proof.
  induction es as [|e r IH]; intros w s K; [split; [reflexivity|exact K]|]. rewrite history_cons. destruct e as [j o|m].
  - cbn [answers calls_on flat_map]. fold (calls_on k r). destruct (Nat.eqb_spec j k) as [->|Hj].
    + destruct (obl_step o (view w k) s (knows_view w k s K)) as (A & B & _). cbn [app answers_alone]. rewrite run_any_step, A.
      destruct (IH (happen (Call k o) w) (outcome (step o s))) as [I1 I2]; [rewrite objs_call, Nat.eqb_refl; exact B|]. rewrite I1. auto.
    + cbn [app]. apply IH. rewrite objs_call. destruct (Nat.eqb_spec k j); [congruence|exact K].
  - cbn [answers calls_on flat_map app]. fold (calls_on k r). apply IH. exact K.
Qed.
Lemma knows_knows s1 s2 : knows s1 = knows s2 -> knows_same s1 s2.
Proof. intro K. unfold knows in K. injection K as A B C D. repeat split; auto. intro p. rewrite C. reflexivity. Qed.

(** ** Writes stay in the allocation *)
Definition sane (s : jit) : Prop := W false (base s) (fun _ => 0) s.
Lemma sane_knows s1 s2 : knows s1 = knows s2 -> sane s1 -> sane s2.
Proof.
  intros K [A B C D]. unfold knows in K. injection K as E F G H. constructor; [reflexivity| | |discriminate].
  - intro p. specialize (B p). unfold cnt in *. rewrite <- G. exact B.
  - rewrite <- H. exact C.
Qed.
Lemma sane_new b m : sane (jit_new b m).
Proof. destruct (W_new false b m) as [A B C D]. constructor; auto; discriminate. Qed.
Lemma sane_step o s : sane s -> sane (outcome (step o s)) /\ base (outcome (step o s)) = base s.
Proof.
  intro H. pose proof (safe_step false (base s) (fun _ => 0) o ltac:(discriminate) s H) as S.
  assert (S' : W false (base s) (fun _ => 0) (outcome (step o s))) by (destruct (step o s); [exact S|apply S]).
  split; [|apply (w_base _ _ _ _ S')]. destruct S' as [A B C D]. constructor; auto; discriminate.
Qed.
Lemma step_inside o s x : sane s -> patches_inside o s -> ~ owned (base s) x -> mem (outcome (step o s)) x = mem s x.
Proof.
  intros Hs Hp Hx. assert (Ho : outside (base s) x) by (unfold outside, owned in *; lia).
  assert (Hgen : is_patch o = false -> mem (outcome (step o s)) x = mem s x).
  { intro E. assert (K : W true (base s) (mem s) s) by (destruct Hs as [A B C D]; constructor; auto).
    pose proof (safe_step true (base s) (mem s) o (fun _ => E) s K) as S.
    assert (S' : W true (base s) (mem s) (outcome (step o s))) by (destruct (step o s); [exact S|apply S]).
    apply (w_mem _ _ _ _ S' eq_refl x Ho). }
  assert (Hpa : forall a d t, mem t x = mem s x -> owned (base s) (a + 1) -> owned (base s) (a + 4) -> mem (outcome (apply_jmp_patch_address a d t)) x = mem s x).
  { intros a d t Et H1 H4. unfold apply_jmp_patch_address, get_label_address, get_label_pos, bind, ModelMem.get.
    destruct (nth_error (labels t) d) as [i|]; [|exact Et]. destruct (loc i) as [y|]; [|exact Et].
    unfold codeptr. destruct (_ =? 0); [exact Et|]. unfold ret, raw_write4, modify. cbn [outcome mem set_mem]. rewrite <- Et. unfold upd. unfold owned in *.
    repeat match goal with |- context [if ?c then _ else _] => destruct c eqn:?; [lia|] end. reflexivity. }
  destruct o; try (apply Hgen; reflexivity); clear Hgen; cbn [step patches_inside] in *; unfold nolabel.
  - unfold apply_jmp_patch, get_label_address at 1, get_label_pos, ModelMem.get.
    unfold bind at 1. unfold bind at 1. unfold bind at 1. unfold label_addr, loc_of in Hp.
    destruct (nth_error (labels s) p) as [i|]; [|reflexivity]. destruct (loc i) as [[q y]|]; [|reflexivity]. specialize (Hp _ eq_refl).
    unfold codeptr, bind. cbn [fst snd]. destruct (_ =? 0); [reflexivity|]. unfold ret at 1. specialize (Hpa (addr s q y) d s eq_refl (proj1 Hp) (proj2 Hp)).
    destruct (apply_jmp_patch_address (addr s q y) d s) as [u t|e t]; exact Hpa.
  - destruct Hp as [H1 H4]. specialize (Hpa a d s eq_refl H1 H4). unfold bind. destruct (apply_jmp_patch_address a d s) as [u t|e t]; exact Hpa.
Qed.
Lemma inside_knows o s1 s2 : knows s1 = knows s2 -> patches_inside o s1 -> patches_inside o s2.
Proof.
  intros K H. unfold knows in K. injection K as A B C D. destruct o; try exact I; cbn [patches_inside] in *.
  - rewrite <- A. intros a Ha. apply H. unfold label_addr, loc_of, addr, contents in *. rewrite A, D. exact Ha.
  - rewrite <- A. exact H.
Qed.

(** ** Bytes *)
Lemma shared_history k m2 : forall es w s, (forall j, sane (objs w j)) -> knows (objs w k) = knows s -> orderly k es w ->
  (forall x, owned (base s) x -> shared w x = mem s x) -> (forall x, ~ owned (base s) x -> mem s x = m2 x) ->
  (forall x, owned (base s) x -> shared (history es w) x = mem (run_any (calls_on k es) s) x) /\
  (forall x, ~ owned (base s) x -> mem (run_any (calls_on k es) s) x = m2 x).
Proof.
  induction es as [|e r IH]; intros w s Hw K Ho Hin Hout; [split; assumption|]. rewrite history_cons.
  assert (Hb : base (objs w k) = base s) by (unfold knows in K; injection K; auto).
  destruct e as [j o|m]; inversion Ho as [|? ? ? ? Ha Hp Hr|? ? ? Hm Hr]; subst.
  - assert (Hw' : forall i, sane (objs (happen (Call j o) w) i)).
    { intro i. rewrite objs_call. destruct (Nat.eqb i j); [|apply Hw]. apply (sane_step o (view w j)). apply (sane_knows (objs w j)); [reflexivity|apply Hw]. }
    assert (Sj : sane (view w j)) by (apply (sane_knows (objs w j)); [reflexivity|apply Hw]).
    cbn [calls_on flat_map]. fold (calls_on k r). destruct (Nat.eqb_spec j k) as [->|Hj].
    + destruct (obl_step o (view w k) s (knows_view w k s K)) as (_ & B & O). cbn [app]. rewrite run_any_step.
      assert (Ss : sane s) by (apply (sane_knows (objs w k)); [exact K|apply Hw]).
      destruct (sane_step o s Ss) as [_ E]. rewrite <- E.
      assert (Hps : patches_inside o s) by (apply (inside_knows o (view w k)); [exact K|exact Hp]).
      apply (IH (happen (Call k o) w) (outcome (step o s))); auto.
      * rewrite objs_call, Nat.eqb_refl. exact B.
      * rewrite E. intros x Hx. cbn [happen shared]. destruct (O x) as [[O1 O2]|O1]; [rewrite O1, O2; apply Hin, Hx|exact O1].
      * rewrite E. intros x Hx. rewrite (step_inside o s x Ss Hps Hx). apply Hout, Hx.
    + cbn [app]. apply IH; auto.
      * rewrite objs_call. destruct (Nat.eqb_spec k j); [congruence|exact K].
      * intros x Hx. cbn [happen shared]. rewrite (step_inside o (view w j) x Sj Hp); [apply Hin, Hx|].
        specialize (Ha Hj). rewrite Hb in Ha. cbn [base view]. unfold apart, owned in *. lia.
  - cbn [calls_on flat_map app]. fold (calls_on k r). apply IH; auto. intros x Hx. cbn [happen shared]. rewrite Hm; [apply Hin, Hx|rewrite Hb; exact Hx].
Qed.
Lemma around_in b m m' x : owned b x -> around b m m' x = m x.
Proof. intro H. unfold around, owned in *. destruct ((b <=? x) && (x <? b + 3 * PAGE_SIZE)) eqn:E; [reflexivity|lia]. Qed.
Lemma around_out b m m' x : ~ owned b x -> around b m m' x = m' x.
Proof. intro H. unfold around, owned in *. destruct ((b <=? x) && (x <? b + 3 * PAGE_SIZE)) eqn:E; [lia|reflexivity]. Qed.

Lemma share_calls k es bs m m' :
  answers k es (fresh bs m) = answers_alone (calls_on k es) (jit_new (bs k) m') /\
  knows_same (view (history es (fresh bs m)) k) (run_any (calls_on k es) (jit_new (bs k) m')).
Proof.
  destruct (knows_history k es (fresh bs m) (jit_new (bs k) m') eq_refl) as [A B]. split; [exact A|]. apply knows_knows. exact B.
Qed.
Lemma share_alone k es bs m : orderly k es (fresh bs m) ->
  same_jit (view (history es (fresh bs m)) k) (run_any (calls_on k es) (jit_new (bs k) (around (bs k) m (shared (history es (fresh bs m)))))).
Proof.
  intro Ho. set (m' := around _ _ _). split; [apply share_calls|].
  destruct (shared_history k m' es (fresh bs m) (jit_new (bs k) m')) as [A B]; auto.
  - intro j. apply sane_new.
  - intros x Hx. symmetry. apply around_in, Hx.
  - intro x. cbn [view mem]. destruct (Z_le_gt_dec (bs k) x) as [H1|H1]; [destruct (Z_lt_ge_dec x (bs k + 3 * PAGE_SIZE)) as [H2|H2]|].
    + apply A. split; assumption.
    + rewrite B; [symmetry; apply around_out|]; unfold owned; cbn [base jit_new]; lia.
    + rewrite B; [symmetry; apply around_out|]; unfold owned; cbn [base jit_new]; lia.
Qed.
