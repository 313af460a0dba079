(** Assemblers made in a process have memory of their own. *)
From Verif Require Import Base ModelMem ModelProt ModelNew SpecShare SpecNew.
Local Notation length := List.length.
Local Open Scope list_scope.
Local Open Scope Z_scope.

Section Pages.
Variable pg : Z.
Hypothesis Hpg : 0 < pg.
Hypothesis Hdiv : PAGE_SIZE mod pg = 0.
Lemma pages : exists k, PAGE_SIZE = k * pg. Proof. exists (PAGE_SIZE / pg). rewrite Z.mul_comm. apply Z_div_exact_full_2; lia. Qed.
Lemma floor_exact x : x mod PAGE_SIZE = 0 -> page_floor pg x = x.
Proof.
  intro H. destruct pages as [k Ek]. assert (E : x = (x / PAGE_SIZE * k) * pg) by (rewrite <- Z.mul_assoc, <- Ek, Z.mul_comm; apply Z_div_exact_full_2; [unfold PAGE_SIZE; lia|exact H]).
  unfold page_floor. rewrite E at 1 2. rewrite Z.div_mul by lia. lia.
Qed.
Lemma ceil_exact x : x mod PAGE_SIZE = 0 -> page_ceil pg x = x.
Proof.
  intro H. destruct pages as [k Ek]. assert (E : x = (x / PAGE_SIZE * k) * pg) by (rewrite <- Z.mul_assoc, <- Ek, Z.mul_comm; apply Z_div_exact_full_2; [unfold PAGE_SIZE; lia|exact H]).
  unfold page_ceil. set (m := x / PAGE_SIZE * k) in *. clearbody m. subst x. clear H.
  replace (m * pg + pg - 1) with (pg - 1 + m * pg) by lia. rewrite Z.div_add by lia. rewrite (Z.div_small (pg - 1)) by lia. lia.
Qed.
Lemma aligned_add a k : a mod PAGE_SIZE = 0 -> (a + PAGE_SIZE * k) mod PAGE_SIZE = 0.
Proof. intro H. rewrite Z.mul_comm, Z.add_comm, Z.add_mod by (unfold PAGE_SIZE; lia). rewrite Z.mod_mul by (unfold PAGE_SIZE; lia). rewrite H. reflexivity. Qed.
(** The calls of [protect] in [new]. *)
Lemma first_protect a p x : a mod PAGE_SIZE = 0 -> protect pg (mkProtect a (PAGE_SIZE * 2) RWX) p x = if (a <=? x) && (x <? a + PAGE_SIZE * 2) then RWX else p x.
Proof. intro H. unfold protect. cbn [pstart plen pval]. rewrite (floor_exact a H), (ceil_exact _ (aligned_add a 2 H)). reflexivity. Qed.
Lemma second_protect a p x : a mod PAGE_SIZE = 0 -> protect pg (mkProtect (a + PAGE_SIZE * 2) PAGE_SIZE RW) p x = if (a + PAGE_SIZE * 2 <=? x) && (x <? a + PAGE_SIZE * 3) then RW else p x.
Proof.
  intro H. unfold protect. cbn [pstart plen pval]. rewrite (floor_exact _ (aligned_add a 2 H)). replace (a + PAGE_SIZE * 2 + PAGE_SIZE) with (a + PAGE_SIZE * 3) by lia.
  rewrite (ceil_exact _ (aligned_add a 3 H)). reflexivity.
Qed.
(** Protections outside the allocation stay, whatever succeeds. *)
Lemma new_outside a ok1 ok2 p x : a mod PAGE_SIZE = 0 -> ~ owned a x -> prots (snd (new pg a ok1 ok2 p)) x = prots p x.
Proof.
  intros H O. unfold owned in O. unfold new, new_protects. cbn [combine protect_all].
  destruct ok1, ok2; cbn [snd prots]; rewrite ?second_protect, ?first_protect by exact H; try reflexivity.
  - destruct ((a + PAGE_SIZE * 2 <=? x) && (x <? a + PAGE_SIZE * 3)) eqn:E1; [unfold PAGE_SIZE in *; lia|]. destruct ((a <=? x) && (x <? a + PAGE_SIZE * 2)) eqn:E2; [unfold PAGE_SIZE in *; lia|reflexivity].
  - destruct ((a <=? x) && (x <? a + PAGE_SIZE * 2)) eqn:E2; [unfold PAGE_SIZE in *; lia|reflexivity].
Qed.

Record sound (p : proc) : Prop := {
  so_heap : ForallOrdPairs disjoint (heap p);
  so_pos : Forall (fun r => 0 < fst r /\ 0 < snd r) (heap p);
  so_nodup : NoDup (made p);
  so_made : forall b, In b (made p) -> b mod PAGE_SIZE = 0 /\ In (b, PAGE_SIZE * 3) (heap p) /\
    (forall x, b <= x < b + 2 * PAGE_SIZE -> prots p x = RWX) /\ (forall x, b + 2 * PAGE_SIZE <= x < b + 3 * PAGE_SIZE -> prots p x = RW) }.
Lemma filter_pairs (f : Z * Z -> bool) : forall h, ForallOrdPairs disjoint h -> ForallOrdPairs disjoint (filter f h).
Proof.
  induction 1 as [|r h Hr Hp IH]; cbn [filter]; [constructor|]. destruct (f r); [|exact IH]. constructor; [|exact IH].
  apply Forall_forall. intros q Hq. apply filter_In in Hq. rewrite Forall_forall in Hr. apply Hr, Hq.
Qed.
Lemma sound_step e p : sound p -> fair pg p e -> sound (pstep pg e p).
Proof.
  intros [Hh Hp Hn Hm] F. destruct e as [a ok1 ok2|a|a n|a n|c]; cbn [pstep fair] in *.
  - destruct (a =? 0) eqn:Ea.
    { subst ok1. unfold new, new_protects. rewrite Ea. cbn [combine protect_all snd]. constructor; assumption. }
    destruct F as (Pa & Al & _ & Fa). rewrite Forall_forall in Fa.
    assert (Out : forall b x, In b (made p) -> owned b x -> prots (snd (new pg a ok1 ok2 p)) x = prots p x).
    { intros b x Hb Ox. apply new_outside; [exact Al|]. destruct (Hm b Hb) as (_ & Hin & _). specialize (Fa _ Hin). unfold disjoint, owned in *. cbn [fst snd] in *. unfold PAGE_SIZE in *. lia. }
    assert (Old : forall b, In b (made p) -> b mod PAGE_SIZE = 0 /\ In (b, PAGE_SIZE * 3) ((a, PAGE_SIZE * 3) :: heap p) /\
      (forall x, b <= x < b + 2 * PAGE_SIZE -> prots (snd (new pg a ok1 ok2 p)) x = RWX) /\ (forall x, b + 2 * PAGE_SIZE <= x < b + 3 * PAGE_SIZE -> prots (snd (new pg a ok1 ok2 p)) x = RW)).
    { intros b Hb. destruct (Hm b Hb) as (M1 & M2 & M3 & M4). split; [exact M1|]. split; [right; exact M2|].
      split; intros x Hx; rewrite (Out b x Hb) by (unfold owned, PAGE_SIZE in *; lia); auto. }
    assert (Hh' : ForallOrdPairs disjoint ((a, PAGE_SIZE * 3) :: heap p)) by (constructor; [apply Forall_forall; exact Fa|exact Hh]).
    assert (Hp' : Forall (fun r => 0 < fst r /\ 0 < snd r) ((a, PAGE_SIZE * 3) :: heap p)) by (constructor; [cbn [fst snd]; unfold PAGE_SIZE; lia|exact Hp]).
    assert (Na : ~ In a (made p)).
    { intro I. destruct (Hm a I) as (_ & Hin & _). specialize (Fa _ Hin). unfold disjoint in Fa. cbn [fst snd] in Fa. unfold PAGE_SIZE in Fa. lia. }
    unfold new, new_protects in *. rewrite Ea in *. cbn [combine protect_all] in *. destruct ok1, ok2; cbn [snd prots made heap] in *; constructor; cbn [prots made heap]; try assumption; [constructor; assumption|].
    intros b [<-|Hb]; [|apply Old, Hb]. split; [exact Al|]. split; [left; reflexivity|].
    split; intros x Hx; rewrite second_protect, first_protect by exact Al.
    + destruct ((a + PAGE_SIZE * 2 <=? x) && (x <? a + PAGE_SIZE * 3)) eqn:E1; [lia|]. destruct ((a <=? x) && (x <? a + PAGE_SIZE * 2)) eqn:E2; [reflexivity|lia].
    + destruct ((a + PAGE_SIZE * 2 <=? x) && (x <? a + PAGE_SIZE * 3)) eqn:E1; [reflexivity|lia].
  - constructor; assumption.
  - destruct F as (Pa & _ & Pn & Fa). constructor; cbn [heap made prots]; [constructor; assumption|constructor; [cbn [fst snd]; auto|assumption]|assumption|].
    intros b Hb. destruct (Hm b Hb) as (M1 & M2 & M3 & M4). split; [exact M1|]. split; [right; exact M2|auto].
  - constructor; cbn [heap made prots]; [apply filter_pairs, Hh| |assumption|].
    + apply Forall_forall. intros r Hr. apply filter_In in Hr. rewrite Forall_forall in Hp. apply Hp, Hr.
    + intros b Hb. destruct (Hm b Hb) as (M1 & M2 & M3 & M4). split; [exact M1|]. split; [|auto]. apply filter_In. split; [exact M2|].
      unfold region_eqb. cbn [fst snd]. destruct (b =? a) eqn:E; [|reflexivity]. apply Z.eqb_eq in E. subst. contradiction.
  - constructor; cbn [heap made prots]; try assumption. intros b Hb. destruct (Hm b Hb) as (M1 & M2 & M3 & M4). split; [exact M1|]. split; [exact M2|]. specialize (F b Hb).
    split; intros x Hx; unfold protect; (match goal with |- (if ?c then _ else _) = _ => destruct c eqn:E end; [unfold PAGE_SIZE in *; lia|auto]).
Qed.
Lemma sound_run : forall es p, sound p -> fairly pg es p -> sound (pruns pg es p).
Proof. induction es as [|e es IH]; intros p S F; cbn [pruns fairly] in *; [exact S|]. destruct F as [Fe Fs]. apply IH; [apply sound_step; assumption|exact Fs]. Qed.
Lemma sound_start p : starts p -> sound p.
Proof. intros (M & H & P). constructor; [exact H|exact P|rewrite M; constructor|intros b Hb; rewrite M in Hb; elim Hb]. Qed.
Lemma pair_disjoint h r q : ForallOrdPairs disjoint h -> In r h -> In q h -> r = q \/ disjoint r q.
Proof.
  intros H Hr Hq. destruct (ForallOrdPairs_In H r q Hr Hq) as [E|[D|D]]; [left; exact E|right; exact D|right; unfold disjoint in *; lia].
Qed.
Lemma made_apart p b c : sound p -> In b (made p) -> In c (made p) -> b <> c -> apart b c.
Proof.
  intros S Hb Hc N. destruct (so_made p S b Hb) as (_ & Ib & _). destruct (so_made p S c Hc) as (_ & Ic & _).
  destruct (pair_disjoint _ _ _ (so_heap p S) Ib Ic) as [E|D]; [congruence|]. unfold disjoint in D. cbn [fst snd] in D. unfold apart. lia.
Qed.
Lemma sound_memory p b : sound p -> In b (made p) -> has_memory p b.
Proof.
  intros S Hb. destruct (so_made p S b Hb) as (M1 & M2 & M3 & M4). split; [exact M1|]. split; [exact M2|]. split; [|split; assumption].
  intros r x Hr Hx Ho. destruct (pair_disjoint _ _ _ (so_heap p S) Hr M2) as [E|D]; [exact E|]. unfold disjoint, within, owned in *. cbn [fst snd] in D. lia.
Qed.
Theorem process_memory p es : starts p -> fairly pg es p ->
  (forall b, In b (made (pruns pg es p)) -> has_memory (pruns pg es p) b) /\ ForallOrdPairs apart (made (pruns pg es p)).
Proof.
  intros St F. pose proof (sound_run es p (sound_start p St) F) as S. split; [intros b Hb; apply sound_memory; assumption|].
  assert (A : forall b c, In b (made (pruns pg es p)) -> In c (made (pruns pg es p)) -> b <> c -> apart b c) by (intros; eapply made_apart; eauto).
  pose proof (so_nodup _ S) as N. revert A N. generalize (made (pruns pg es p)). clear. induction l as [|b l IH]; intros A N; constructor; inversion N; subst.
  - apply Forall_forall. intros c Hc. apply A; [left; reflexivity|right; exact Hc|]. intros ->. contradiction.
  - apply IH; [|assumption]. intros; apply A; auto; right; assumption.
Qed.
(** [new] returns or panics. *)
Theorem new_memory p es a ok1 ok2 : starts p -> fairly pg es p -> let q := pruns pg es p in fair pg q (NewJit a ok1 ok2) ->
  match new pg a ok1 ok2 q with
  | (Some b, q') => b = a /\ has_memory q' b /\ (forall c, In c (made q) -> apart b c) /\ ok1 = true /\ ok2 = true
  | (None, q') => made q' = made q /\ (ok1 = false \/ ok2 = false)
  end /\ forall r x, In r (heap q) -> within r x -> prots (snd (new pg a ok1 ok2 q)) x = prots q x.
Proof.
  intros St F q Fn. pose proof (sound_run es p (sound_start p St) F) as S. fold q in S. clearbody q. pose proof (sound_step _ _ S Fn) as S'. cbn [pstep] in S'.
  split.
  - assert (Ns : match new pg a ok1 ok2 q with (Some b, q') => b = a /\ made q' = a :: made q /\ ok1 = true /\ ok2 = true | (None, q') => made q' = made q /\ (ok1 = false \/ ok2 = false) end)
      by (unfold new, new_protects; cbn [combine protect_all]; destruct ok1, ok2; cbn; auto).
    destruct (new pg a ok1 ok2 q) as [[b|] q']; [|exact Ns]. destruct Ns as (-> & Hq & -> & ->). cbn [snd] in S'.
    split; [reflexivity|]. split; [apply sound_memory; [exact S'|rewrite Hq; left; reflexivity]|]. split; [|auto].
    intros c Hc. apply (made_apart q' a c S'); rewrite ?Hq; [left; reflexivity|right; exact Hc|]. intros ->. pose proof (so_nodup _ S') as N. rewrite Hq in N. inversion N. contradiction.
  - intros r x Hr Hx. cbn [fair] in Fn. destruct (a =? 0) eqn:Ea; [subst ok1; reflexivity|]. destruct Fn as (Pa & Al & _ & Fa). apply new_outside; [exact Al|].
    rewrite Forall_forall in Fa. specialize (Fa r Hr). unfold disjoint, within, owned in *. cbn [fst snd] in Fa. lia.
Qed.
(** What an assembler has it keeps, also when it is dropped. *)
Theorem memory_stays p es es' b : starts p -> fairly pg (es ++ es') p -> In b (made (pruns pg es p)) -> has_memory (pruns pg (es ++ es') p) b.
Proof.
  intros St F Hb. apply process_memory; [exact St|exact F|].
  assert (R : forall es es' p, pruns pg (es ++ es') p = pruns pg es' (pruns pg es p)) by (clear; induction es as [|e es IH]; intros; [reflexivity|apply IH]).
  rewrite R. assert (K : forall es p, In b (made p) -> In b (made (pruns pg es p))).
  { clear. induction es as [|e es IH]; intros p H; cbn [pruns]; [exact H|]. apply IH. destruct e as [a ok1 ok2|a|a n|a n|c]; cbn [pstep made]; try exact H.
    unfold new. destruct (protect_all _ _ _) as [[] q]; cbn; auto. }
  apply K, Hb.
Qed.
End Pages.
