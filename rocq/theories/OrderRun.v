(** Histories that differ in the order of work on different pages. *)
From Verif Require Import Base ModelMem ModelEnc ModelSyntax ModelMacro SpecState SpecAsm SpecProg SpecHist SpecShare StateFid Emit MemInv MemStep MemFinal MemFill MemHist MemRun MemFacts MemPlace SpecWhen WhenFacts WhenRun RenameRun SpecOrder OrderFacts.
Local Notation length := List.length.
Local Open Scope list_scope.
Local Open Scope Z_scope.

Notation sim := same_but_order.
Lemma sim_refl s : sim s s. Proof. constructor; reflexivity. Qed.
Lemma sim_trans s t u : sim s t -> sim t u -> sim s u.
Proof.
  intros [A1 A2 A3 A4 A5 A6] [B1 B2 B3 B4 B5 B6]. constructor; try congruence; intros; try congruence.
  eapply perm_trans; [apply A6|apply B6].
Qed.
Lemma sim_cur c d s t : sim s t -> sim (set_cur c s) (set_cur d t).
Proof. intros [A1 A2 A3 A4 A5 A6]. constructor; auto. Qed.
Lemma chg_loc b ts s s' l : nth_error (labels s') l = option_map (chg b ts) (nth_error (labels s) l) -> (l < length (labels s))%nat ->
  loc_of s' l = match b with Some x => Some x | None => loc_of s l end /\ refs s' l = refs s l ++ ts.
Proof. intros E H. unfold loc_of, refs. rewrite E. destruct (nth_error (labels s) l) eqn:N; [split; reflexivity|]. apply nth_error_None in N. lia. Qed.
Lemma chg_out b ts s s' l : nth_error (labels s') l = option_map (chg b ts) (nth_error (labels s) l) -> (length (labels s) <= l)%nat -> loc_of s' l = None /\ refs s' l = [].
Proof. intros E H. unfold loc_of, refs. rewrite E, (proj2 (nth_error_None _ _) H). split; reflexivity. Qed.
Lemma sim_both B p s t s' t' : sim s t -> both B p s t s' t' -> sim s' t'.
Proof.
  intros [A1 A2 A3 A4 A5 A6] [[B1 B2] [C1 C2] [P1 P2] R [L1 L2] X Y]. constructor; try congruence.
  - intro x. destruct (X x) as [[E1 E2]|[_ E]]; [|exact E]. rewrite E1, E2. apply A2.
  - intro q. destruct (pid_eqb q p) eqn:E; [apply pid_eqb_eq in E; subst q; exact P1|]. destruct (R q) as [-> ->]; [intros ->; rewrite pid_eqb_refl in E; discriminate|]. apply A3.
  - intro l. destruct (Y l) as (b & ts & _ & E1 & E2). destruct (Nat.lt_ge_cases l (length (labels s))) as [H|H].
    + rewrite (proj1 (chg_loc _ _ _ _ _ E1 H)), (proj1 (chg_loc _ _ _ _ _ E2 ltac:(lia))), A5. reflexivity.
    + rewrite (proj1 (chg_out _ _ _ _ _ E1 H)), (proj1 (chg_out _ _ _ _ _ E2 ltac:(lia))). reflexivity.
  - intro l. destruct (Y l) as (b & ts & _ & E1 & E2). destruct (Nat.lt_ge_cases l (length (labels s))) as [H|H].
    + rewrite (proj2 (chg_loc _ _ _ _ _ E1 H)), (proj2 (chg_loc _ _ _ _ _ E2 ltac:(lia))). apply Permutation_app_tail, A6.
    + rewrite (proj2 (chg_out _ _ _ _ _ E1 H)), (proj2 (chg_out _ _ _ _ _ E2 ltac:(lia))). constructor.
Qed.
Lemma Inv_pos s p : Inv s -> 0 <= counter (pages s p).
Proof. intros [R _ _]. destruct (ri_cnt _ R p) as [H _]. exact H. Qed.

(** ** finalize *)
Definition low (s : jit) : Prop := forall p, 0 <= counter (pages s p).
Definition cong {A} (m : M A) : Prop := forall s t, sim s t -> low s -> answer (m s) = answer (m t) /\ sim (outcome (m s)) (outcome (m t)) /\ low (outcome (m s)).
Lemma cong_local {A} p (m : M A) : local (fun _ => True) (fun _ => True) p m -> cong m.
Proof.
  intros H s t S L. destruct (H s t) as [A1 A2]; [destruct S; constructor; auto|]. split; [exact A1|]. split; [exact (sim_both _ _ _ _ _ _ S A2)|].
  intro q. destruct (pid_eqb q p) eqn:E; [apply pid_eqb_eq in E; subst q; apply (bo_page _ _ _ _ _ _ A2)|].
  rewrite (proj1 (bo_rest _ _ _ _ _ _ A2 q ltac:(intros ->; rewrite pid_eqb_refl in E; discriminate))). apply L.
Qed.
Lemma cong_bind {A C} (m : M A) (k : A -> M C) : cong m -> (forall a, cong (k a)) -> cong (bind m k).
Proof.
  intros Hm Hk s t S L. destruct (Hm s t S L) as (Ha & Hs & Hl). unfold bind. destruct (m s) as [a s1|e s1], (m t) as [a2 t1|e2 t1]; cbn [answer outcome] in *; try discriminate.
  - injection Ha as <-. apply Hk; assumption.
  - injection Ha as <-. auto.
Qed.
Lemma cong_ret {A} (a : A) : cong (ret a). Proof. intros s t S L. auto. Qed.
Lemma cong_forM {A} (g : A -> M unit) : (forall x, cong (g x)) -> forall l, cong (forM l g).
Proof. intros H l. induction l as [|x l IH]; cbn [forM]; [apply cong_ret|]. apply cong_bind; [apply H|intros _; exact IH]. Qed.
Lemma sim_set_page p g s t : sim s t -> sim (set_page p g s) (set_page p g t).
Proof. intros [A1 A2 A3 A4 A5 A6]. constructor; auto. intro q. cbn [pages set_page]. rewrite A3. reflexivity. Qed.
Lemma cong_set_page p g : (forall e, counter (g e) = counter e) -> cong (modify (set_page p g)).
Proof.
  intros Hg s t S L. split; [reflexivity|]. split; [apply sim_set_page, S|]. intro q. cbn [outcome modify pages set_page]. destruct (pid_eqb q p); rewrite ?Hg; apply L.
Qed.
Lemma resolve_datum_same e : resolve_data_entry e = resolve_constant_entry P2 e. Proof. destruct e as [[] l]; reflexivity. Qed.
Lemma cong_get {A C} (v : jit -> C) (k : C -> M A) : (forall s t, sim s t -> v s = v t) -> (forall c, cong (k c)) -> cong (s <- ModelMem.get ;; k (v s)).
Proof. intros Hv Hk s t S L. specialize (Hk (v s) s t S L). unfold bind, ModelMem.get. rewrite <- (Hv s t S). exact Hk. Qed.
Lemma cong_place_all : cong place_all.
Proof.
  unfold place_all. apply cong_bind; [|intros _].
  - unfold resolve_constants. apply cong_forM. intro p. unfold resolve_constants_of.
    apply (cong_get (fun s => constants (pages s p)) (fun c => modify (set_page p (with_constants [])) ;; forM c (resolve_constant_entry p))); [intros s t S; rewrite (so_pages _ _ S p); reflexivity|].
    intro c. apply cong_bind; [apply cong_set_page; reflexivity|]. intros _. apply cong_forM. intro e. apply (cong_local p), local_resolve_constant. exact I.
  - unfold resolve_data. apply cong_forM. intro p. unfold resolve_data_of.
    apply (cong_get (fun s => data (pages s p)) (fun c => modify (set_page p (with_data [])) ;; forM c resolve_data_entry)); [intros s t S; rewrite (so_pages _ _ S p); reflexivity|].
    intro c. apply cong_bind; [apply cong_set_page; reflexivity|]. intros _. apply cong_forM. intro e. rewrite resolve_datum_same. apply (cong_local P2), local_resolve_constant. exact I.
Qed.
Lemma sim_finalize s1 s2 : sim s1 s2 -> Inv s1 -> Inv s2 ->
  answer (step OFinalize s1) = answer (step OFinalize s2) /\
  match after OFinalize s1, after OFinalize s2 with Some t1, Some t2 => sim t1 t2 | None, None => True | _, _ => False end.
Proof.
  intros S I1 I2.
  assert (So : sim (opened s1) (opened s2)) by (unfold opened; apply sim_set_page, sim_set_page, sim_set_page, S).
  assert (Lo : low (opened s1)).
  { intro p. pose proof (Inv_pos s1 p I1). rewrite opened_pages. exact H. }
  destruct (cong_place_all _ _ So Lo) as (Aa & Se & _).
  assert (As : forall s, step OFinalize s = match place_all (opened s) with Ok _ se => match finish se with Ok _ s' => Ok None s' | Panic e s' => Panic e s' end | Panic e se => Panic e se end).
  { intros s. cbn [step]. unfold nolabel, bind. rewrite finalize_split. destruct (place_all (opened s)) as [[] se|e se]; [|reflexivity].
    destruct (finish se) as [[] s'|e s']; reflexivity. }
  assert (G1 := As s1). assert (G2 := As s2). clear As.
  destruct (place_all (opened s1)) as [[] e1|p1 e1] eqn:E1, (place_all (opened s2)) as [[] e2|p2 e2] eqn:E2; cbn [answer outcome] in Aa, Se; try discriminate Aa.
  2:{ unfold after. rewrite G1, G2. cbn [answer tolerated is_finalize negb andb]. injection Aa as ->. split; [reflexivity|exact I]. }
  destruct (place_spec_at s1 e1 I1 E1) as (t1 & m1 & X1 & (C1 & M1 & L1) & F1). destruct (place_spec_at s2 e2 I2 E2) as (t2 & m2 & X2 & (C2 & M2 & L2) & F2).
  rewrite X1 in G1. rewrite X2 in G2. unfold after. rewrite G1, G2. cbn [answer]. split; [reflexivity|]. clear G1 G2 X1 X2 E1 E2 Aa So Lo.
  assert (B : base m1 = base m2) by (rewrite C1, C2; apply (so_base _ _ Se)).
  assert (HL : forall l, loc_of m1 l = loc_of m2 l) by (intro l; pose proof (so_bound _ _ Se l) as Q; unfold loc_of in *; rewrite L1, L2; exact Q).
  assert (HR : forall l, Permutation (refs m1 l) (refs m2 l)) by (intro l; pose proof (so_references _ _ Se l) as Q; unfold refs in *; rewrite L1, L2; exact Q).
  assert (HW : forall p, waiting s1 p = waiting s2 p) by (intro p; destruct p; cbn [waiting]; rewrite ?(so_pages _ _ S); reflexivity).
  assert (Hcnt : forall p, cnt m1 p = cnt m2 p).
  { intro p. rewrite (fn_end _ _ _ _ F1), (fn_end _ _ _ _ F2), (HW p). f_equal. unfold cnt. rewrite (so_pages _ _ S). reflexivity. }
  assert (Ba : base t1 = base t2) by (rewrite (fn_base _ _ _ F1), (fn_base _ _ _ F2); apply (so_base _ _ S)).
  assert (Bm : base t1 = base m1) by (rewrite (fn_base _ _ _ F1); symmetry; apply (ex_base _ _ _ (fn_ext _ _ _ F1))).
  constructor; auto.
  - intro x. destruct (field_dec m1 x) as [(l & t & Hl & Ht & Hf)|N].
    + destruct (loc_of m1 l) as [[q y]|] eqn:El; [|congruence].
      pose proof (fn_value _ _ _ F1 l q y t El Ht) as V1. pose proof (fn_value _ _ _ F2 l q y t (eq_trans (eq_sym (HL l)) El) (Permutation_in _ (HR l) Ht)) as V2.
      unfold bytes in V1, V2. rewrite (fval_base m1 m2) in V2 by congruence. rewrite (addr_base m1 m2) in V2 by congruence. rewrite (addr_base t1 t2) in V2 by congruence. rewrite <- V1 in V2.
      apply (at_field_base m1 t1) in Hf; [|congruence]. unfold at_field, faddr in Hf. pose proof (flen_pos t).
      assert (RD : forall k a, read (mem t2) a k = read (mem t1) a k -> forall i, a <= i < a + Z.of_nat k -> mem t1 i = mem t2 i).
      { clear. induction k as [|k IH]; intros a E i Hi; [lia|]. cbn [read] in E. injection E as A B'. destruct (Z.eq_dec i a) as [->|]; [symmetry; exact A|]. apply (IH (a + 1)); [exact B'|lia]. }
      apply (RD _ _ V2). lia.
    + rewrite (fn_frame _ _ _ F1 x N), M1, (so_memory _ _ Se x), <- M2. symmetry. apply (fn_frame _ _ _ F2). intros l t Hl Ht Hf.
      apply (N l t); [rewrite HL; exact Hl|exact (Permutation_in _ (Permutation_sym (HR l)) Ht)|]. apply (at_field_base m1 m2); [congruence|exact Hf].
  - intro p. rewrite (fn_pages _ _ _ F1), (fn_pages _ _ _ F2). unfold finish_page. unfold cnt at 2 4. rewrite !(so_pages _ _ S), (Hcnt p). reflexivity.
  - rewrite (fn_len _ _ _ F1), (fn_len _ _ _ F2). apply (so_count _ _ S).
  - intro l. rewrite (fn_loc _ _ _ F1), (fn_loc _ _ _ F2). apply HL.
  - intro l. rewrite (fn_refs _ _ _ F1), (fn_refs _ _ _ F2), HL. destruct (loc_of m2 l); [constructor|apply HR].
Qed.

(** ** Calls after select_page *)
Definition unit_after (u : Z * op) (s : jit) : option jit := match after (OSelect (fst u)) s with Some s' => after (snd u) s' | None => None end.
Lemma run_unit u r s : run (calls (u :: r)) s = match unit_after u s with Some s' => run (calls r) s' | None => None end.
Proof. unfold unit_after. cbn [calls flat_map app run]. destruct (after (OSelect (fst u)) s) as [s'|]; reflexivity. Qed.
Lemma selectable_page u : selectable u -> exists c, pid_of (fst u) = Some c /\ forall s, after (OSelect (fst u)) s = Some (set_cur c s).
Proof. intros [E|E]; rewrite E; [exists P0|exists P1]; split; reflexivity. Qed.
Lemma Inv_unit u s s' : Inv s -> api (snd u) = true -> unit_after u s = Some s' -> Inv s'.
Proof.
  intros I1 Ha. unfold unit_after. destruct (after (OSelect (fst u)) s) as [s1|] eqn:E; [|discriminate]. intro E2.
  refine (Inv_step _ _ _ (Inv_step (OSelect (fst u)) _ _ I1 eq_refl E) Ha E2).
Qed.
Lemma after_case o s t : answer (step o s) = answer (step o t) ->
  (after o s = Some (outcome (step o s)) /\ after o t = Some (outcome (step o t))) \/ (after o s = None /\ after o t = None).
Proof.
  intro A. unfold after. destruct (step o s) as [x u|e u], (step o t) as [y v|e2 v]; cbn [answer outcome] in A; try discriminate A; [left; split; reflexivity|].
  injection A as ->. destruct (tolerated o e2); [left|right]; split; reflexivity.
Qed.
Definition at_page (u : Z * op) (p : pid) : Prop := local (fun d => pid_of (fst u) = Some d) (binds (snd u)) p (step (snd u)).
Lemma at_some u p : selectable u -> emits (snd u) = true -> pid_of (place u) = Some p -> at_page u p.
Proof. destruct u as [n o]. intros Hs He Hp. apply local_step; auto. Qed.
Lemma at_any u p : selectable u -> emits (snd u) = true -> pid_of (place u) = None -> at_page u p.
Proof. destruct u as [n o]. intros Hs He Hp. destruct (selectable_page _ Hs) as (c & Hc & _). apply local_nowhere; eauto. Qed.
Lemma exists_at u : selectable u -> emits (snd u) = true -> exists p, at_page u p.
Proof. intros Hs He. destruct (pid_of (place u)) as [p|] eqn:E; [exists p; apply at_some; auto|exists P0; apply at_any; auto]. Qed.
Lemma two_places u v : selectable u -> selectable v -> emits (snd u) = true -> emits (snd v) = true -> place u <> place v -> exists p q, p <> q /\ at_page u p /\ at_page v q.
Proof.
  intros Su Sv Eu Ev N. assert (O : forall p, exists q : pid, p <> q) by (intros []; [exists P1|exists P0|exists P0]; discriminate).
  destruct (pid_of (place u)) as [p|] eqn:Pu.
  - destruct (pid_of (place v)) as [q|] eqn:Pv.
    + exists p, q. split; [|split; apply at_some; auto]. intros ->. apply N. revert Pu Pv. unfold pid_of.
      repeat match goal with |- context [if ?b then _ else _] => destruct b eqn:? end; intros; try congruence; lia.
    + destruct (O p) as [q Hq]. exists p, q. split; [exact Hq|]. split; [apply at_some; auto|apply at_any; auto].
  - destruct (exists_at v Sv Ev) as [q Hq]. destruct (O q) as [p Hp]. exists p, q. split; [congruence|]. split; [apply at_any; auto|exact Hq].
Qed.
Lemma at_view (u : Z * op) s t p c : pid_of (fst u) = Some c -> base s = base t -> pages s p = pages t p -> length (labels s) = length (labels t) -> 0 <= counter (pages s p) ->
  view (fun d => pid_of (fst u) = Some d) p (set_cur c s) (set_cur c t).
Proof. intros. constructor; auto. Qed.

(** ** The same calls on states that are the same but for the order *)
Lemma sim_label s t : sim s t -> sim (set_labels (labels s ++ [label_new]) s) (set_labels (labels t ++ [label_new]) t).
Proof.
  intros [A1 A2 A3 A4 A5 A6]. constructor; auto; cbn [labels set_labels].
  - rewrite !app_length. lia.
  - intro l. specialize (A5 l). unfold loc_of in *. cbn [labels set_labels]. destruct (Nat.lt_ge_cases l (length (labels s))) as [H|H].
    + rewrite !nth_error_app1 by lia. exact A5.
    + rewrite !nth_error_app2, A4 by lia. reflexivity.
  - intro l. specialize (A6 l). unfold refs in *. cbn [labels set_labels]. destruct (Nat.lt_ge_cases l (length (labels s))) as [H|H].
    + rewrite !nth_error_app1 by lia. exact A6.
    + rewrite !nth_error_app2, A4 by lia. reflexivity.
Qed.
Lemma sim_push (b : bool) d c s t : sim s t ->
  answer ((l <- (if b then push_constant d else push_data d) ;; ret (Some l)) (set_cur c s)) = answer ((l <- (if b then push_constant d else push_data d) ;; ret (Some l)) (set_cur c t)) /\
  sim (outcome ((l <- (if b then push_constant d else push_data d) ;; ret (Some l)) (set_cur c s))) (outcome ((l <- (if b then push_constant d else push_data d) ;; ret (Some l)) (set_cur c t))).
Proof.
  intro S. pose proof (so_count _ _ S) as L.
  destruct b; unfold push_constant, push_data, new_label, bind, on_cur, modify, ret; cbn [outcome answer cur set_labels set_cur labels]; rewrite L; (split; [reflexivity|]);
    apply sim_set_page, (sim_label (set_cur c s) (set_cur c t)), sim_cur, S.
Qed.
Lemma sim_unit u s t : selectable u -> api (snd u) = true -> sim s t -> Inv s -> Inv t ->
  (forall c, pid_of (fst u) = Some c -> answer (step (snd u) (set_cur c s)) = answer (step (snd u) (set_cur c t))) /\
  match unit_after u s, unit_after u t with Some s1, Some t1 => sim s1 t1 | None, None => True | _, _ => False end.
Proof.
  intros Su Ha S I1 I2. destruct (selectable_page u Su) as (c & Hc & Es). unfold unit_after. rewrite !Es.
  assert (Q : answer (step (snd u) (set_cur c s)) = answer (step (snd u) (set_cur c t)) /\ sim (outcome (step (snd u) (set_cur c s))) (outcome (step (snd u) (set_cur c t))) ->
    (forall d, pid_of (fst u) = Some d -> answer (step (snd u) (set_cur d s)) = answer (step (snd u) (set_cur d t))) /\
    match after (snd u) (set_cur c s), after (snd u) (set_cur c t) with Some s1, Some t1 => sim s1 t1 | None, None => True | _, _ => False end).
  { intros [A1 A2]. split; [intros d Hd; assert (d = c) by congruence; subst d; exact A1|]. destruct (after_case _ _ _ A1) as [[-> ->]|[-> ->]]; [exact A2|exact I]. }
  destruct (emits (snd u)) eqn:He.
  - apply Q. destruct (exists_at u Su He) as [p Hp].
    destruct (Hp (set_cur c s) (set_cur c t)) as [A1 A2]; [apply at_view; [exact Hc|apply S|apply S|apply S|apply Inv_pos, I1]|].
    split; [exact A1|]. refine (sim_both _ _ _ _ _ _ _ A2). apply sim_cur, S.
  - destruct (is_finalize (snd u)) eqn:Hf.
    + clear Q. destruct (snd u) eqn:Eo; try discriminate Hf. assert (J : forall x, Inv x -> Inv (set_cur c x)) by (intros x Ix; exact (Inv_step (OSelect (fst u)) x _ Ix eq_refl (Es x))).
      destruct (sim_finalize _ _ (sim_cur c c _ _ S) (J _ I1) (J _ I2)) as [A1 A2]. split; [|exact A2]. intros d Hd. assert (d = c) by congruence. subst d. exact A1.
    + apply Q. clear Q. destruct (snd u) eqn:Eo; try discriminate He; try discriminate Hf; try discriminate Ha.
      * cbn [step]. unfold nolabel, select_page, bind, ModelMem.assert. destruct (n <? 2); [|split; [reflexivity|apply sim_cur, S]].
        unfold ret. destruct (pid_of n) as [d|]; [|split; [reflexivity|apply sim_cur, S]]. split; [reflexivity|]. apply (sim_cur d d (set_cur c s) (set_cur c t)), sim_cur, S.
      * cbn [step]. unfold bind, new_label, ret. cbn [answer outcome labels set_cur]. rewrite (so_count _ _ S). split; [reflexivity|]. apply (sim_label (set_cur c s) (set_cur c t)), sim_cur, S.
      * destruct d; [apply (sim_push true)|apply (sim_push true)|apply (sim_push true)|apply (sim_push true)|apply (sim_push true)|apply (sim_push true)|apply (sim_push false)|apply (sim_push false)|apply (sim_push false)]; exact S.
Qed.
Lemma heard_unit k u r s : selectable u -> exists c, pid_of (fst u) = Some c /\
  heard k (u :: r) s = (if place u =? k then [answer (step (snd u) (set_cur c s))] else []) ++ match unit_after u s with Some s2 => heard k r s2 | None => [] end.
Proof. intro Su. destruct (selectable_page u Su) as (c & Hc & Es). exists c. split; [exact Hc|]. unfold unit_after. cbn [heard]. rewrite Es. reflexivity. Qed.
Lemma sim_run : forall us s t, Forall selectable us -> Forall (fun u => api (snd u) = true) us -> sim s t -> Inv s -> Inv t ->
  (forall k, heard k us s = heard k us t) /\ match run (calls us) s, run (calls us) t with Some s1, Some t1 => sim s1 t1 | None, None => True | _, _ => False end.
Proof.
  induction us as [|u us IH]; intros s t Hs Ha S I1 I2; [split; [reflexivity|exact S]|]. inversion_clear Hs as [|? ? Su Hs']. inversion_clear Ha as [|? ? Au Ha'].
  destruct (sim_unit u s t Su Au S I1 I2) as [A B]. rewrite !run_unit.
  destruct (unit_after u s) as [s1|] eqn:E1, (unit_after u t) as [t1|] eqn:E2; try (elim B; fail).
  - destruct (IH s1 t1 Hs' Ha' B (Inv_unit _ _ _ I1 Au E1) (Inv_unit _ _ _ I2 Au E2)) as [R1 R2]. split; [|exact R2]. intro k.
    destruct (heard_unit k u us s Su) as (c & Hc & ->). destruct (heard_unit k u us t Su) as (d & Hd & ->). assert (d = c) by congruence. subst d. rewrite E1, E2, (A c Hc), R1. reflexivity.
  - split; [|exact I]. intro k.
    destruct (heard_unit k u us s Su) as (c & Hc & ->). destruct (heard_unit k u us t Su) as (d & Hd & ->). assert (d = c) by congruence. subst d. rewrite E1, E2, (A c Hc). reflexivity.
Qed.

(** ** Two neighbouring calls *)
Lemma sim_swap p q u v c d s : p <> q -> at_page u p -> at_page v q -> (forall l, ~ (binds (snd u) l /\ binds (snd v) l)) -> pid_of (fst u) = Some c -> pid_of (fst v) = Some d -> Inv s ->
  let s1 := outcome (step (snd u) (set_cur c s)) in let s2 := outcome (step (snd v) (set_cur d s)) in
  answer (step (snd u) (set_cur c s)) = answer (step (snd u) (set_cur c s2)) /\ answer (step (snd v) (set_cur d s)) = answer (step (snd v) (set_cur d s1)) /\
  sim (outcome (step (snd v) (set_cur d s1))) (outcome (step (snd u) (set_cur c s2))).
Proof.
  intros N Lu Lv Hb Hc Hd I0 s1 s2.
  destruct (Lu (set_cur c s) (set_cur c s)) as [_ U0]; [apply at_view; auto; apply Inv_pos, I0|].
  destruct (Lv (set_cur d s) (set_cur d s)) as [_ V0]; [apply at_view; auto; apply Inv_pos, I0|]. fold s1 in U0. fold s2 in V0.
  destruct (Lu (set_cur c s) (set_cur c s2)) as [A1 U].
  { apply at_view; auto; [symmetry; apply (bo_base _ _ _ _ _ _ V0)|symmetry; apply (bo_rest _ _ _ _ _ _ V0 p N)|symmetry; apply (bo_len _ _ _ _ _ _ V0)|apply Inv_pos, I0]. }
  destruct (Lv (set_cur d s) (set_cur d s1)) as [A2 V].
  { apply at_view; auto; [symmetry; apply (bo_base _ _ _ _ _ _ U0)|symmetry; apply (bo_rest _ _ _ _ _ _ U0 q); congruence|symmetry; apply (bo_len _ _ _ _ _ _ U0)|apply Inv_pos, I0]. }
  split; [exact A1|]. split; [exact A2|]. fold s1 in U. fold s2 in V. clear A1 A2 U0 V0.
  set (s12 := outcome (step (snd v) (set_cur d s1))) in *. set (s21 := outcome (step (snd u) (set_cur c s2))) in *.
  destruct U as [[B1 B2] _ [P1 _] R [L1 L2] X Y], V as [[B1' B2'] _ [P1' _] R' [L1' L2'] X' Y'].
  cbn [base mem pages labels set_cur] in *. constructor; try congruence.
  - intro x. destruct (X x) as [[E1 E2]|[E0 E1]], (X' x) as [[F1 F2]|[F0 F1]]; try congruence.
    exfalso. unfold in_page, addr, contents in E0, F0. cbn [base set_cur] in E0, F0. revert E0 F0 N. destruct p, q; cbn [pidx]; unfold PAGE_SIZE; intros; try congruence; lia.
  - intro z. destruct (pid_eqb z p) eqn:Ep; [apply pid_eqb_eq in Ep; subst z; rewrite <- P1; apply (R' p N)|].
    assert (Nz : z <> p) by (intros ->; rewrite pid_eqb_refl in Ep; discriminate). destruct (R z Nz) as [G1 G2].
    destruct (pid_eqb z q) eqn:Eq; [apply pid_eqb_eq in Eq; subst z; rewrite <- P1'; symmetry; exact G2|].
    assert (Nq : z <> q) by (intros ->; rewrite pid_eqb_refl in Eq; discriminate). destruct (R' z Nq) as [H1 H2]. congruence.
  - intro l. destruct (Y l) as (b & ts & Hbl & E1 & E2), (Y' l) as (b' & ts' & Hbl' & E1' & E2'). destruct (Nat.lt_ge_cases l (length (labels s))) as [H|H].
    + rewrite (proj1 (chg_loc _ _ (set_cur d s1) _ _ E2' ltac:(cbn [labels set_cur]; lia))), (proj1 (chg_loc _ _ (set_cur c s2) _ _ E2 ltac:(cbn [labels set_cur]; lia))).
      change (loc_of (set_cur d s1) l) with (loc_of s1 l). change (loc_of (set_cur c s2) l) with (loc_of s2 l).
      rewrite (proj1 (chg_loc _ _ s _ _ E1 H)), (proj1 (chg_loc _ _ s _ _ E1' H)). destruct b, b'; try reflexivity. elim (Hb l). split; [apply Hbl|apply Hbl']; discriminate.
    + rewrite (proj1 (chg_out _ _ (set_cur d s1) _ _ E2' ltac:(cbn [labels set_cur]; lia))), (proj1 (chg_out _ _ (set_cur c s2) _ _ E2 ltac:(cbn [labels set_cur]; lia))). reflexivity.
  - intro l. destruct (Y l) as (b & ts & Hbl & E1 & E2), (Y' l) as (b' & ts' & Hbl' & E1' & E2'). destruct (Nat.lt_ge_cases l (length (labels s))) as [H|H].
    + rewrite (proj2 (chg_loc _ _ (set_cur d s1) _ _ E2' ltac:(cbn [labels set_cur]; lia))), (proj2 (chg_loc _ _ (set_cur c s2) _ _ E2 ltac:(cbn [labels set_cur]; lia))).
      change (refs (set_cur d s1) l) with (refs s1 l). change (refs (set_cur c s2) l) with (refs s2 l).
      rewrite (proj2 (chg_loc _ _ s _ _ E1 H)), (proj2 (chg_loc _ _ s _ _ E1' H)). rewrite <- !app_assoc. apply Permutation_app_head, Permutation_app_comm.
    + rewrite (proj2 (chg_out _ _ (set_cur d s1) _ _ E2' ltac:(cbn [labels set_cur]; lia))), (proj2 (chg_out _ _ (set_cur c s2) _ _ E2 ltac:(cbn [labels set_cur]; lia))). constructor.
Qed.
Lemma swap_run u v r s : Forall selectable (u :: v :: r) -> Forall (fun u => api (snd u) = true) (u :: v :: r) -> emits (snd u) = true -> emits (snd v) = true -> place u <> place v ->
  (forall l, ~ (binds (snd u) l /\ binds (snd v) l)) -> Inv s ->
  match run (calls (u :: v :: r)) s, run (calls (v :: u :: r)) s with
  | Some s1, Some s2 => sim s1 s2 /\ forall k, heard k (u :: v :: r) s = heard k (v :: u :: r) s
  | None, None => True | _, _ => False end.
Proof.
  intros Hs Ha Eu Ev N Hb I0. inversion_clear Hs as [|? ? Su Hs0]. inversion_clear Hs0 as [|? ? Sv Hr]. inversion_clear Ha as [|? ? Au Ha0]. inversion_clear Ha0 as [|? ? Av Har].
  destruct (two_places u v Su Sv Eu Ev N) as (p & q & Npq & Lu & Lv). destruct (selectable_page u Su) as (c & Hc & Es). destruct (selectable_page v Sv) as (d & Hd & Et).
  destruct (sim_swap p q u v c d s Npq Lu Lv Hb Hc Hd I0) as (A1 & A2 & S).
  set (s1 := outcome (step (snd u) (set_cur c s))) in *. set (s2 := outcome (step (snd v) (set_cur d s))) in *.
  set (s12 := outcome (step (snd v) (set_cur d s1))) in *. set (s21 := outcome (step (snd u) (set_cur c s2))) in *.
  assert (F : unit_after u s = Some s1 /\ unit_after u s2 = Some s21 \/ unit_after u s = None /\ unit_after u s2 = None) by (unfold unit_after; rewrite !Es; apply after_case, A1).
  assert (G : unit_after v s = Some s2 /\ unit_after v s1 = Some s12 \/ unit_after v s = None /\ unit_after v s1 = None) by (unfold unit_after; rewrite !Et; apply after_case, A2).
  rewrite !run_unit. destruct F as [[F1 F2]|[F1 F2]], G as [[G1 G2]|[G1 G2]]; rewrite F1, G1, ?run_unit, ?F2, ?G2; try exact I.
  pose proof (Inv_unit _ _ _ I0 Au F1) as J1. pose proof (Inv_unit _ _ _ I0 Av G1) as J2.
  destruct (sim_run r s12 s21 Hr Har S (Inv_unit _ _ _ J1 Av G2) (Inv_unit _ _ _ J2 Au F2)) as [Q1 Q2].
  destruct (run (calls r) s12), (run (calls r) s21); try exact Q2. split; [exact Q2|]. intro k.
  destruct (heard_unit k u (v :: r) s Su) as (c1 & Hc1 & ->). destruct (heard_unit k v (u :: r) s Sv) as (d1 & Hd1 & ->). assert (c1 = c) by congruence. assert (d1 = d) by congruence. subst c1 d1. rewrite F1, G1.
  destruct (heard_unit k v r s1 Sv) as (d1 & Hd1' & ->). destruct (heard_unit k u r s2 Su) as (c1 & Hc1' & ->). assert (c1 = c) by congruence. assert (d1 = d) by congruence. subst c1 d1. rewrite F2, G2, <- A1, <- A2, Q1.
  destruct (Z.eqb_spec (place u) k), (Z.eqb_spec (place v) k); try reflexivity. congruence.
Qed.
Lemma reordered_Forall (P : Z * op -> Prop) a b : reordered a b -> Forall P a -> Forall P b.
Proof.
  intros H Hf. refine (Permutation_Forall _ Hf). clear Hf. induction H as [a|a u v b _ _ _ _|a b c _ IH1 _ IH2]; [reflexivity| |eapply perm_trans; eassumption].
  apply Permutation_app_head, perm_swap.
Qed.
Lemma prefix_run : forall a x y s, Forall selectable a -> Forall (fun u => api (snd u) = true) a -> Inv s ->
  (forall t, Inv t -> match run (calls x) t, run (calls y) t with Some s1, Some s2 => sim s1 s2 /\ forall k, heard k x t = heard k y t | None, None => True | _, _ => False end) ->
  match run (calls (a ++ x)) s, run (calls (a ++ y)) s with Some s1, Some s2 => sim s1 s2 /\ forall k, heard k (a ++ x) s = heard k (a ++ y) s | None, None => True | _, _ => False end.
Proof.
  induction a as [|u a IH]; intros x y s Hs Ha I0 H; [exact (H s I0)|]. inversion_clear Hs as [|? ? Su Hs']. inversion_clear Ha as [|? ? Au Ha']. cbn [app]. rewrite !run_unit.
  destruct (unit_after u s) as [s1|] eqn:E; [|exact I]. specialize (IH x y s1 Hs' Ha' (Inv_unit _ _ _ I0 Au E) H).
  destruct (run (calls (a ++ x)) s1), (run (calls (a ++ y)) s1); try exact IH. destruct IH as [S Q]. split; [exact S|]. intro k.
  destruct (heard_unit k u (a ++ x) s Su) as (c & Hc & ->). destruct (heard_unit k u (a ++ y) s Su) as (d & Hd & ->). assert (d = c) by congruence. subst d. rewrite E, Q. reflexivity.
Qed.
Lemma reordering b0 m0 a b : Forall selectable a -> Forall (fun u => api (snd u) = true) a -> reordered a b ->
  let s := jit_new b0 m0 in
  match run (calls a) s, run (calls b) s with
  | Some s1, Some s2 => same_but_order s1 s2 /\ forall k, heard k a s = heard k b s
  | None, None => True
  | _, _ => False
  end.
Proof.
  intros Hs Ha H s. induction H as [a|a u v b Eu Ev N Hb|a b c H1 IH1 H2 IH2].
  - destruct (run (calls a) s); [|exact I]. split; [apply sim_refl|reflexivity].
  - apply Forall_app in Hs, Ha. destruct Hs as [Hs1 Hs2], Ha as [Ha1 Ha2]. apply prefix_run; [exact Hs1|exact Ha1|apply Inv_new|]. intros t It. apply swap_run; assumption.
  - specialize (IH1 Hs Ha). specialize (IH2 (reordered_Forall _ _ _ H1 Hs) (reordered_Forall _ _ _ H1 Ha)).
    destruct (run (calls a) s), (run (calls b) s), (run (calls c) s); try contradiction; try exact I.
    destruct IH1 as [S1 Q1], IH2 as [S2 Q2]. split; [exact (sim_trans _ _ _ S1 S2)|]. intro k. rewrite Q1. apply Q2.
Qed.
