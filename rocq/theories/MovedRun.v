(** The same session in two allocations. *)
From Verif Require Import Base ModelMem ModelEnc ModelSyntax ModelMacro SpecState SpecHist SpecShare Emit MemInv MemStep MemFinal MemFill MemHist MemRun MemMisc MemFacts MemPlace SpecWhen WhenFacts WhenRun SpecMoved MovedFacts MovedPlain.
Local Notation length := List.length.
Local Open Scope list_scope.
Local Open Scope Z_scope.

(** ** finalize *)
Lemma mob_close p : mob (close_block_on p).
Proof.
  intros s1 s2 K. unfold close_block_on. assert (E : pages s1 = pages s2) by (known K; reflexivity). rewrite E.
  destruct (set_last_end _ _) as [bs|]; cbn [answer outcome]; repeat split; auto using over_refl; [known K; reflexivity|apply over_mem; reflexivity].
Qed.
Lemma mob_place : mob place_all.
Proof. unfold place_all. apply mob_bind; [apply mob_resolve_constants|intros _; apply mob_resolve_data]. Qed.
Definition same_pages {A} (m : M A) : Prop := forall s, pages (outcome (m s)) = pages s.
Lemma sp_bind {A B} (m : M A) (k : A -> M B) : same_pages m -> (forall a, same_pages (k a)) -> same_pages (bind m k).
Proof. intros Hm Hk s. unfold bind. specialize (Hm s). destruct (m s) as [a s1|e s1]; cbn [outcome] in *; [rewrite Hk|]; exact Hm. Qed.
Lemma sp_put p x v : same_pages (put p x v). Proof. intro s. unfold put. destruct (_ <=? _); reflexivity. Qed.
Lemma sp_forM {A} (f : A -> M unit) : (forall x, same_pages (f x)) -> forall l, same_pages (forM l f).
Proof. intros H l. induction l as [|x l IH]; cbn [forM]; [intro s; reflexivity|]. apply sp_bind; [apply H|intros _; exact IH]. Qed.
Lemma sp_fill src t : same_pages (fill_target src t).
Proof.
  destruct t; cbn [fill_target].
  - apply sp_bind; [intro s; reflexivity|]. intro s. cbv zeta. destruct (in_i32 _); [|intro u; reflexivity]. unfold write32. cbv zeta. repeat (apply sp_bind; [apply sp_put|intros _]). apply sp_put.
  - unfold write64. repeat (apply sp_bind; [apply sp_put|intros _]). apply sp_put.
Qed.
Lemma sp_labels : forall r acc, same_pages (fill_labels r acc).
Proof.
  induction r as [|i r IH]; intro acc; cbn [fill_labels]; [intro s; reflexivity|]. destruct (loc i) as [[p x]|]; [|apply IH].
  apply sp_bind; [intro s; reflexivity|]. intro s. apply sp_bind; [apply sp_forM; intro t; apply sp_fill|intros _; apply IH].
Qed.
Lemma sp_relocs : same_pages fill_relocs.
Proof.
  unfold fill_relocs. apply sp_bind; [intro s; reflexivity|]. intro s. apply sp_bind; [intro u; reflexivity|]. intros _.
  apply sp_bind; [apply sp_labels|]. intros ls u. reflexivity.
Qed.
Lemma finish_pages e1 e2 t1 t2 : knowing e1 = knowing e2 -> finish e1 = Ok tt t1 -> finish e2 = Ok tt t2 -> pages t1 = pages t2.
Proof.
  intros K H1 H2. unfold finish in H1, H2.
  assert (Mc : mob (forM all_pages close_block_on)) by (apply mob_forM; intro; apply mob_close).
  destruct (Mc e1 e2 K) as (_ & Kc & _). unfold bind at 1 in H1. unfold bind at 1 in H2.
  destruct (forM all_pages close_block_on e1) as [[] c1|]; [|discriminate]. destruct (forM all_pages close_block_on e2) as [[] c2|]; [|discriminate]. cbn [outcome] in Kc.
  unfold bind at 1 in H1. unfold bind at 1 in H2. pose proof (sp_relocs c1) as S1. pose proof (sp_relocs c2) as S2.
  destruct (fill_relocs c1) as [[] g1|]; [|discriminate]. destruct (fill_relocs c2) as [[] g2|]; [|discriminate]. cbn [outcome] in S1, S2.
  assert (E : pages g1 = pages g2) by (rewrite S1, S2; unfold knowing in Kc; congruence).
  unfold all_pages, forM, bind, modify, ret in H1, H2. injection H1 as <-. injection H2 as <-. cbn [pages set_page]. rewrite E. reflexivity.
Qed.
Lemma labels_eq s1 s2 : length (labels s1) = length (labels s2) -> (forall l, loc_of s1 l = loc_of s2 l) -> (forall l, refs s1 l = refs s2 l) -> labels s1 = labels s2.
Proof.
  unfold loc_of, refs. generalize (labels s1) as a, (labels s2) as b. induction a as [|[x1 y1] a IH]; intros [|[x2 y2] b] Hn HL HR; try discriminate Hn; [reflexivity|].
  pose proof (HL 0%nat) as L0. pose proof (HR 0%nat) as R0. cbn in L0, R0. subst. f_equal. apply IH; [cbn in Hn; lia|intro l; apply (HL (S l))|intro l; apply (HR (S l))].
Qed.

Lemma plain_refs s : plain s -> forall l t, In t (refs s l) -> relative t.
Proof.
  intros [_ H] l t Ht. unfold refs in Ht. destruct (nth_error (labels s) l) as [i|] eqn:E; [|contradiction]. rewrite Forall_forall in H.
  specialize (H i (nth_error_In _ _ E)). rewrite Forall_forall in H. exact (H t Ht).
Qed.
Lemma plain_opened s : plain s -> plain (opened s).
Proof.
  intro H. unfold opened. assert (K : forall p u, plain u -> plain (set_page p open_block u)).
  { intros p u Hu. exact (kp_set_page p open_block (fun e He => He) u Hu). }
  apply K, K, K, H.
Qed.
Lemma plain_final s m s' : finalized s m s' -> plain s -> (forall l t, In t (refs m l) -> relative t) -> plain s'.
Proof.
  intros F H R. constructor.
  - intro p. rewrite (fn_pages _ _ _ F). unfold finish_page, page_ok. destruct (pl_page _ H p) as [Hc Hd]. destruct p; cbn; auto.
  - apply Forall_forall. intros i Hi. apply In_nth_error in Hi. destruct Hi as [l Hl]. apply Forall_forall. intros t Ht. apply (R l).
    pose proof (fn_refs _ _ _ F l) as E. unfold refs at 1 in E. rewrite Hl in E. rewrite E in Ht. destruct (loc_of m l); [contradiction|exact Ht].
Qed.

(** ** The images *)
Definition address_at (s1 s2 : jit) (k : Z) : Prop :=
  exists p x q y, pidx p * PAGE_SIZE + x <= k < pidx p * PAGE_SIZE + x + 8 /\ (forall i, x <= i < x + 8 -> settled s1 p i /\ settled s2 p i) /\
    bytes s1 p x 8 = le 8 (addr s1 q y) /\ bytes s2 p x 8 = le 8 (addr s2 q y).
Record img (P : Prop) (a1 a2 s1 s2 : jit) : Prop := mkImg {
  im_know : knowing s1 = knowing s2;
  im_base : bases a1 a2 s1 s2;
  im_at : forall k, at_offset s1 k = at_offset s2 k \/ (P /\ address_at s1 s2 k) \/ (at_offset s1 k = at_offset a1 k /\ at_offset s2 k = at_offset a2 k)
}.
Lemma address_step o s1 s2 t1 t2 k : Inv s1 -> Inv s2 -> api o = true -> after o s1 = Some t1 -> after o s2 = Some t2 -> address_at s1 s2 k -> address_at t1 t2 k.
Proof.
  intros I1 I2 Ha E1 E2 (p & x & q & y & Hk & Hs & V1 & V2). exists p, x, q, y. split; [exact Hk|].
  pose proof (step_effect _ _ _ I1 Ha E1) as F1. pose proof (step_effect _ _ _ I2 Ha E2) as F2.
  assert (R1 : run [o] s1 = Some t1) by (cbn [run]; rewrite E1; reflexivity). assert (R2 : run [o] s2 = Some t2) by (cbn [run]; rewrite E2; reflexivity).
  assert (A1 : forallb api [o] = true) by (cbn [forallb]; rewrite Ha; reflexivity).
  split; [intros i Hi; split; [apply (settled_effect o s1 t1 p i I1 F1)|apply (settled_effect o s2 t2 p i I2 F2)]; apply (Hs i Hi)|].
  rewrite (settled_bytes [o] s1 t1 p x 8 I1 A1 R1), (settled_bytes [o] s2 t2 p x 8 I2 A1 R2) by (intros i Hi; apply (Hs i); lia).
  rewrite (addr_base s1 t1) by apply (effect_base _ _ _ F1). rewrite (addr_base s2 t2) by apply (effect_base _ _ _ F2). split; assumption.
Qed.
Lemma img_step P a1 a2 s1 s2 t1 t2 o : img P a1 a2 s1 s2 -> Inv s1 -> Inv s2 -> api o = true -> after o s1 = Some t1 -> after o s2 = Some t2 ->
  knowing t1 = knowing t2 -> over s1 s2 t1 t2 -> img P a1 a2 t1 t2.
Proof.
  intros [K [B1 B2] A] I1 I2 Ha E1 E2 K' O. destruct (over_bases _ _ _ _ O) as [C1 C2]. constructor; [exact K'|split; congruence|].
  intro k. unfold at_offset in *. rewrite C1, C2. destruct (O k) as [[_ [X Y]]|[_ X]]; [|left; exact X]. rewrite X, Y.
  destruct (A k) as [H|[H|H]]; [left; exact H|right; left|right; right; exact H]. destruct H as [HQ H]. split; [exact HQ|]. exact (address_step o s1 s2 t1 t2 k I1 I2 Ha E1 E2 H).
Qed.
Lemma settled_linked s m s' l t : finalized s m s' -> loc_of m l <> None -> In t (refs m l) -> forall i, fpos t <= i < fpos t + flen t -> settled s' (fpage t) i.
Proof.
  intros F El Ht i Hi. apply In_nth_error in Ht. destruct Ht as [k Hk]. destruct (ri_ref _ (fn_inv _ _ _ F) _ _ _ Hk) as (A & B & _).
  split; [fold (cnt s' (fpage t)); rewrite (fin_cnt _ _ _ F); lia|]. intros (l2 & u & Hu & Hf). rewrite (fn_refs _ _ _ F) in Hu.
  destruct (loc_of m l2) eqn:El2; [contradiction|]. apply In_nth_error in Hu. destruct Hu as [k2 Hk2].
  refine (ri_disj _ (fn_inv _ _ _ F) l2 k2 u l k t Hk2 Hk _ _ i Hf _); [congruence|]. split; auto.
Qed.
Lemma at_offset_bytes s1 s2 t k : bytes s1 (fpage t) (fpos t) (Z.to_nat (flen t)) = bytes s2 (fpage t) (fpos t) (Z.to_nat (flen t)) ->
  at_field s1 t (base s1 + k) -> at_offset s1 k = at_offset s2 k.
Proof.
  intros E H. unfold bytes in E. unfold at_field, faddr in H. unfold at_offset.
  assert (K : forall n a b, read (mem s1) a n = read (mem s2) b n -> forall d, 0 <= d < Z.of_nat n -> mem s1 (a + d) = mem s2 (b + d)).
  { clear. induction n as [|n IH]; intros a b E d Hd; [lia|]. cbn [read] in E. injection E as E1 E2. destruct (Z.eq_dec d 0) as [->|N]; [rewrite !Z.add_0_r; exact E1|].
    specialize (IH _ _ E2 (d - 1) ltac:(lia)). replace (a + d) with (a + 1 + (d - 1)) by lia. replace (b + d) with (b + 1 + (d - 1)) by lia. exact IH. }
  specialize (K _ _ _ E (base s1 + k - addr s1 (fpage t) (fpos t))). pose proof (flen_pos t). unfold addr, contents in *.
  replace (base s1 + k) with (base s1 + pidx (fpage t) * PAGE_SIZE + fpos t + (base s1 + k - (base s1 + pidx (fpage t) * PAGE_SIZE + fpos t))) by lia.
  rewrite K by lia. f_equal. lia.
Qed.
Lemma at_field_moved s1 s2 t k : at_field s1 t (base s1 + k) <-> at_field s2 t (base s2 + k).
Proof. unfold at_field, faddr, addr, contents. lia. Qed.
Lemma img_finalize P a1 a2 s1 s2 : img P a1 a2 s1 s2 -> P \/ plain s1 -> Inv s1 -> Inv s2 ->
  match after OFinalize s1, after OFinalize s2 with Some t1, Some t2 => img P a1 a2 t1 t2 /\ (P \/ plain t1) | None, None => True | _, _ => False end.
Proof.
  intros M HP I1 I2. assert (Ha : api OFinalize = true) by reflexivity. pose proof M as [K [B1 B2] A].
  assert (Ko : knowing (opened s1) = knowing (opened s2)) by (unfold opened; known K; reflexivity).
  destruct (mob_place (opened s1) (opened s2) Ko) as (Aa & Kp & O).
  assert (Af : forall s, after OFinalize s = match place_all (opened s) with Ok _ se => match finish se with Ok _ s' => Some s' | Panic _ _ => None end | Panic _ _ => None end).
  { intros s. unfold after. cbn [step]. unfold nolabel, bind. rewrite finalize_split. destruct (place_all (opened s)) as [[] se|e se]; [|reflexivity].
    destruct (finish se) as [[] s'|e s']; reflexivity. }
  pose proof (Af s1) as G1. pose proof (Af s2) as G2. clear Af.
  destruct (place_all (opened s1)) as [[] e1|p1 e1] eqn:E1, (place_all (opened s2)) as [[] e2|p2 e2] eqn:E2; cbn [answer outcome] in Aa, Kp, O; try discriminate Aa;
    [|rewrite G1, G2; exact I].
  destruct (place_spec_at s1 e1 I1 E1) as (t1 & m1 & X1 & (C1 & M1 & L1) & F1). destruct (place_spec_at s2 e2 I2 E2) as (t2 & m2 & X2 & (C2 & M2 & L2) & F2).
  rewrite X1 in G1. rewrite X2 in G2. rewrite G1, G2.
  destruct (over_bases _ _ _ _ O) as [O1 O2]. change (base (opened s1)) with (base s1) in O1. change (base (opened s2)) with (base s2) in O2.
  assert (Le : labels e1 = labels e2) by (unfold knowing in Kp; congruence).
  assert (HL : forall l, loc_of m1 l = loc_of m2 l) by (intro l; unfold loc_of; rewrite L1, L2, Le; reflexivity).
  assert (HR : forall l, refs m1 l = refs m2 l) by (intro l; unfold refs; rewrite L1, L2, Le; reflexivity).
  assert (D1 : base m1 = base s1) by congruence. assert (D2 : base m2 = base s2) by congruence.
  assert (T1 : base t1 = base s1) by apply (fn_base _ _ _ F1). assert (T2 : base t2 = base s2) by apply (fn_base _ _ _ F2).
  assert (R1 : P \/ forall l t, In t (refs m1 l) -> relative t).
  { destruct HP as [HP|HP]; [left; exact HP|right]. intros l t Ht. apply (plain_refs e1) with (l := l).
    - pose proof (kp_place (opened s1) (plain_opened _ HP)) as Q. rewrite E1 in Q. exact Q.
    - unfold refs in *. rewrite <- L1. exact Ht. }
  split; [|destruct HP as [HP|HP]; [left; exact HP|]; destruct R1 as [R1|R1]; [left; exact R1|right; exact (plain_final _ _ _ F1 HP R1)]].
  constructor.
  - unfold knowing. f_equal; [f_equal|].
    + rewrite (fn_cur _ _ _ F1), (fn_cur _ _ _ F2). unfold knowing in K. congruence.
    + exact (finish_pages e1 e2 t1 t2 Kp X1 X2).
    + apply labels_eq.
      * rewrite (fn_len _ _ _ F1), (fn_len _ _ _ F2). unfold knowing in K. congruence.
      * intro l. rewrite (fn_loc _ _ _ F1), (fn_loc _ _ _ F2). apply HL.
      * intro l. rewrite (fn_refs _ _ _ F1), (fn_refs _ _ _ F2), HL, HR. reflexivity.
  - split; congruence.
  - intro k. destruct (field_dec m1 (base m1 + k)) as [(l & t & Hl & Ht & Hf)|N].
    + destruct (loc_of m1 l) as [[q y]|] eqn:El; [|congruence]. pose proof (fn_value _ _ _ F1 l q y t El Ht) as V1.
      assert (El2 : loc_of m2 l = Some (q, y)) by (rewrite <- HL; exact El). assert (Ht2 : In t (refs m2 l)) by (rewrite <- HR; exact Ht).
      pose proof (fn_value _ _ _ F2 l q y t El2 Ht2) as V2.
      assert (Hf1 : at_field t1 t (base t1 + k)) by (apply (at_field_moved m1); exact Hf).
      destruct t as [p off x|p x].
      * left. apply (at_offset_bytes t1 t2 (Rel p off x) k); [|exact Hf1]. rewrite V1, V2. unfold fval, addr, contents. f_equal. lia.
      * right. left. split; [destruct R1 as [R1|R1]; [exact R1|elim (R1 l (Abs p x) Ht)]|]. exists p, x, q, y. split; [unfold at_field, faddr, addr, contents in Hf1; cbn [fpage fpos flen] in Hf1; lia|].
        split; [intros i Hi; split; [apply (settled_linked s1 m1 t1 l (Abs p x) F1)|apply (settled_linked s2 m2 t2 l (Abs p x) F2)]; try assumption; congruence|].
        rewrite (addr_base m1 t1), (addr_base m2 t2) by congruence. split; [exact V1|exact V2].
    + assert (Q1 : at_offset t1 k = mem e1 (base s1 + k)).
      { unfold at_offset. rewrite T1, <- D1. rewrite (fn_frame _ _ _ F1 _ N), M1. reflexivity. }
      assert (Q2 : at_offset t2 k = mem e2 (base s2 + k)).
      { unfold at_offset. rewrite T2, <- D2. rewrite (fn_frame _ _ _ F2), M2; [reflexivity|]. intros l t Hl Ht Hf.
        apply (N l t); [rewrite HL; exact Hl|rewrite HR; exact Ht|]. apply (at_field_moved m1 m2). exact Hf. }
      rewrite Q1, Q2. specialize (O k). change (base (opened s1)) with (base s1) in O. change (base (opened s2)) with (base s2) in O.
      change (mem (opened s1)) with (mem s1) in O. change (mem (opened s2)) with (mem s2) in O.
      destruct O as [[_ [X Y]]|[_ X]]; [|left; exact X]. rewrite X, Y.
      destruct (A k) as [H|[H|H]]; [left; exact H|right; left|right; right; exact H]. destruct H as [HQ H]. split; [exact HQ|]. exact (address_step OFinalize s1 s2 t1 t2 k I1 I2 Ha G1 G2 H).
Qed.

(** ** Sessions *)
Lemma moved_run P a1 a2 : forall ops s1 s2, img P a1 a2 s1 s2 -> P \/ (plain s1 /\ forallb unaddressed ops = true) -> Inv s1 -> Inv s2 -> forallb api ops = true ->
  answered ops s1 = answered ops s2 /\
  match run ops s1, run ops s2 with Some t1, Some t2 => img P a1 a2 t1 t2 | None, None => True | _, _ => False end.
Proof.
  induction ops as [|o ops IH]; intros s1 s2 M HP I1 I2 Ha; [split; [reflexivity|exact M]|].
  cbn [forallb] in Ha. apply andb_true_iff in Ha. destruct Ha as [Ho Ha]. cbn [answered run].
  assert (Hu : P \/ (plain s1 /\ unaddressed o = true /\ forallb unaddressed ops = true)).
  { destruct HP as [HP|[HP U]]; [left; exact HP|right]. cbn [forallb] in U. apply andb_true_iff in U. tauto. }
  clear HP. destruct (is_finalize o) eqn:Hf.
  - destruct o; try discriminate Hf. pose proof (img_finalize P a1 a2 s1 s2 M ltac:(tauto) I1 I2) as B.
    destruct (after OFinalize s1) as [t1|] eqn:E1, (after OFinalize s2) as [t2|] eqn:E2; try (elim B; fail); [|split; [reflexivity|exact I]].
    destruct B as [B HP]. exact (IH t1 t2 B ltac:(tauto) (Inv_step _ _ _ I1 Ho E1) (Inv_step _ _ _ I2 Ho E2) Ha).
  - destruct (mob_step o Ho Hf s1 s2 (im_know _ _ _ _ _ M)) as (A & K & O). rewrite A.
    assert (Hn : P \/ (plain (outcome (step o s1)) /\ forallb unaddressed ops = true)).
    { destruct Hu as [Hu|(Hp & Uo & U)]; [left; exact Hu|right; split; [exact (kp_step o Ho Hf Uo s1 Hp)|exact U]]. }
    assert (B : match after o s1, after o s2 with Some t1, Some t2 => t1 = outcome (step o s1) /\ img P a1 a2 t1 t2 | None, None => True | _, _ => False end).
    { destruct (after o s1) as [t1|] eqn:E1, (after o s2) as [t2|] eqn:E2; try exact I.
      - assert (t1 = outcome (step o s1) /\ t2 = outcome (step o s2)) as [-> ->].
        { unfold after in E1, E2. destruct (step o s1) as [x y|x y], (step o s2) as [z w|z w]; cbn [outcome];
          repeat match goal with H : (if ?c then _ else _) = _ |- _ => destruct c; [|discriminate H] end; split; congruence. }
        split; [reflexivity|]. exact (img_step P a1 a2 s1 s2 _ _ o M I1 I2 Ho E1 E2 K O).
      - unfold after in E1, E2. destruct (step o s1) as [x y|x y], (step o s2) as [z w|z w]; cbn [answer] in A; try discriminate A; try discriminate E2.
        injection A as <-. destruct (tolerated o x); discriminate.
      - unfold after in E1, E2. destruct (step o s1) as [x y|x y], (step o s2) as [z w|z w]; cbn [answer] in A; try discriminate A; try discriminate E1.
        injection A as <-. destruct (tolerated o x); discriminate. }
    destruct (after o s1) as [t1|] eqn:E1, (after o s2) as [t2|] eqn:E2; try (elim B; fail); [|split; [reflexivity|exact I]].
    destruct B as [-> B]. destruct (IH _ t2 B Hn (Inv_step _ _ _ I1 Ho E1) (Inv_step _ _ _ I2 Ho E2) Ha) as [A' B']. split; [f_equal; exact A'|exact B'].
Qed.
Lemma plain_new b m : plain (jit_new b m).
Proof. constructor; [intro p; split; constructor|constructor]. Qed.
Lemma img_new P b1 m1 b2 m2 : img P (jit_new b1 m1) (jit_new b2 m2) (jit_new b1 m1) (jit_new b2 m2).
Proof. constructor; [reflexivity|split; reflexivity|intro k; right; right; auto]. Qed.
Lemma img_session P a1 a2 s1 s2 : img P a1 a2 s1 s2 -> same_session s1 s2.
Proof. intros [K _ _]. unfold knowing in K. injection K as K1 K2 K3. split; [exact K1|split; [intro p; rewrite K2; reflexivity|exact K3]]. Qed.
Lemma moved b1 m1 b2 m2 ops : forallb api ops = true ->
  let a1 := jit_new b1 m1 in let a2 := jit_new b2 m2 in
  answered ops a1 = answered ops a2 /\
  match run ops a1, run ops a2 with
  | Some s1, Some s2 => same_session s1 s2 /\ base s1 = b1 /\ base s2 = b2 /\ same_image a1 a2 s1 s2
  | None, None => True
  | _, _ => False
  end.
Proof.
  intros Ha a1 a2. destruct (moved_run True a1 a2 ops a1 a2 (img_new _ _ _ _ _) (or_introl I) (Inv_new b1 m1) (Inv_new b2 m2) Ha) as [A B]. split; [exact A|].
  destruct (run ops a1) as [s1|], (run ops a2) as [s2|]; try exact B. pose proof (img_session _ _ _ _ _ B) as K. destruct B as [_ [B1 B2] H].
  split; [exact K|]. split; [exact B1|]. split; [exact B2|].
  intro k. destruct (H k) as [Q|[(_ & p & x & q & y & Q & _ & V1 & V2)|Q]]; [left; exact Q|right; left; exists p, x, q, y; auto|right; right; exact Q].
Qed.
Lemma moved_plain b1 m1 b2 m2 ops : forallb api ops = true -> forallb unaddressed ops = true -> (forall k, m1 (b1 + k) = m2 (b2 + k)) ->
  match run ops (jit_new b1 m1), run ops (jit_new b2 m2) with
  | Some s1, Some s2 => forall k, at_offset s1 k = at_offset s2 k
  | None, None => True
  | _, _ => False
  end.
Proof.
  intros Ha Hu Hm. destruct (moved_run False _ _ ops _ _ (img_new False b1 m1 b2 m2) (or_intror (conj (plain_new b1 m1) Hu)) (Inv_new b1 m1) (Inv_new b2 m2) Ha) as [_ B].
  destruct (run ops (jit_new b1 m1)) as [s1|], (run ops (jit_new b2 m2)) as [s2|]; try exact B. intro k. destruct (im_at _ _ _ _ _ B k) as [Q|[[[] _]|[Q R]]]; [exact Q|].
  rewrite Q, R. exact (Hm k).
Qed.
