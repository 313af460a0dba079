(** How the state grows between two finalizes, and the invariant of the pending
    references. *)
From Verif Require Import Base ModelMem ModelEnc ModelSyntax ModelMacro Trace Emit SpecState SpecHist.

Local Notation length := List.length.
Definition cnt (s : jit) (p : pid) : Z := counter (pages s p).
Definition cnt_ok (s : jit) : Prop := forall p, 0 <= cnt s p <= PAGE_SIZE.
Definition off_ok (t : target) : Prop := match t with Rel _ off _ => 0 <= off <= 255 | _ => True end.
Definition zero_field (s : jit) (t : target) : Prop := forall i, fpos t <= i < fpos t + flen t -> byte s (fpage t) i = 0.
Definition disjoint (t u : target) : Prop := forall p x, in_field t p x -> in_field u p x -> False.

Lemma flen_pos t : 0 < flen t. Proof. destruct t; cbn; lia. Qed.
Lemma disjoint_sym t u : disjoint t u -> disjoint u t. Proof. intros H p x A B. exact (H p x B A). Qed.

(** Positions of different pages are different addresses. *)
Lemma addr_inj s p q x y : 0 <= x < PAGE_SIZE -> 0 <= y < PAGE_SIZE -> addr s p x = addr s q y -> p = q /\ x = y.
Proof.
  unfold addr, contents, PAGE_SIZE. intros Hx Hy H. destruct p, q; cbn [pidx] in H; split; try reflexivity; try lia.
Qed.
(** An address of the JIT memory. *)
Lemma addr_base' s s' p x : base s' = base s -> addr s' p x = addr s p x. Proof. apply addr_base. Qed.

(** [ext B s s']: code was appended; only labels satisfying [B] were (re)bound. *)
Record ext (B : label -> Prop) (s s' : jit) : Prop := mkExt {
  ex_base : base s' = base s;
  ex_ok : cnt_ok s /\ cnt_ok s';
  ex_cnt : forall p, cnt s p <= cnt s' p;
  ex_mem : forall x, (forall p, ~ (addr s p (cnt s p) <= x < addr s p (cnt s' p))) -> mem s' x = mem s x;
  ex_len : (length (labels s) <= length (labels s'))%nat;
  ex_refs : forall l, exists ts, refs s' l = refs s l ++ ts;
  ex_new : forall l k t, (length (refs s l) <= k)%nat -> nth_error (refs s' l) k = Some t ->
     cnt s (fpage t) <= fpos t /\ fpos t + flen t <= cnt s' (fpage t) /\ zero_field s' t /\ off_ok t;
  ex_disj : forall l1 k1 t1 l2 k2 t2, (length (refs s l1) <= k1)%nat -> nth_error (refs s' l1) k1 = Some t1 ->
     (length (refs s l2) <= k2)%nat -> nth_error (refs s' l2) k2 = Some t2 -> (l1, k1) <> (l2, k2) -> disjoint t1 t2;
  ex_loc : forall l, loc_of s' l = loc_of s l \/
     (B l /\ exists p x, loc_of s' l = Some (p, x) /\ cnt s p <= x <= cnt s' p)
}.

Lemma ext_weaken (B C : label -> Prop) s s' : (forall l, B l -> C l) -> ext B s s' -> ext C s s'.
Proof. intros H [? ? ? ? ? ? ? ? L]. constructor; auto. intro l. destruct (L l) as [E|[Hb E]]; auto. Qed.

Lemma ext_byte B s s' p i : ext B s s' -> 0 <= i < cnt s p -> byte s' p i = byte s p i.
Proof.
  intros E Hi. destruct (ex_ok _ _ _ E) as [K1 K2]. unfold byte. rewrite (addr_base s s') by apply (ex_base _ _ _ E).
  apply (ex_mem _ _ _ E). intros q Hq.
  assert (Hc := K1 p). assert (Hc2 := K2 q). assert (Hcq := K1 q). 
  destruct (addr_inj s p q i (addr s p i - contents s q)) as [-> Hi2]; try lia; unfold addr in *; try lia.
Qed.

Lemma ext_trans B s1 s2 s3 : ext B s1 s2 -> ext B s2 s3 -> ext B s1 s3.
Proof.
  intros E1 E2. pose proof E1 as [B1 [K1 _] C1 M1 N1 R1 W1 D1 L1]. pose proof E2 as [B2 [K2 K3] C2 M2 N2 R2 W2 D2 L2].
  assert (Hold : forall l k t, (length (refs s1 l) <= k)%nat -> nth_error (refs s3 l) k = Some t ->
     ((k < length (refs s2 l))%nat /\ nth_error (refs s2 l) k = Some t) \/ (length (refs s2 l) <= k)%nat).
  { intros l k t _ Ht. destruct (R2 l) as [ts E]. destruct (Compare_dec.le_lt_dec (length (refs s2 l)) k) as [H|H]; [right; exact H|].
    left. split; [exact H|]. rewrite E, nth_error_app1 in Ht by exact H. exact Ht. }
  constructor.
  - congruence.
  - split; assumption.
  - intro p. specialize (C1 p). specialize (C2 p). lia.
  - intros x Hx. rewrite M2, M1; auto.
    + intros p Hp. apply (Hx p). specialize (C2 p). unfold addr in *. lia.
    + intros p Hp. rewrite !(addr_base s1 s2) in Hp by exact B1. apply (Hx p). specialize (C1 p). unfold addr in *. lia.
  - lia.
  - intro l. destruct (R1 l) as [t1 E]. destruct (R2 l) as [t2 F]. exists (t1 ++ t2). rewrite F, E, app_assoc. reflexivity.
  - intros l k t Hk Ht. destruct (Hold l k t Hk Ht) as [[Hlt Ht2]|Hge].
    + destruct (W1 l k t Hk Ht2) as (A & Bd & Z0 & O). split; [exact A|]. split; [specialize (C2 (fpage t)); lia|]. split; [|exact O].
      intros i Hi. rewrite <- (Z0 i Hi). apply (ext_byte _ _ _ _ _ E2). specialize (K1 (fpage t)). lia.
    + destruct (W2 l k t Hge Ht) as (A & Bd & Z0 & O). split; [specialize (C1 (fpage t)); lia|]. auto.
  - intros l1 k1 t1 l2 k2 t2 H1 T1 H2 T2 Hne.
    destruct (Hold l1 k1 t1 H1 T1) as [[X1 Y1]|X1]; destruct (Hold l2 k2 t2 H2 T2) as [[X2 Y2]|X2].
    + eapply (D1 l1 k1 t1 l2 k2 t2); eauto.
    + destruct (W1 l1 k1 t1 H1 Y1) as (A & Bd & _). destruct (W2 l2 k2 t2 X2 T2) as (A' & _).
      intros p x [<- Hx] [Hp Hy]. rewrite Hp in *. lia.
    + destruct (W1 l2 k2 t2 H2 Y2) as (A & Bd & _). destruct (W2 l1 k1 t1 X1 T1) as (A' & _).
      intros p x [<- Hx] [Hp Hy]. rewrite Hp in *. lia.
    + eapply (D2 l1 k1 t1 l2 k2 t2); eauto.
  - intro l. destruct (L2 l) as [E|(Hb & p & x & E & Hr)].
    + rewrite E. destruct (L1 l) as [F|(Hb & p & x & F & Hr)]; [left; exact F|]. right. split; [exact Hb|].
      exists p, x. split; [exact F|]. specialize (C2 p). lia.
    + right. split; [exact Hb|]. exists p, x. split; [exact E|]. specialize (C1 p). lia.
Qed.

(** Changes that touch neither memory, cursors nor the label table. *)
Lemma ext_meta B s s' : cnt_ok s -> base s' = base s -> (forall x, mem s' x = mem s x) -> labels s' = labels s ->
  (forall p, cnt s' p = cnt s p) -> ext B s s'.
Proof.
  intros K Hb Hm Hl Hc. unfold refs, loc_of. constructor; unfold refs, loc_of; rewrite ?Hl; auto.
  - split; [exact K|]. intro p. rewrite Hc. apply K.
  - intro p. rewrite Hc. lia.
  - intro l. exists []. rewrite app_nil_r. reflexivity.
  - intros l k t Hk Ht. assert (nth_error (match nth_error (labels s) l with Some i => targets i | None => [] end) k = None)
      by (apply nth_error_None; exact Hk). congruence.
  - intros l k t l2 k2 t2 Hk Ht. assert (nth_error (match nth_error (labels s) l with Some i => targets i | None => [] end) k = None)
      by (apply nth_error_None; exact Hk). congruence.
Qed.
Lemma ext_refl B s : cnt_ok s -> ext B s s.
Proof. intro. apply ext_meta; auto. Qed.

(** Appending bytes without references. *)
Lemma cnt_adv p bs s s' : adv p bs s s' -> forall q, cnt s' q = if pid_eqb q p then cnt s q + Z.of_nat (length bs) else cnt s q.
Proof.
  intros A q. unfold cnt. destruct (pid_eqb q p) eqn:E.
  - apply pid_eqb_eq in E. subst q. rewrite (adv_page _ _ _ _ A). reflexivity.
  - rewrite (adv_others _ _ _ _ A); [reflexivity|]. intros ->. rewrite pid_eqb_refl in E. discriminate.
Qed.
Lemma ext_adv B p bs s s' : cnt_ok s -> adv p bs s s' -> cnt s p + Z.of_nat (length bs) <= PAGE_SIZE -> ext B s s'.
Proof.
  intros K A Hr. pose proof (cnt_adv _ _ _ _ A) as HC. destruct A as [Bs C L P O M]. unfold refs, loc_of.
  constructor; unfold refs, loc_of; rewrite ?L; auto.
  - split; [exact K|]. intro q. rewrite HC. specialize (K q). destruct (pid_eqb q p) eqn:E; [|lia].
    apply pid_eqb_eq in E. subst q. lia.
  - intro q. rewrite HC. destruct (pid_eqb q p); lia.
  - intros x Hx. rewrite M. apply wr_out. specialize (Hx p). rewrite HC, pid_eqb_refl in Hx. unfold addr, cnt in *. lia.
  - intro l. exists []. rewrite app_nil_r. reflexivity.
  - intros l k t Hk Ht. assert (nth_error (match nth_error (labels s) l with Some i => targets i | None => [] end) k = None)
      by (apply nth_error_None; exact Hk). congruence.
  - intros l k t l2 k2 t2 Hk Ht. assert (nth_error (match nth_error (labels s) l with Some i => targets i | None => [] end) k = None)
      by (apply nth_error_None; exact Hk). congruence.
Qed.
Lemma appends_ext B p bs m s a s' : cnt_ok s -> appends p bs m -> m s = Ok a s' -> ext B s s' /\ adv p bs s s'.
Proof.
  intros K A E. specialize (A s). destruct ((_ <=? _) || _) eqn:F in A.
  - destruct A as (s1 & E1 & A). rewrite E1 in E. inversion E; subst. split; [|exact A]. eapply ext_adv; eauto.
    unfold cnt. specialize (K p). unfold cnt in K. lia.
  - destruct A as (s1 & E1 & _). rewrite E1 in E. discriminate.
Qed.

(** ** Moving a cursor forward *)
Definition align_up (a c : Z) : Z := (c + a - 1) / a * a.
Lemma land_lnot k c : 0 <= k -> Z.land (c + (2 ^ k - 1)) (Z.lnot (2 ^ k - 1)) = align_up (2 ^ k) c.
Proof.
  intro Hk. replace (2 ^ k - 1) with (Z.ones k) by (rewrite Z.ones_equiv; lia).
  rewrite <- Z.ldiff_land, Z.ldiff_ones_r by exact Hk.
  rewrite Z.shiftr_div_pow2, Z.shiftl_mul_pow2 by exact Hk. unfold align_up. do 2 f_equal. rewrite Z.ones_equiv. lia.
Qed.
Definition set_cnt (p : pid) (c : Z) (s : jit) : jit := set_page p (with_counter c) s.
Lemma align16_eq p s : align16_on p s = Ok tt (set_cnt p (align_up 16 (cnt s p)) s).
Proof. unfold align16_on, bind, get_counter, set_counter, modify. change 15 with (2^4 - 1). rewrite land_lnot by lia. reflexivity. Qed.
Lemma align8_eq p s : align8_on p s = Ok tt (set_cnt p (align_up 8 (cnt s p)) s).
Proof. unfold align8_on, bind, get_counter, set_counter, modify. change 7 with (2^3 - 1). rewrite land_lnot by lia. reflexivity. Qed.
Lemma align4_eq p s : align4_on p s = Ok tt (set_cnt p (align_up 4 (cnt s p)) s).
Proof. unfold align4_on, bind, get_counter, set_counter, modify. change 3 with (2^2 - 1). rewrite land_lnot by lia. reflexivity. Qed.
Lemma align_page_eq p s : align_page_on p s = Ok tt (set_cnt p (align_up 4096 (cnt s p)) s).
Proof. unfold align_page_on, bind, get_counter, set_counter, modify. change 4095 with (2^12 - 1). rewrite land_lnot by lia. reflexivity. Qed.
Lemma align_up_spec a c : 0 < a -> c <= align_up a c < c + a /\ align_up a c mod a = 0.
Proof.
  intro Ha. unfold align_up. split; [|apply Z.mod_mul; lia].
  pose proof (Z.div_mod (c + a - 1) a). pose proof (Z.mod_pos_bound (c + a - 1) a). lia.
Qed.
Lemma align_up_max a c : In a [1; 4; 8; 16; 4096] -> c <= PAGE_SIZE -> align_up a c <= PAGE_SIZE.
Proof.
  intros Ha Hc. unfold align_up, PAGE_SIZE in *.
  assert (0 < a) by (cbn in Ha; lia).
  assert (K : 268435456 = 268435456 / a * a) by (cbn in Ha; decompose [or] Ha; subst; try reflexivity; contradiction).
  set (q := 268435456 / a) in K. clearbody q.
  assert ((c + a - 1) / a <= q); [|nia]. 
  assert ((c + a - 1) / a < q + 1); [|lia]. apply Z.div_lt_upper_bound; lia.
Qed.
Lemma cnt_set_cnt p c s q : cnt (set_cnt p c s) q = if pid_eqb q p then c else cnt s q.
Proof. unfold cnt, set_cnt. cbn [pages set_page]. destruct (pid_eqb q p); reflexivity. Qed.
Lemma ext_set_cnt B p c s : cnt_ok s -> cnt s p <= c <= PAGE_SIZE -> ext B s (set_cnt p c s).
Proof.
  intros K Hc. unfold refs, loc_of. constructor; unfold refs, loc_of; cbn [base labels mem set_cnt set_page]; auto.
  - split; [exact K|]. intro q. rewrite cnt_set_cnt. specialize (K q). destruct (pid_eqb q p) eqn:E; [|lia].
    apply pid_eqb_eq in E. subst. lia.
  - intro q. rewrite cnt_set_cnt. destruct (pid_eqb q p) eqn:E; [|lia]. apply pid_eqb_eq in E. subst. lia.
  - intro l. exists []. rewrite app_nil_r. reflexivity.
  - intros l k t Hk Ht. assert (nth_error (match nth_error (labels s) l with Some i => targets i | None => [] end) k = None)
      by (apply nth_error_None; exact Hk). congruence.
  - intros l k t l2 k2 t2 Hk Ht. assert (nth_error (match nth_error (labels s) l with Some i => targets i | None => [] end) k = None)
      by (apply nth_error_None; exact Hk). congruence.
Qed.
Lemma ext_align B p a s : cnt_ok s -> In a [1; 4; 8; 16; 4096] -> ext B s (set_cnt p (align_up a (cnt s p)) s).
Proof.
  intros K Ha. apply ext_set_cnt; [exact K|]. split; [|apply align_up_max; [exact Ha|apply K]].
  apply align_up_spec. cbn in Ha. lia.
Qed.

(** ** Label table *)
Lemma refs_upd_loc s l x k ls : labels s = upd_nth l (with_loc x) ls ->
  refs s k = match nth_error ls k with Some i => targets i | None => [] end.
Proof.
  intro H. unfold refs. rewrite H, upd_nth_nth. destruct (k =? l)%nat; [|reflexivity].
  destruct (nth_error ls k); reflexivity.
Qed.
Lemma ext_bind (B : label -> Prop) p l s s' : cnt_ok s -> B l -> bind_label_on p l s = Ok tt s' -> ext B s s'.
Proof.
  intros K Hb E. unfold bind_label_on, bind, get_counter, modify_label in E.
  destruct (l <? length (labels s))%nat eqn:El; [|discriminate]. inversion E; subst; clear E.
  assert (Hr : forall k, refs (set_labels (upd_nth l (with_loc (Some (p, counter (pages s p)))) (labels s)) s) k = refs s k)
    by (intro k; exact (refs_upd_loc (set_labels (upd_nth l (with_loc (Some (p, counter (pages s p)))) (labels s)) s) l _ k (labels s) eq_refl)).
  constructor; cbn [base set_labels mem labels]; auto.
  - intro q. apply Z.le_refl.
  - rewrite upd_nth_length. lia.
  - intro k. exists []. rewrite app_nil_r. apply Hr.
  - intros k n t Hk Ht. rewrite Hr in Ht. assert (nth_error (refs s k) n = None) by (apply nth_error_None; exact Hk). congruence.
  - intros k n t k2 n2 t2 Hk Ht. rewrite Hr in Ht. assert (nth_error (refs s k) n = None) by (apply nth_error_None; exact Hk). congruence.
  - intro k. unfold loc_of. cbn [labels set_labels]. rewrite upd_nth_nth. destruct (k =? l)%nat eqn:Ek.
    + apply Nat.eqb_eq in Ek. subst k. destruct (nth_error (labels s) l) as [i|] eqn:Ei; [|left; reflexivity]. cbn [option_map].
      right. split; [exact Hb|]. exists p, (cnt s p). split; [reflexivity|]. unfold cnt. cbn [pages set_labels]. lia.
    + left. reflexivity.
Qed.
Lemma ext_new_label B s : cnt_ok s -> ext B s (set_labels (labels s ++ [label_new]) s).
Proof.
  intro K.
  assert (Hn : forall k, nth_error (labels s ++ [label_new]) k = nth_error (labels s) k \/
     (nth_error (labels s) k = None /\ nth_error (labels s ++ [label_new]) k = Some label_new)).
  { intro k. destruct (Compare_dec.lt_dec k (length (labels s))) as [H|H].
    - left. apply nth_error_app1. exact H.
    - rewrite nth_error_app2 by lia. assert (nth_error (labels s) k = None) by (apply nth_error_None; lia). rewrite H0.
      destruct (k - length (labels s))%nat as [|j]; [right; auto|left; destruct j; reflexivity]. }
  assert (Hr : forall k, refs (set_labels (labels s ++ [label_new]) s) k = refs s k).
  { intro k. unfold refs. cbn [labels set_labels]. destruct (Hn k) as [->|[-> ->]]; reflexivity. }
  constructor; cbn [base set_labels mem labels]; auto.
  - intro q. apply Z.le_refl.
  - rewrite app_length. lia.
  - intro k. exists []. rewrite app_nil_r. apply Hr.
  - intros k n t Hk Ht. rewrite Hr in Ht. assert (nth_error (refs s k) n = None) by (apply nth_error_None; exact Hk). congruence.
  - intros k n t k2 n2 t2 Hk Ht. rewrite Hr in Ht. assert (nth_error (refs s k) n = None) by (apply nth_error_None; exact Hk). congruence.
  - intro k. left. unfold loc_of. cbn [labels set_labels]. destruct (Hn k) as [->|[-> ->]]; reflexivity.
Qed.

(** Registering a reference and appending its zero field. *)
Lemma ext_ref B p t l s bs s' : cnt_ok s -> (l < length (labels s))%nat -> fpage t = p -> fpos t = cnt s p -> off_ok t ->
  bs = le (Z.to_nat (flen t)) 0 ->
  adv p bs (set_labels (upd_nth l (add_target t) (labels s)) s) s' -> cnt s p + flen t <= PAGE_SIZE -> ext B s s'.
Proof.
  intros K Hl Hp Hx Ho Hbs A Hr. set (s1 := set_labels _ s) in A.
  assert (Hlen : Z.of_nat (length bs) = flen t) by (subst bs; rewrite le_length; pose proof (flen_pos t); lia).
  pose proof (cnt_adv _ _ _ _ A) as HC. change (cnt s1) with (cnt s) in HC.
  assert (Hrefs : forall k, refs s' k = if (k =? l)%nat then refs s k ++ [t] else refs s k).
  { intro k. unfold refs. rewrite (adv_labels _ _ _ _ A). cbn [s1 labels set_labels]. rewrite upd_nth_nth.
    destruct (k =? l)%nat eqn:E; [|reflexivity]. apply Nat.eqb_eq in E. subst k.
    destruct (nth_error (labels s) l) eqn:F; [reflexivity|]. apply nth_error_None in F. lia. }
  assert (Hnew : forall k n u, (length (refs s k) <= n)%nat -> nth_error (refs s' k) n = Some u -> k = l /\ n = length (refs s k) /\ u = t).
  { intros k n u Hn Hu. rewrite Hrefs in Hu. destruct (k =? l)%nat eqn:E.
    - apply Nat.eqb_eq in E. split; [exact E|]. rewrite nth_error_app2 in Hu by exact Hn.
      destruct (n - length (refs s k))%nat as [|j] eqn:F; [|destruct j; discriminate Hu]. inversion Hu; subst. split; [lia|reflexivity].
    - assert (nth_error (refs s k) n = None) by (apply nth_error_None; exact Hn). congruence. }
  constructor.
  - apply (adv_base _ _ _ _ A).
  - split; [exact K|]. intro q. rewrite HC. specialize (K q). destruct (pid_eqb q p) eqn:E; [|lia].
    apply pid_eqb_eq in E. subst q. lia.
  - intro q. rewrite HC. destruct (pid_eqb q p); lia.
  - intros x Hxx. rewrite (adv_mem _ _ _ _ A). change (mem s1) with (mem s). apply wr_out. specialize (Hxx p). rewrite HC, pid_eqb_refl in Hxx.
    change (addr s1 p (counter (pages s1 p))) with (addr s p (cnt s p)). unfold addr in *. lia.
  - rewrite (adv_labels _ _ _ _ A). cbn [s1 labels set_labels]. rewrite upd_nth_length. lia.
  - intro k. rewrite Hrefs. destruct (k =? l)%nat; [exists [t]; reflexivity|exists []; rewrite app_nil_r; reflexivity].
  - intros k n u Hn Hu. destruct (Hnew _ _ _ Hn Hu) as (-> & _ & ->). rewrite Hp, HC, pid_eqb_refl. split; [lia|]. split; [lia|]. split; [|exact Ho].
    intros i Hi. unfold byte. rewrite (adv_mem _ _ _ _ A). change (addr s1 p (counter (pages s1 p))) with (addr s p (cnt s p)).
    rewrite Hp. rewrite (addr_base s s') by apply (adv_base _ _ _ _ A). rewrite wr_in by (unfold addr; lia).
    subst bs. replace (le (Z.to_nat (flen t)) 0) with (repeat 0 (Z.to_nat (flen t))).
    + apply nth_repeat.
    + generalize (Z.to_nat (flen t)). induction n0; cbn [repeat le]; [reflexivity|]. rewrite IHn0. reflexivity.
  - intros l1 k1 t1 l2 k2 t2 H1 T1 H2 T2 Hne. destruct (Hnew _ _ _ H1 T1) as (-> & -> & _). destruct (Hnew _ _ _ H2 T2) as (-> & -> & _). congruence.
  - intro k. left. unfold loc_of. rewrite (adv_labels _ _ _ _ A). cbn [s1 labels set_labels]. rewrite upd_nth_nth.
    destruct (k =? l)%nat; [|reflexivity]. destruct (nth_error (labels s) k); reflexivity.
Qed.
