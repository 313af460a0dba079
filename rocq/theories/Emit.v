(** Effect of emitting on memory, cursor and labels. *)
From Verif Require Import Base ModelMem ModelEnc Trace.

(** [bs] written at address [a]. *)
Definition wr (m : Z -> Z) (a : Z) (bs : list Z) : Z -> Z := fun x =>
  if (a <=? x) && (x <? a + Z.of_nat (length bs)) then nth (Z.to_nat (x - a)) bs 0 else m x.

Lemma wr_nil m a x : wr m a [] x = m x.
Proof. unfold wr. cbn [length]. destruct (_ && _) eqn:E; [lia|reflexivity]. Qed.
Lemma wr_out m a bs x : x < a \/ a + Z.of_nat (length bs) <= x -> wr m a bs x = m x.
Proof. intro. unfold wr. destruct (_ && _) eqn:E; [lia|reflexivity]. Qed.
Lemma wr_in m a bs x : a <= x < a + Z.of_nat (length bs) -> wr m a bs x = nth (Z.to_nat (x - a)) bs 0.
Proof. intro. unfold wr. destruct (_ && _) eqn:E; [reflexivity|lia]. Qed.
Lemma wr_ext m m' a bs x : (forall y, m y = m' y) -> wr m a bs x = wr m' a bs x.
Proof. intro H. unfold wr. destruct (_ && _); [reflexivity|apply H]. Qed.
Lemma wr_app m a b1 b2 x :
  wr (wr m a b1) (a + Z.of_nat (length b1)) b2 x = wr m a (b1 ++ b2) x.
Proof.
  unfold wr. rewrite app_length.
  destruct ((a + Z.of_nat (length b1) <=? x) && (x <? a + Z.of_nat (length b1) + Z.of_nat (length b2))) eqn:E2.
  - destruct ((a <=? x) && (x <? a + Z.of_nat (length b1 + length b2))) eqn:E; [|lia].
    rewrite app_nth2 by lia. f_equal. lia.
  - destruct ((a <=? x) && (x <? a + Z.of_nat (length b1))) eqn:E1.
    + destruct ((a <=? x) && (x <? a + Z.of_nat (length b1 + length b2))) eqn:E; [|lia].
      rewrite app_nth1 by lia. reflexivity.
    + destruct ((a <=? x) && (x <? a + Z.of_nat (length b1 + length b2))) eqn:E; [lia|reflexivity].
Qed.
Lemma wr_upd m a b x : upd m a b x = wr m a [b] x.
Proof.
  unfold upd, wr. cbn [length]. destruct (x =? a) eqn:E.
  - destruct (_ && _) eqn:F; [|lia]. replace (Z.to_nat (x - a)) with 0%nat by lia. reflexivity.
  - destruct (_ && _) eqn:F; [lia|reflexivity].
Qed.

Lemma read_ext m m' n : forall a, (forall x, a <= x < a + Z.of_nat n -> m x = m' x) -> read m a n = read m' a n.
Proof.
  induction n as [|n IH]; intros a H; [reflexivity|]. cbn [read]. f_equal.
  - apply H. lia.
  - apply IH. intros x Hx. apply H. lia.
Qed.
Lemma read_length m n : forall a, length (read m a n) = n.
Proof. induction n; intros; cbn [read length]; auto. Qed.
Lemma nth_read m n : forall a k, (k < n)%nat -> nth k (read m a n) 0 = m (a + Z.of_nat k).
Proof.
  induction n as [|n IH]; intros a k H; [lia|]. cbn [read]. destruct k as [|k].
  - cbn [nth]. f_equal. lia.
  - cbn [nth]. rewrite IH by lia. f_equal. lia.
Qed.
Lemma read_app m a n k : read m a (n + k) = read m a n ++ read m (a + Z.of_nat n) k.
Proof.
  revert a; induction n as [|n IH]; intro a; cbn [Nat.add read app].
  - f_equal. lia.
  - f_equal. rewrite IH. do 2 f_equal. lia.
Qed.
Lemma read_eq m a bs :
  (forall k, (k < length bs)%nat -> m (a + Z.of_nat k) = nth k bs 0) -> read m a (length bs) = bs.
Proof.
  revert a; induction bs as [|b r IH]; intros a H; [reflexivity|]. cbn [length read]. f_equal.
  - specialize (H 0%nat). cbn [length nth] in H. rewrite <- H by lia. f_equal; lia.
  - apply IH. intros k Hk. specialize (H (S k)). cbn [length nth] in H. rewrite <- H by lia. f_equal; lia.
Qed.
Lemma read_wr m a bs : read (wr m a bs) a (length bs) = bs.
Proof.
  apply read_eq. intros k Hk. rewrite wr_in by lia. f_equal. lia.
Qed.
Lemma read_wr_sub m a b1 b2 b3 :
  read (wr m a (b1 ++ b2 ++ b3)) (a + Z.of_nat (length b1)) (length b2) = b2.
Proof.
  apply read_eq. intros k Hk. rewrite wr_in by (rewrite !app_length; lia).
  replace (Z.to_nat _) with (length b1 + k)%nat by lia.
  rewrite app_nth2 by lia. replace (length b1 + k - length b1)%nat with k by lia.
  apply app_nth1. exact Hk.
Qed.

Lemma le_length n : forall v, length (le n v) = n.
Proof. induction n; intros; cbn [le length]; auto. Qed.

(** ** Appending bytes to a page *)
Record adv (p : pid) (bs : list Z) (s s' : jit) : Prop := mkAdv {
  adv_base : base s' = base s;
  adv_cur : cur s' = cur s;
  adv_labels : labels s' = labels s;
  adv_page : pages s' p = with_counter (counter (pages s p) + Z.of_nat (length bs)) (pages s p);
  adv_others : forall q, q <> p -> pages s' q = pages s q;
  adv_mem : forall x, mem s' x = wr (mem s) (addr s p (counter (pages s p))) bs x
}.

Lemma pid_eqb_eq p q : pid_eqb p q = true <-> p = q.
Proof. destruct p, q; cbn; split; intro; congruence. Qed.
Lemma pid_eqb_refl p : pid_eqb p p = true. Proof. destruct p; reflexivity. Qed.
Lemma pid_eqb_neq p q : p <> q -> pid_eqb p q = false.
Proof. destruct p, q; cbn; congruence. Qed.
Lemma pid_dec (p q : pid) : {p = q} + {p <> q}. Proof. decide equality. Qed.

Lemma with_counter_same g : with_counter (counter g) g = g. Proof. destruct g; reflexivity. Qed.
Lemma with_counter_twice c c' g : with_counter c (with_counter c' g) = with_counter c g. Proof. reflexivity. Qed.

Lemma addr_base s s' p x : base s' = base s -> addr s' p x = addr s p x.
Proof. unfold addr, contents. intros ->. reflexivity. Qed.

Lemma adv_nil p s : adv p [] s s.
Proof.
  constructor; auto; cbn [length].
  - replace (_ + Z.of_nat 0) with (counter (pages s p)) by lia. symmetry; apply with_counter_same.
  - intros; symmetry; apply wr_nil.
Qed.
Lemma adv_trans p b1 b2 s1 s2 s3 : adv p b1 s1 s2 -> adv p b2 s2 s3 -> adv p (b1 ++ b2) s1 s3.
Proof.
  intros [B1 C1 L1 P1 O1 M1] [B2 C2 L2 P2 O2 M2]. constructor; try congruence.
  - rewrite P2, P1. cbn [counter with_counter]. rewrite app_length, Nat2Z.inj_add, with_counter_twice.
    f_equal. lia.
  - intros. rewrite O2, O1; auto.
  - intro x. rewrite M2, P1. cbn [counter with_counter]. rewrite (addr_base s1 s2) by assumption.
    unfold addr. rewrite Z.add_assoc. rewrite (wr_ext _ _ _ _ _ M1). unfold addr. apply wr_app.
Qed.

(** The state when a call fails: nothing below the cursor and nothing outside the
    page has changed, and the cursor has not moved back. *)
Record framed (p : pid) (s s' : jit) : Prop := mkFramed {
  fr_base : base s' = base s;
  fr_cur : cur s' = cur s;
  fr_counter : counter (pages s p) <= counter (pages s' p);
  fr_bound : counter (pages s' p) = counter (pages s p) \/ counter (pages s' p) <= PAGE_SIZE;
  fr_page : pages s' p = with_counter (counter (pages s' p)) (pages s p);
  fr_others : forall q, q <> p -> pages s' q = pages s q;
  fr_mem : forall x, x < addr s p (counter (pages s p)) \/ contents s p + PAGE_SIZE <= x -> mem s' x = mem s x
}.
Lemma framed_refl p s : framed p s s.
Proof. constructor; auto; try lia. symmetry; apply with_counter_same. Qed.
Lemma framed_trans p s1 s2 s3 : framed p s1 s2 -> framed p s2 s3 -> framed p s1 s3.
Proof.
  intros [B1 C1 K1 D1 P1 O1 M1] [B2 C2 K2 D2 P2 O2 M2]. constructor; try congruence; try lia.
  - rewrite P2. rewrite P1. rewrite with_counter_twice. reflexivity.
  - intros; rewrite O2, O1; auto.
  - intros x Hx. rewrite M2, M1; auto. unfold addr, contents in *. rewrite B1. lia.
Qed.
Lemma framed_adv p bs s s' : adv p bs s s' -> counter (pages s p) + Z.of_nat (length bs) <= PAGE_SIZE \/ bs = [] ->
  framed p s s'.
Proof.
  intros [B C L P O M] H. constructor; try congruence.
  - rewrite P; cbn [counter with_counter]; lia.
  - rewrite P; cbn [counter with_counter]. destruct H as [H| ->]; cbn [length]; lia.
  - rewrite P. reflexivity.
  - exact O.
  - intros x Hx. rewrite M. destruct H as [H| ->]; [|apply wr_nil].
    apply wr_out. unfold addr, contents in *. lia.
Qed.

(** Outcome of a call that appends [bs] to page [p]. *)
Definition appends (p : pid) (bs : list Z) (m : M unit) : Prop := forall s,
  if (counter (pages s p) + Z.of_nat (length bs) <=? PAGE_SIZE) || (length bs =? 0)%nat
  then exists s', m s = Ok tt s' /\ adv p bs s s'
  else exists s', m s = Panic PageOverflow s' /\ framed p s s' /\ labels s' = labels s.

Definition bounded (bs : list Z) := Forall is_byte bs.

Lemma put_ok p pos v s : pos < PAGE_SIZE ->
  put p pos v s = Ok tt (set_mem (fun m => upd m (addr s p pos) (u8 v)) s).
Proof. intro. unfold put. destruct (PAGE_SIZE <=? pos) eqn:E; [lia|reflexivity]. Qed.
Lemma put_panic p pos v s : PAGE_SIZE <= pos -> put p pos v s = Panic PageOverflow s.
Proof. intro. unfold put. destruct (PAGE_SIZE <=? pos) eqn:E; [reflexivity|lia]. Qed.

Lemma u8_byte v : is_byte (u8 v).
Proof. unfold is_byte, u8. apply Z.mod_pos_bound. lia. Qed.
Lemma u8_id v : is_byte v -> u8 v = v.
Proof. unfold is_byte, u8. intros. apply Z.mod_small. lia. Qed.
Lemma u8_u8 v : u8 (u8 v) = u8 v. Proof. apply u8_id, u8_byte. Qed.
Lemma le_byte n : forall v, Forall is_byte (le n v).
Proof. induction n; intro; cbn [le]; constructor; auto using u8_byte. Qed.

(** A sequence of puts at consecutive positions. *)
Fixpoint puts (p : pid) (pos : Z) (bs : list Z) : M unit :=
  match bs with
  | [] => ret tt
  | b :: r => put p pos b ;; puts p (pos + 1) r
  end.

Lemma puts_spec p bs : forall pos s, Forall is_byte bs ->
  if (pos + Z.of_nat (length bs) <=? PAGE_SIZE) || (length bs =? 0)%nat then
    exists s', puts p pos bs s = Ok tt s' /\ base s' = base s /\ cur s' = cur s /\ labels s' = labels s /\
      pages s' = pages s /\ forall x, mem s' x = wr (mem s) (addr s p pos) bs x
  else exists s', puts p pos bs s = Panic PageOverflow s' /\ base s' = base s /\ cur s' = cur s /\ labels s' = labels s /\
      pages s' = pages s /\ forall x, (x < addr s p pos \/ contents s p + PAGE_SIZE <= x) -> mem s' x = mem s x.
Proof.
  induction bs as [|b r IH]; intros pos s Hb.
  - cbn [length Nat.eqb orb]. rewrite orb_true_r. exists s. repeat split; auto.
    intro. symmetry. apply wr_nil.
  - inversion Hb as [|? ? Hb1 Hb2]; subst. cbn [length Nat.eqb]. rewrite orb_false_r.
    cbn [puts]. unfold bind.
    destruct (Z_lt_ge_dec pos PAGE_SIZE) as [Hp|Hp].
    + rewrite put_ok by lia.
      set (s1 := set_mem _ s). specialize (IH (pos + 1) s1 Hb2).
      destruct (pos + 1 + Z.of_nat (length r) <=? PAGE_SIZE) eqn:E1.
      * cbn [orb] in IH. destruct (pos + Z.of_nat (S (length r)) <=? PAGE_SIZE) eqn:E2; [|lia].
        destruct IH as (s' & H1 & H2 & H3 & H4 & H5 & H6). exists s'. repeat split; auto.
        intro x. rewrite H6. unfold s1; cbn [mem set_mem]. rewrite u8_id by assumption.
        rewrite (wr_ext _ _ _ _ _ (wr_upd _ _ _)).
        change (b :: r) with ([b] ++ r). rewrite <- wr_app. cbn [length]. unfold addr, contents; cbn [base set_mem].
        replace (base s + pidx p * PAGE_SIZE + (pos + 1)) with (base s + pidx p * PAGE_SIZE + pos + Z.of_nat 1) by lia.
        reflexivity.
      * destruct r as [|b2 r].
        { cbn [length] in E1 |- *. destruct (pos + Z.of_nat 1 <=? PAGE_SIZE) eqn:E2; [|lia].
          cbn [puts]. unfold ret. eexists; repeat split. intro x. unfold s1; cbn [mem set_mem].
          rewrite u8_id by assumption. apply wr_upd. }
        cbn [orb length Nat.eqb] in IH. destruct (pos + Z.of_nat (S (length (b2 :: r))) <=? PAGE_SIZE) eqn:E2.
        { cbn [length] in *. lia. }
        destruct IH as (s' & H1 & H2 & H3 & H4 & H5 & H6). exists s'. repeat split; auto.
        intros x Hx. rewrite H6. 2:{ unfold addr, contents in *; cbn [base s1 set_mem] in *. lia. }
        unfold s1; cbn [mem set_mem]. unfold upd. destruct (x =? addr s p pos) eqn:Ex; [|reflexivity].
        unfold addr in *. lia.
    + rewrite put_panic by lia. destruct (pos + Z.of_nat (S (length r)) <=? PAGE_SIZE) eqn:E; [lia|].
      exists s. repeat split; auto.
Qed.

(** [emitb], [emitw], [emitl] put their bytes and then advance the cursor. *)
Definition emit_n (p : pid) (bs : list Z) : M unit :=
  c <- get_counter p ;; puts p c bs ;; set_counter p (c + Z.of_nat (length bs)).

Lemma emit_n_appends p bs : Forall is_byte bs -> bs <> [] -> appends p bs (emit_n p bs).
Proof.
  intros Hb Hne s. unfold emit_n, bind, get_counter.
  assert (H := puts_spec p bs (counter (pages s p)) s Hb).
  destruct ((_ <=? _) || _) eqn:E.
  - destruct H as (s' & H1 & H2 & H3 & H4 & H5 & H6). rewrite H1. unfold set_counter, modify.
    eexists; split; [reflexivity|]. constructor; cbn [base cur labels pages mem set_page]; auto.
    + rewrite pid_eqb_refl, H5. reflexivity.
    + intros q Hq. rewrite pid_eqb_neq by assumption. rewrite H5. reflexivity.
  - destruct H as (s' & H1 & H2 & H3 & H4 & H5 & H6). rewrite H1.
    exists s'. repeat split; auto; rewrite ?H5; auto; try lia.
    symmetry; apply with_counter_same.
Qed.

Lemma appends_meq p bs m n : m ≈ n -> appends p bs n -> appends p bs m.
Proof. intros E H s. rewrite E. apply H. Qed.

Lemma puts_app_meq : forall p c b (k : M unit), bind (puts p c [b]) (fun _ => k) ≈ bind (put p c b) (fun _ => k).
Proof. intros p c b k s. cbn [puts]. unfold bind. destruct (put p c b s); reflexivity. Qed.

Lemma shiftr_u8 v k n : 0 <= k -> n = 2 ^ k -> Z.shiftr v k = v / n.
Proof. intros ? ->. apply Z.shiftr_div_pow2. lia. Qed.

Ltac shr := rewrite ?Z.shiftr_div_pow2 by lia;
  change (2^8) with 256; change (2^16) with 65536; change (2^24) with 16777216; change (2^32) with 4294967296.

Lemma emitb_on_meq p v : emitb_on p v ≈ emit_n p [u8 v].
Proof.
  intro s. unfold emitb_on, emit_n, bind, get_counter. cbn [puts length]. unfold bind.
  unfold put. rewrite u8_u8. destruct (PAGE_SIZE <=? _); reflexivity.
Qed.
Lemma emitw_on_meq p v : emitw_on p v ≈ emit_n p (le 2 v).
Proof.
  intro s. unfold emitw_on, emit_n, bind, get_counter. cbn [le puts length]. unfold bind.
  unfold put. rewrite ?u8_u8. shr. destruct (PAGE_SIZE <=? _); [reflexivity|].
  destruct (PAGE_SIZE <=? _); [reflexivity|]. reflexivity.
Qed.
Lemma emitl_on_meq p v : emitl_on p v ≈ emit_n p (le 4 v).
Proof.
  intro s. unfold emitl_on, emit_n, bind, get_counter. cbn [le puts length]. unfold bind.
  unfold put. rewrite ?u8_u8. shr.
  rewrite <- !Z.add_assoc. change (1+1) with 2. change (1+(1+1)) with 3. change (1+2) with 3.
  rewrite !Z.div_div by lia. change (256*256) with 65536. change (256*(256*256)) with 16777216.
  change (65536*256) with 16777216. change (256*65536) with 16777216.
  do 4 (destruct (PAGE_SIZE <=? _); [reflexivity|]). reflexivity.
Qed.
Lemma emitb_on_appends p v : appends p [u8 v] (emitb_on p v).
Proof. eapply appends_meq; [apply emitb_on_meq|]. apply emit_n_appends; [repeat constructor; apply u8_byte|discriminate]. Qed.
Lemma emitw_on_appends p v : appends p (le 2 v) (emitw_on p v).
Proof. eapply appends_meq; [apply emitw_on_meq|]. apply emit_n_appends; [apply le_byte|discriminate]. Qed.
Lemma emitl_on_appends p v : appends p (le 4 v) (emitl_on p v).
Proof. eapply appends_meq; [apply emitl_on_meq|]. apply emit_n_appends; [apply le_byte|discriminate]. Qed.

Lemma appends_seq p b1 b2 m1 m2 : appends p b1 m1 -> appends p b2 m2 ->
  appends p (b1 ++ b2) (bind m1 (fun _ => m2)).
Proof.
  intros H1 H2 s. specialize (H1 s). rewrite app_length. unfold bind.
  destruct ((counter (pages s p) + Z.of_nat (length b1) <=? PAGE_SIZE) || (length b1 =? 0)%nat) eqn:E1.
  - destruct H1 as (s1 & -> & A1). specialize (H2 s1). rewrite (adv_page _ _ _ _ A1) in H2.
    cbn [counter with_counter] in H2.
    destruct ((counter (pages s p) + Z.of_nat (length b1) + Z.of_nat (length b2) <=? PAGE_SIZE) || (length b2 =? 0)%nat) eqn:E2.
    + destruct H2 as (s2 & -> & A2).
      destruct ((counter (pages s p) + Z.of_nat (length b1 + length b2) <=? PAGE_SIZE) || (length b1 + length b2 =? 0)%nat) eqn:E; [|lia].
      exists s2; split; [reflexivity|]. eapply adv_trans; eauto.
    + destruct H2 as (s2 & -> & F2 & L2).
      destruct ((counter (pages s p) + Z.of_nat (length b1 + length b2) <=? PAGE_SIZE) || (length b1 + length b2 =? 0)%nat) eqn:E; [lia|].
      exists s2; split; [reflexivity|]. split.
      * eapply framed_trans; [|exact F2]. eapply framed_adv; [exact A1|].
        destruct b1; [right; reflexivity|]. left. cbn [length] in *. lia.
      * rewrite L2. apply (adv_labels _ _ _ _ A1).
  - destruct H1 as (s1 & -> & F1 & L1).
    destruct ((counter (pages s p) + Z.of_nat (length b1 + length b2) <=? PAGE_SIZE) || (length b1 + length b2 =? 0)%nat) eqn:E; [lia|].
    exists s1; auto.
Qed.

Lemma le_app n k : forall v, le (n + k) v = le n v ++ le k (v / 256 ^ Z.of_nat n).
Proof.
  induction n as [|n IH]; intro v.
  - cbn [Nat.add le app]. f_equal. change (256 ^ Z.of_nat 0) with 1. rewrite Z.div_1_r. reflexivity.
  - cbn [Nat.add le app]. f_equal. rewrite IH. do 2 f_equal.
    rewrite Z.div_div by (try lia; apply Z.pow_pos_nonneg; lia).
    rewrite Nat2Z.inj_succ, Z.pow_succ_r by lia. reflexivity.
Qed.
Lemma le_mod n : forall v m, 256 ^ Z.of_nat n = m -> le n (v mod m) = le n v.
Proof.
  induction n as [|n IH]; intros v m H; [reflexivity|]. subst m.
  cbn [le]. rewrite Nat2Z.inj_succ, Z.pow_succ_r by lia.
  assert (0 < 256 ^ Z.of_nat n) by (apply Z.pow_pos_nonneg; lia).
  set (m := 256 ^ Z.of_nat n) in *.
  assert (E : v mod (256 * m) = v mod 256 + 256 * ((v / 256) mod m)) by (apply Z.rem_mul_r; lia).
  f_equal.
  - unfold u8. rewrite E. rewrite Z.mul_comm, Z.mod_add by lia. rewrite Z.mod_mod by lia. reflexivity.
  - rewrite E. replace ((v mod 256 + 256 * ((v / 256) mod m)) / 256) with ((v/256) mod m).
    + apply IH. reflexivity.
    + rewrite Z.mul_comm, Z.div_add by lia. rewrite (Z.div_small (v mod 256)); [lia|]. apply Z.mod_pos_bound; lia.
Qed.
Lemma emitq_on_appends p v : appends p (le 8 v) (emitq_on p v).
Proof.
  unfold emitq_on. shr.
  change 8%nat with (4 + 4)%nat. rewrite le_app.
  replace (le 4 v) with (le 4 (u32 v)) by (apply le_mod; reflexivity).
  replace (le 4 (v / 256 ^ Z.of_nat 4)) with (le 4 (u32 (v / 4294967296))) by (apply le_mod; reflexivity).
  apply appends_seq; apply emitl_on_appends.
Qed.
Lemma emit_on_appends p bs : appends p (map u8 bs) (forM bs (emitb_on p)).
Proof.
  induction bs as [|b r IH]; cbn [map forM].
  - intro s. cbn [length Nat.eqb]. rewrite orb_true_r. exists s; split; [reflexivity|apply adv_nil].
  - change (u8 b :: map u8 r) with ([u8 b] ++ map u8 r). apply appends_seq; [apply emitb_on_appends|exact IH].
Qed.

(** ** Items *)
Definition item_len (i : item) : Z :=
  match i with IB _ => 1 | IW _ => 2 | IL _ => 4 | IQ _ => 8 | IRel _ _ _ => 4 end.
(** Bytes of an item, label fields holding [f]. *)
Definition item_bytes (f : label -> Z) (i : item) : list Z :=
  match i with
  | IB b => [u8 b] | IW v => le 2 v | IL v => le 4 v | IQ v => le 8 v
  | IRel _ l _ => le 4 (f l)
  end.
Definition flat (f : label -> Z) (l : list item) : list Z := flat_map (item_bytes f) l.
Definition zeros : label -> Z := fun _ => 0.
Definition items_len (l : list item) : Z := fold_right (fun i n => item_len i + n) 0 l.

Lemma item_bytes_len f i : Z.of_nat (length (item_bytes f i)) = item_len i.
Proof. destruct i; cbn [item_bytes item_len]; rewrite ?le_length; reflexivity. Qed.
Lemma flat_len f l : Z.of_nat (length (flat f l)) = items_len l.
Proof.
  induction l as [|i r IH]; [reflexivity|]. cbn [flat flat_map items_len fold_right].
  rewrite app_length, Nat2Z.inj_add, item_bytes_len. unfold flat in IH. rewrite IH. reflexivity.
Qed.
Lemma flat_byte f l : Forall is_byte (flat f l).
Proof.
  induction l as [|i r IH]; [constructor|]. cbn [flat flat_map]. apply Forall_app; split; [|exact IH].
  destruct i; cbn [item_bytes]; try apply le_byte. repeat constructor; apply u8_byte.
Qed.
Lemma flat_app f a b : flat f (a ++ b) = flat f a ++ flat f b.
Proof. unfold flat. apply flat_map_app. Qed.

(** Relocations registered by items placed at position [c] of page [p]. *)
Fixpoint add_refs (p : pid) (c : Z) (l : list item) (ls : list label_info) : list label_info :=
  match l with
  | [] => ls
  | i :: r =>
      add_refs p (c + item_len i) r
        (match i with IRel _ lab off => upd_nth lab (add_target (Rel p off c)) ls | _ => ls end)
  end.
Definition item_label_ok (n : nat) (i : item) : Prop :=
  match i with IRel _ l _ => (l < n)%nat | _ => True end.

Record emitted (l : list item) (s s' : jit) : Prop := mkEmitted {
  em_base : base s' = base s;
  em_cur : cur s' = cur s;
  em_labels : labels s' = add_refs (cur s) (counter (pages s (cur s))) l (labels s);
  em_page : pages s' (cur s) = with_counter (counter (pages s (cur s)) + items_len l) (pages s (cur s));
  em_others : forall q, q <> cur s -> pages s' q = pages s q;
  em_mem : forall x, mem s' x = wr (mem s) (addr s (cur s) (counter (pages s (cur s)))) (flat zeros l) x
}.

Lemma upd_nth_length {A} n (f : A -> A) : forall l, length (upd_nth n f l) = length l.
Proof.
  intro l. revert n. induction l as [|x r IH]; intro n; [destruct n; reflexivity|].
  destruct n; [reflexivity|]. cbn. f_equal. apply IH.
Qed.
Lemma upd_nth_nth {A} (f : A -> A) : forall l n k,
  nth_error (upd_nth n f l) k = if (k =? n)%nat then option_map f (nth_error l k) else nth_error l k.
Proof.
  induction l as [|x r IH]; intros n k.
  - assert (H : nth_error (@nil A) k = None) by (destruct k; reflexivity).
    destruct n; cbn; rewrite H; destruct (k =? _)%nat; reflexivity.
  - destruct n, k; try reflexivity. cbn [nth_error Nat.eqb]. apply IH.
Qed.
Lemma add_refs_length p : forall l c ls, length (add_refs p c l ls) = length ls.
Proof.
  induction l as [|i r IH]; intros; [reflexivity|]. cbn [add_refs]. rewrite IH.
  destruct i; auto. apply upd_nth_length.
Qed.

Lemma emitted_nil s : emitted [] s s.
Proof.
  constructor; auto; cbn [items_len fold_right flat flat_map add_refs].
  - rewrite Z.add_0_r. symmetry; apply with_counter_same.
  - intros; symmetry; apply wr_nil.
Qed.
Lemma emitted_trans a b s1 s2 s3 : emitted a s1 s2 -> emitted b s2 s3 -> emitted (a ++ b) s1 s3.
Proof.
  intros [B1 C1 L1 P1 O1 M1] [B2 C2 L2 P2 O2 M2].
  assert (HL : forall p a c b ls, add_refs p c (a ++ b) ls = add_refs p (c + items_len a) b (add_refs p c a ls)).
  { clear. induction a as [|i r IH]; intros; cbn [app add_refs items_len fold_right].
    - f_equal. unfold items_len; cbn [fold_right]. lia.
    - rewrite IH. f_equal. unfold items_len; cbn [fold_right]. lia. }
  assert (HI : items_len (a ++ b) = items_len a + items_len b).
  { clear. induction a as [|i r IH]; unfold items_len in *; cbn [app fold_right]; lia. }
  rewrite C1 in *. constructor; try congruence.
  - rewrite L2, L1, P1. cbn [counter with_counter]. rewrite HL. reflexivity.
  - rewrite P2, P1. cbn [counter with_counter]. rewrite with_counter_twice. f_equal. lia.
  - intros; rewrite O2, O1; auto.
  - intro x. rewrite M2, P1. cbn [counter with_counter]. rewrite (addr_base s1 s2) by assumption.
    rewrite (wr_ext _ _ _ _ _ M1). unfold addr. rewrite Z.add_assoc, flat_app, <- (flat_len zeros a).
    apply wr_app.
Qed.

(** Outcome of emitting items. *)
Lemma emit_item_spec i s :
  (exists s', emit_item i s = Ok tt s' /\ emitted [i] s s' /\
     counter (pages s (cur s)) + item_len i <= PAGE_SIZE /\ item_label_ok (length (labels s)) i) \/
  (exists e s', emit_item i s = Panic e s' /\ framed (cur s) s s' /\
     (e = PageOverflow /\ PAGE_SIZE < counter (pages s (cur s)) + item_len i \/
      e = IndexOOB /\ ~ item_label_ok (length (labels s)) i)).
Proof.
  assert (Hgen : forall bs m, item_len i = Z.of_nat (length bs) -> appends (cur s) bs m ->
     m s = emit_item i s -> item_bytes zeros i = bs ->
     (match i with IRel _ _ _ => False | _ => True end) ->
     (exists s', emit_item i s = Ok tt s' /\ emitted [i] s s' /\
       counter (pages s (cur s)) + item_len i <= PAGE_SIZE /\ item_label_ok (length (labels s)) i) \/
     (exists e s', emit_item i s = Panic e s' /\ framed (cur s) s s' /\
       (e = PageOverflow /\ PAGE_SIZE < counter (pages s (cur s)) + item_len i \/
        e = IndexOOB /\ ~ item_label_ok (length (labels s)) i))).
  { intros bs m Hl Ha Em Hb Hi. specialize (Ha s). rewrite Em in Ha.
    assert (Hpos : 0 < item_len i) by (destruct i; cbn; lia).
    destruct ((_ <=? _) || _) eqn:E.
    - destruct Ha as (s' & E1 & A). left. exists s'. split; [exact E1|]. split.
      + destruct A as [B C L P O M]. constructor; auto.
        * rewrite L. cbn [add_refs]. destruct i; try contradiction; reflexivity.
        * rewrite P. cbn [items_len fold_right]. f_equal. lia.
        * intro x. rewrite M. cbn [flat flat_map]. rewrite app_nil_r, Hb. reflexivity.
      + split; [lia|]. destruct i; try contradiction; exact I.
    - destruct Ha as (s' & E1 & F & _). right. exists PageOverflow, s'. repeat split; try apply F; auto.
      left. split; [reflexivity|]. lia. }
  destruct i as [b|v|v|v|bw l off].
  - apply (Hgen [u8 b] (emitb_on (cur s) b)); auto. apply emitb_on_appends.
  - apply (Hgen (le 2 v) (emitw_on (cur s) v)); auto. apply emitw_on_appends.
  - apply (Hgen (le 4 v) (emitl_on (cur s) v)); auto. apply emitl_on_appends.
  - apply (Hgen (le 8 v) (emitq_on (cur s) v)); auto. apply emitq_on_appends.
  - clear Hgen. cbn [emit_item item_len item_label_ok].
    unfold save_reloc, on_cur, bind at 1. unfold bind, get_counter, modify_label.
    destruct (l <? length (labels s))%nat eqn:El.
    + set (s1 := set_labels _ s).
      assert (Hemit : forall bs s0, emit bs s0 = forM bs (emitb_on (cur s0)) s0).
      { clear. induction bs as [|b r IH]; intros s0; [reflexivity|]. unfold emit in *. cbn [forM].
        unfold bind. unfold emitb at 1, on_cur.
        assert (Hb := emitb_on_appends (cur s0) b s0). destruct ((_ <=? _) || _) in Hb.
        - destruct Hb as (s2 & -> & A). rewrite IH. rewrite (adv_cur _ _ _ _ A). reflexivity.
        - destruct Hb as (s2 & -> & _). reflexivity. }
      assert (Ha : if (counter (pages s1 (cur s)) + 4 <=? PAGE_SIZE)
        then exists s', (if bw then emit [0;0;0;0] else emitl 0) s1 = Ok tt s' /\ adv (cur s) (le 4 0) s1 s'
        else exists s', (if bw then emit [0;0;0;0] else emitl 0) s1 = Panic PageOverflow s' /\ framed (cur s) s1 s' /\ labels s' = labels s1).
      { destruct bw.
        - rewrite Hemit. assert (Hx := emit_on_appends (cur s1) [0;0;0;0] s1).
          change (map u8 [0;0;0;0]) with (le 4 0) in Hx. rewrite le_length in Hx.
          cbn [Nat.eqb] in Hx. rewrite orb_false_r in Hx. exact Hx.
        - assert (Hx := emitl_on_appends (cur s1) 0 s1).
          rewrite le_length in Hx. cbn [Nat.eqb] in Hx. rewrite orb_false_r in Hx. exact Hx. }
      change (pages s1 (cur s)) with (pages s (cur s)) in Ha.
      destruct (counter (pages s (cur s)) + 4 <=? PAGE_SIZE) eqn:E.
      * destruct Ha as (s' & E1 & [B C L P O M]). rewrite E1. left. exists s'. split; [reflexivity|]. split; [|split; lia].
        constructor; auto.
      * destruct Ha as (s' & E1 & [B C K D P O M] & L). rewrite E1. right. exists PageOverflow, s'.
        split; [reflexivity|]. split; [constructor; auto|]. left. split; [reflexivity|lia].
    + right. exists IndexOOB, s. split; [reflexivity|]. split; [apply framed_refl|]. right. split; [reflexivity|lia].
Qed.

Lemma emit_items_spec : forall l s,
  (exists s', emit_items l s = Ok tt s' /\ emitted l s s' /\
     (counter (pages s (cur s)) + items_len l <= PAGE_SIZE \/ l = []) /\ Forall (item_label_ok (length (labels s))) l) \/
  (exists e s', emit_items l s = Panic e s' /\ framed (cur s) s s' /\
     (e = PageOverflow /\ PAGE_SIZE < counter (pages s (cur s)) + items_len l \/
      e = IndexOOB /\ ~ Forall (item_label_ok (length (labels s))) l)).
Proof.
  assert (Hnn : forall l, 0 <= items_len l).
  { induction l as [|i r IH]; cbn [items_len fold_right]; [lia|]. unfold items_len in IH. destruct i; cbn [item_len]; lia. }
  induction l as [|i r IH]; intro s.
  - left. exists s. split; [reflexivity|]. split; [apply emitted_nil|]. split; [auto|constructor].
  - unfold emit_items in *. cbn [forM]. unfold bind.
    assert (HI : items_len (i :: r) = item_len i + items_len r) by reflexivity.
    destruct (emit_item_spec i s) as [(s1 & -> & A & Hc & Hl) | (e & s1 & -> & F & H)].
    + assert (Hlen : length (labels s1) = length (labels s)).
      { rewrite (em_labels _ _ _ A). apply add_refs_length. }
      destruct (IH s1) as [(s2 & -> & A2 & Hc2 & Hl2) | (e & s2 & -> & F2 & H2)].
      * left. exists s2. split; [reflexivity|]. split; [apply (emitted_trans [i] r _ _ _ A A2)|].
        split.
        -- left. destruct Hc2 as [Hc2| ->]; cbn [items_len fold_right] in *; [|lia].
           rewrite (em_cur _ _ _ A), (em_page _ _ _ A) in Hc2. cbn [counter with_counter items_len fold_right] in Hc2.
           fold (items_len r). lia.
        -- constructor; auto. rewrite <- Hlen. exact Hl2.
      * right. exists e, s2. split; [reflexivity|].
        rewrite (em_cur _ _ _ A) in *. rewrite (em_page _ _ _ A) in H2. cbn [counter with_counter items_len fold_right] in H2.
        split.
        -- eapply framed_trans; [|exact F2]. destruct A as [B C L P O M].
           constructor; auto.
           ++ rewrite P. cbn [counter with_counter items_len fold_right]. destruct i; cbn [item_len]; lia.
           ++ right. rewrite P. cbn [counter with_counter items_len fold_right]. lia.
           ++ rewrite P. reflexivity.
           ++ intros x Hx. rewrite M. apply wr_out. rewrite flat_len. cbn [items_len fold_right].
              unfold addr in *. lia.
        -- destruct H2 as [[-> H2]|[-> H2]].
           ++ left. split; [reflexivity|]. fold (items_len r) in H2. lia.
           ++ right. split; [reflexivity|]. rewrite Hlen in H2. intro HF. inversion HF; auto.
    + right. exists e, s1. split; [reflexivity|]. split; [exact F|].
      destruct H as [[-> H]|[-> H]].
      * left. split; [reflexivity|]. specialize (Hnn r). lia.
      * right. split; [reflexivity|]. intro HF. inversion HF; auto.
Qed.

Lemma emit_items_ok l s s' : emit_items l s = Ok tt s' -> emitted l s s'.
Proof.
  destruct (emit_items_spec l s) as [(s1 & -> & A & _) | (e & s1 & -> & _)]; intro H; inversion H; subst; exact A.
Qed.
Lemma run_trace_ok t s s' : run_trace t s = Ok tt s' -> snd t = None /\ emitted (fst t) s s'.
Proof.
  unfold run_trace, bind. intro H. destruct (emit_items (fst t) s) as [[] s1|] eqn:E; [|discriminate].
  destruct (snd t); [discriminate|]. inversion H; subst. split; [reflexivity|]. apply emit_items_ok. exact E.
Qed.
