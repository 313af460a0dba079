(** Filling the pending references. *)
From Verif Require Import Base ModelMem ModelEnc ModelSyntax ModelMacro Trace Emit SpecState SpecHist MemInv MemStep MemFinal.
Local Notation length := List.length.

Lemma write32_meq p pos v : write32 p pos v ≈ puts p pos (le 4 v).
Proof.
  intro s. unfold write32. replace (le 4 v) with (le 4 (u32 v)) by (apply le_mod; reflexivity).
  unfold bind. cbn [le puts]. unfold bind, put. rewrite ?u8_u8. shr.
  rewrite <- !Z.add_assoc. change (1+1) with 2. change (1+(1+1)) with 3. change (1+2) with 3.
  rewrite !Z.div_div by lia. change (256*256) with 65536. change (256*(256*256)) with 16777216.
  change (65536*256) with 16777216. change (256*65536) with 16777216.
  do 4 (destruct (PAGE_SIZE <=? _); [reflexivity|]). reflexivity.
Qed.
Lemma write64_meq p pos v : write64 p pos v ≈ puts p pos (le 8 v).
Proof.
  intro s. unfold write64. unfold bind. cbn [le puts]. unfold bind, put. rewrite ?u8_u8.
  rewrite ?Z.shiftr_div_pow2 by lia. rewrite <- !Z.add_assoc. rewrite !Z.div_div by lia.
  change (1+1) with 2. change (1+2) with 3. change (1+3) with 4. change (1+4) with 5. change (1+5) with 6. change (1+6) with 7.
  repeat match goal with |- context [256 * ?k] => match k with Zpos _ => let r := eval vm_compute in (256 * k) in change (256 * k) with r end end.
  repeat match goal with |- context [2 ^ ?k] => let r := eval vm_compute in (2 ^ k) in change (2 ^ k) with r end.
  do 8 (destruct (PAGE_SIZE <=? _); [reflexivity|]). reflexivity.
Qed.

(** What is written into a field for a label at address [src]. *)
Definition fval (s : jit) (src : Z) (t : target) : list Z :=
  match t with Rel p off x => le 4 (src - (addr s p x + off)) | Abs _ _ => le 8 src end.
Definition faddr (s : jit) (t : target) : Z := addr s (fpage t) (fpos t).
Lemma fval_len s src t : Z.of_nat (length (fval s src t)) = flen t.
Proof. destruct t; cbn [fval flen]; rewrite le_length; reflexivity. Qed.
(** States that differ in memory only. *)
Record memonly (s s' : jit) : Prop := mkMemonly { mo_base : base s' = base s; mo_cur : cur s' = cur s; mo_labels : labels s' = labels s; mo_pages : pages s' = pages s }.
Lemma memonly_refl s : memonly s s. Proof. constructor; reflexivity. Qed.
Lemma memonly_trans a b c : memonly a b -> memonly b c -> memonly a c.
Proof. intros [] []. constructor; congruence. Qed.

Definition reachable (s : jit) (src : Z) (t : target) : Prop :=
  0 <= fpos t /\ fpos t + flen t <= PAGE_SIZE /\ off_ok t /\ base s <= src <= base s + 3 * PAGE_SIZE.
Lemma fill_target_ok src t s : reachable s src t ->
  exists s', fill_target src t s = Ok tt s' /\ memonly s s' /\ forall x, mem s' x = wr (mem s) (faddr s t) (fval s src t) x.
Proof.
  intros (H0 & H1 & Ho & Hs). destruct t as [p off x|p x]; cbn [fpos flen off_ok] in *.
  - cbn [fill_target]. unfold bind, ModelMem.get. unfold fval, faddr, addr in *. cbn [fpage fpos].
    assert (Hi : in_i32 (src - (contents s p + x + off)) = true)
      by (unfold in_i32, contents, PAGE_SIZE in *; destruct p; cbn [pidx]; lia).
    cbv zeta. rewrite Hi.
    rewrite write32_meq. pose proof (puts_spec p (le 4 (src - (contents s p + x + off))) x s (le_byte _ _)) as P.
    rewrite le_length in P. cbn [Nat.eqb] in P. rewrite orb_false_r in P. destruct (_ <=? PAGE_SIZE) eqn:E in P; [|lia].
    destruct P as (s' & E1 & B & C & L & G & M). exists s'. split; [exact E1|]. split; [constructor; assumption|]. exact M.
  - cbn [fill_target]. rewrite write64_meq. pose proof (puts_spec p (le 8 src) x s (le_byte _ _)) as P.
    rewrite le_length in P. cbn [Nat.eqb] in P. rewrite orb_false_r in P. destruct (_ <=? PAGE_SIZE) eqn:E in P; [|lia].
    destruct P as (s' & E1 & B & C & L & G & M). exists s'. split; [exact E1|]. split; [constructor; assumption|]. exact M.
Qed.
Definition at_field (s : jit) (t : target) (x : Z) : Prop := faddr s t <= x < faddr s t + flen t.
Lemma at_field_base s s' t x : base s' = base s -> at_field s' t x <-> at_field s t x.
Proof. intro H. unfold at_field, faddr. rewrite (addr_base s s') by exact H. reflexivity. Qed.
Lemma fval_base s s' src t : base s' = base s -> fval s' src t = fval s src t.
Proof. intro H. destruct t; cbn [fval]; [rewrite (addr_base s s') by exact H|]; reflexivity. Qed.
Lemma reachable_base s s' src t : base s' = base s -> reachable s src t -> reachable s' src t.
Proof. intros H. unfold reachable. rewrite H. tauto. Qed.
Lemma fill_targets_ok src : forall ts s, Forall (reachable s src) ts ->
  exists s', forM ts (fill_target src) s = Ok tt s' /\ memonly s s' /\
    (forall x, (forall t, In t ts -> ~ at_field s t x) -> mem s' x = mem s x) /\
    (forall a t b x, ts = a ++ t :: b -> (forall u, In u b -> ~ at_field s u x) -> at_field s t x ->
       mem s' x = nth (Z.to_nat (x - faddr s t)) (fval s src t) 0).
Proof.
  induction ts as [|t ts IH]; intros s Hr.
  - exists s. split; [reflexivity|]. split; [apply memonly_refl|]. split; [auto|]. intros a u b x He. destruct a; discriminate.
  - inversion Hr as [|? ? Ht Hts]; subst. destruct (fill_target_ok _ _ _ Ht) as (s1 & E1 & O1 & M1).
    destruct (IH s1) as (s2 & E2 & O2 & F2 & G2).
    { eapply Forall_impl; [|exact Hts]. intros u. apply reachable_base, (mo_base _ _ O1). }
    exists s2. split; [cbn [forM]; unfold bind; rewrite E1; exact E2|]. split; [eapply memonly_trans; eauto|].
    assert (F : forall x, (forall u, In u ts -> ~ at_field s u x) -> mem s2 x = wr (mem s) (faddr s t) (fval s src t) x).
    { intros x Hx. rewrite F2, M1; [reflexivity|]. intros u Hu. rewrite (at_field_base s s1) by apply (mo_base _ _ O1). auto. }
    split.
    + intros x Hx. rewrite F by (intros u Hu; apply Hx; right; exact Hu). apply wr_out. rewrite fval_len.
      specialize (Hx t (or_introl eq_refl)). unfold at_field in Hx. lia.
    + intros a u b x He Hb Hu. destruct a as [|a0 a]; inversion He; subst.
      * rewrite F by exact Hb. apply wr_in. rewrite fval_len. exact Hu.
      * unfold faddr at 1. rewrite <- (addr_base s s1) by apply (mo_base _ _ O1). fold (faddr s1 u).
        rewrite <- (fval_base s s1) by apply (mo_base _ _ O1).
        apply (G2 a u b x eq_refl).
        -- intros v Hv. rewrite (at_field_base s s1) by apply (mo_base _ _ O1). auto.
        -- apply (at_field_base s s1); [apply (mo_base _ _ O1)|exact Hu].
Qed.

Definition cleared (i : label_info) : label_info := match loc i with Some _ => mkLabel (loc i) [] | None => i end.
Definition lsrc (s : jit) (i : label_info) : option Z := match loc i with Some (p, x) => Some (addr s p x) | None => None end.
Definition info_ok (s : jit) (i : label_info) : Prop := forall src, lsrc s i = Some src -> Forall (reachable s src) (targets i).
Lemma fill_labels_ok : forall is acc s, Forall (info_ok s) is ->
  exists s', fill_labels is acc s = Ok (rev acc ++ map cleared is) s' /\ memonly s s' /\
    (forall x, (forall i t, In i is -> loc i <> None -> In t (targets i) -> ~ at_field s t x) -> mem s' x = mem s x) /\
    (forall a i b ta t tb src x, is = a ++ i :: b -> lsrc s i = Some src -> targets i = ta ++ t :: tb -> at_field s t x ->
       (forall u, In u tb -> ~ at_field s u x) ->
       (forall j u, In j b -> loc j <> None -> In u (targets j) -> ~ at_field s u x) ->
       mem s' x = nth (Z.to_nat (x - faddr s t)) (fval s src t) 0).
Proof.
  induction is as [|i is IH]; intros acc s Hok.
  - exists s. cbn [fill_labels map]. rewrite app_nil_r. split; [reflexivity|]. split; [apply memonly_refl|]. split; [auto|].
    intros a i b ta t tb src x He. destruct a; discriminate.
  - inversion Hok as [|? ? Hi His]; subst. cbn [fill_labels map].
    assert (Hbase : forall s1, memonly s s1 -> Forall (info_ok s1) is).
    { intros s1 O. eapply Forall_impl; [|exact His]. intros j Hj src Hs.
      eapply Forall_impl; [intros u; apply reachable_base, (mo_base _ _ O)|]. apply Hj. rewrite <- Hs. unfold lsrc.
      destruct (loc j) as [[p x]|]; [|reflexivity]. rewrite (addr_base s s1) by apply (mo_base _ _ O). reflexivity. }
    assert (Hstep : exists s1 acc', (match loc i with
        | Some (p, pos) => s0 <- ModelMem.get;; forM (targets i) (fill_target (contents s0 p + pos));; fill_labels is (mkLabel (loc i) [] :: acc)
        | None => fill_labels is (i :: acc) end) s = fill_labels is acc' s1 /\ acc' = cleared i :: acc /\ memonly s s1 /\
        (forall x, (loc i <> None -> forall t, In t (targets i) -> ~ at_field s t x) -> mem s1 x = mem s x) /\
        (forall src a t b x, lsrc s i = Some src -> targets i = a ++ t :: b -> (forall u, In u b -> ~ at_field s u x) -> at_field s t x ->
           mem s1 x = nth (Z.to_nat (x - faddr s t)) (fval s src t) 0)).
    { unfold cleared, lsrc, info_ok in *. unfold lsrc in Hi. destruct (loc i) as [[p pos]|] eqn:El.
      - destruct (fill_targets_ok (addr s p pos) (targets i) s (Hi _ eq_refl)) as (s1 & E1 & O1 & F1 & G1).
        exists s1, (mkLabel (Some (p, pos)) [] :: acc). split; [unfold bind, ModelMem.get; unfold addr in E1; rewrite E1; reflexivity|].
        split; [reflexivity|]. split; [exact O1|]. split.
        + intros x Hx. apply F1. apply Hx. discriminate.
        + intros src a t b x Hs. injection Hs as <-. intros Ht Hb Hf. eapply G1; eauto.
      - exists s, (i :: acc). split; [reflexivity|]. split; [reflexivity|]. split; [apply memonly_refl|]. split; [auto|].
        intros src a t b x Hs. discriminate. }
    destruct Hstep as (s1 & acc' & -> & -> & O1 & F1 & G1).
    destruct (IH (cleared i :: acc) s1 (Hbase s1 O1)) as (s2 & E2 & O2 & F2 & G2). exists s2.
    split; [rewrite E2; cbn [rev]; rewrite <- app_assoc; reflexivity|]. split; [eapply memonly_trans; eauto|]. split.
    + intros x Hx. rewrite F2, F1.
      * reflexivity.
      * intros Hl t Ht. apply (Hx i t); auto. left. reflexivity.
      * intros j t Hj Hl Ht. rewrite (at_field_base s s1) by apply (mo_base _ _ O1). apply (Hx j t); auto. right. exact Hj.
    + intros a j b ta t tb src x He Hs Ht Hf Hb Hj. destruct a as [|a0 a]; inversion He; subst.
      * rewrite F2; [eapply G1; eauto|]. intros k u Hk Hl Hu. rewrite (at_field_base s s1) by apply (mo_base _ _ O1). eauto.
      * unfold faddr at 1. rewrite <- (addr_base s s1) by apply (mo_base _ _ O1). fold (faddr s1 t).
        rewrite <- (fval_base s s1) by apply (mo_base _ _ O1).
        eapply (G2 a j b ta t tb src x eq_refl); auto.
        -- rewrite <- Hs. unfold lsrc. destruct (loc j) as [[p y]|]; [|reflexivity]. rewrite (addr_base s s1) by apply (mo_base _ _ O1). reflexivity.
        -- apply (at_field_base s s1); [apply (mo_base _ _ O1)|exact Hf].
        -- intros u Hu. rewrite (at_field_base s s1) by apply (mo_base _ _ O1). auto.
        -- intros k u Hk Hl Hu. rewrite (at_field_base s s1) by apply (mo_base _ _ O1). eauto.
Qed.

(** ** fill_relocs on a state satisfying the invariant *)
Record filled (s s' : jit) : Prop := mkFilled {
  fi_base : base s' = base s;
  fi_cur : cur s' = cur s;
  fi_pages : pages s' = pages s;
  fi_len : length (labels s') = length (labels s);
  fi_loc : forall l, loc_of s' l = loc_of s l;
  fi_refs : forall l, refs s' l = match loc_of s l with Some _ => [] | None => refs s l end;
  fi_frame : forall x, (forall l t, loc_of s l <> None -> In t (refs s l) -> ~ at_field s t x) -> mem s' x = mem s x;
  fi_value : forall l p x t, loc_of s l = Some (p, x) -> In t (refs s l) ->
     bytes s' (fpage t) (fpos t) (Z.to_nat (flen t)) = fval s (addr s p x) t
}.
Lemma nth_split_error {A} (l : list A) n x : nth_error l n = Some x -> exists a b, l = a ++ x :: b /\ length a = n.
Proof. intro H. destruct (nth_error_split l n H) as (a & b & E & L). eauto. Qed.
Lemma fill_relocs_ok s : RInv s -> exists s', fill_relocs s = Ok tt s' /\ filled s s'.
Proof.
  intro I. unfold fill_relocs, bind, ModelMem.get, modify. set (s0 := set_labels [] s).
  destruct (fill_labels_ok (labels s) [] s0) as (s1 & E1 & O1 & F1 & G1).
  { apply Forall_forall. intros i Hi src Hs. apply Forall_forall. intros t Ht.
    apply In_nth_error in Hi. destruct Hi as [l Hl]. apply In_nth_error in Ht. destruct Ht as [k Hk].
    destruct (ri_ref _ I l k t) as (A & B & _ & O). { unfold refs. rewrite Hl. exact Hk. }
    pose proof (ri_cnt _ I (fpage t)). unfold lsrc in Hs. destruct (loc i) as [[p x]|] eqn:Ei; [|discriminate]. inversion Hs; subst.
    assert (Hx : 0 <= x <= cnt s p) by (apply (ri_loc _ I l); unfold loc_of; rewrite Hl; exact Ei). pose proof (ri_cnt _ I p).
    split; [exact A|]. split; [lia|]. split; [exact O|]. unfold addr, contents, PAGE_SIZE in *. cbn [s0 base set_labels]. destruct p; cbn [pidx]; lia. }
  rewrite E1. cbn [rev app]. eexists. split; [reflexivity|].
  assert (Hmap : forall l, nth_error (map cleared (labels s)) l = option_map cleared (nth_error (labels s) l)) by (intro l; apply nth_error_map).
  destruct O1 as [B1 C1 L1 P1]. constructor; cbn [base cur pages labels mem set_labels].
  - exact B1.
  - exact C1.
  - exact P1.
  - apply map_length.
  - intro l. unfold loc_of. cbn [labels set_labels]. rewrite Hmap. destruct (nth_error (labels s) l) as [i|]; [|reflexivity].
    cbn [option_map]. unfold cleared. destruct (loc i) eqn:E; [reflexivity|exact E].
  - intro l. unfold loc_of, refs. cbn [labels set_labels]. rewrite Hmap. destruct (nth_error (labels s) l) as [i|]; [|reflexivity].
    cbn [option_map]. unfold cleared. destruct (loc i) eqn:E; reflexivity.
  - intros x Hx. rewrite F1; [reflexivity|]. intros i t Hi Hl Ht. apply In_nth_error in Hi. destruct Hi as [l Hi].
    apply (Hx l t); unfold loc_of, refs; rewrite Hi; assumption.
  - intros l p x t Hl Ht. unfold loc_of in Hl. unfold refs in Ht. destruct (nth_error (labels s) l) as [i|] eqn:Hi; [|discriminate].
    assert (Hlt : forall k, nth_error (targets i) k = nth_error (refs s l) k) by (intro; unfold refs; rewrite Hi; reflexivity).
    apply In_nth_error in Ht. destruct Ht as [k Hk].
    destruct (nth_split_error _ _ _ Hi) as (a & b & Es & La). destruct (nth_split_error _ _ _ Hk) as (ta & tb & Et & Lt).
    assert (Hself : nth_error (refs s l) k = Some t) by (rewrite <- Hlt; exact Hk).
    assert (Hno : forall l2 k2 u y, nth_error (refs s l2) k2 = Some u -> (l2, k2) <> (l, k) -> at_field s t y -> at_field s u y -> False).
    { intros l2 k2 u y Hu Hne H1 H2. pose proof (ri_ref _ I _ _ _ Hself) as (A1 & A2 & _). pose proof (ri_ref _ I _ _ _ Hu) as (A3 & A4 & _).
      pose proof (ri_cnt _ I (fpage t)). pose proof (ri_cnt _ I (fpage u)). unfold at_field, faddr in H1, H2.
      destruct (addr_inj s (fpage t) (fpage u) (y - contents s (fpage t)) (y - contents s (fpage u))) as [Ep Ex]; unfold addr in *; try lia.
      refine (ri_disj _ I l2 k2 u l k t Hu Hself Hne (fpage t) (y - contents s (fpage t)) _ _); split; auto; try congruence; lia. }
    unfold bytes. cbn [mem set_labels]. replace (Z.to_nat (flen t)) with (length (fval s (addr s p x) t)) by (pose proof (fval_len s (addr s p x) t); lia).
    apply read_eq. intros j Hj. pose proof (fval_len s (addr s p x) t) as FL.
    change (addr (set_labels _ s1) (fpage t) (fpos t)) with (addr s1 (fpage t) (fpos t)). rewrite (addr_base s0 s1) by exact B1.
    assert (Hat : at_field s t (addr s0 (fpage t) (fpos t) + Z.of_nat j)).
    { unfold at_field, faddr. change (addr s0 (fpage t) (fpos t)) with (addr s (fpage t) (fpos t)). lia. }
    rewrite (G1 a i b ta t tb (addr s p x) _ Es); auto.
    + unfold faddr. f_equal. lia.
    + unfold lsrc. rewrite Hl. reflexivity.
    + intros u Hu Hau. apply In_nth_error in Hu. destruct Hu as [m Hm].
      refine (Hno l (k + 1 + m)%nat u _ _ _ Hat Hau).
      * rewrite <- Hlt, Et. rewrite nth_error_app2 by lia. replace (k + 1 + m - length ta)%nat with (S m) by lia. exact Hm.
      * intro Hc. inversion Hc. lia.
    + intros i2 u Hi2 Hl2 Hu Hau. apply In_nth_error in Hi2. destruct Hi2 as [m Hm]. apply In_nth_error in Hu. destruct Hu as [k2 Hk2].
      refine (Hno (l + 1 + m)%nat k2 u _ _ _ Hat Hau).
      * unfold refs. rewrite Es. rewrite nth_error_app2 by lia. replace (l + 1 + m - length a)%nat with (S m) by lia. cbn [nth_error]. rewrite Hm. exact Hk2.
      * intro Hc. inversion Hc. lia.
Qed.
