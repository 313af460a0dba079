(** Raw emission, jump patches, [include] and code pointers. *)
From Verif Require Import Base ModelMem ModelEnc ModelSyntax ModelMacro Trace Emit StateFid SpecX86 EncDec SpecState SpecHist MemInv MemStep MemFinal MemFill MemHist MemRun MemSafe MemOut MemFacts MemLocal MemPlace MemMisc.
Local Notation length := List.length.

(** ** Raw emission (C14, C32) *)
Lemma le1 v : le 1 v = [u8 v]. Proof. reflexivity. Qed.
Lemma cop_appends c bs p : cop_bytes c = Some bs -> appends p bs (run_cop c p).
Proof.
  destruct c; cbn [cop_bytes run_cop]; intro H; inversion H; subst; [apply emitb_on_appends|apply emitw_on_appends|apply emitl_on_appends|apply emitq_on_appends].
Qed.
Lemma adv_grows bs s s' : adv (cur s) bs s s' -> cursor s + Z.of_nat (length bs) <= PAGE_SIZE \/ (bs = [] /\ cursor s <= PAGE_SIZE) -> grows s s' bs.
Proof.
  intros [B C L P O M] Hroom. assert (Hr : cursor s + Z.of_nat (length bs) <= PAGE_SIZE) by (destruct Hroom as [H|[-> H]]; cbn [length]; lia).
  assert (Hh : here s = addr s (cur s) (counter (pages s (cur s)))) by (unfold here, addr, contents, cursor; lia).
  constructor; auto; rewrite ?P; cbn [counter with_counter constants data code_len code_block_top code_block]; auto.
  - intros k b Hk. rewrite M, <- Hh. assert (Hlt : (k < length bs)%nat) by (apply nth_error_Some; congruence).
    rewrite wr_in by lia. replace (Z.to_nat _) with k by lia. apply nth_error_nth, Hk.
  - intros x Hx. rewrite M, <- Hh. apply wr_out. lia.
Qed.
Lemma appends_emits bs m o s : (length bs <> 0)%nat \/ cursor s <= PAGE_SIZE -> appends (cur s) bs m -> step o s = nolabel m s -> emits bs o s.
Proof.
  intros Hne Ha Es. specialize (Ha s). rewrite <- Nat.eqb_neq in Hne. fold (cursor s) in Ha. split; intro H.
  - destruct (cursor s + Z.of_nat (length bs) <=? PAGE_SIZE) eqn:E; [|lia]. cbn [orb] in Ha. destruct Ha as (s' & E1 & A).
    exists s'. rewrite Es. unfold nolabel, bind, ret. rewrite E1. split; [reflexivity|]. split; [apply adv_grows; [exact A|left; exact H]|apply (adv_labels _ _ _ _ A)].
  - destruct (cursor s + Z.of_nat (length bs) <=? PAGE_SIZE) eqn:E; [lia|]. destruct (length bs =? 0)%nat eqn:E0.
    + destruct Hne as [Hne|Hne]; [congruence|]. lia.
    + cbn [orb] in Ha. destruct Ha as (s' & E1 & A). exists s'. rewrite Es. unfold nolabel, bind. rewrite E1. reflexivity.
Qed.
Lemma cop_emits c bs s : cop_bytes c = Some bs -> emits bs (OPage None c) s.
Proof.
  intro H. apply (appends_emits _ (run_cop c (cur s))); [|apply cop_appends, H|reflexivity].
  left. destruct c; cbn in H; inversion H; discriminate.
Qed.
Lemma map_u8 bs : Forall is_byte bs -> map u8 bs = bs.
Proof. intro H. induction H as [|b r Hb Hr IH]; cbn [map]; [reflexivity|]. rewrite (u8_id _ Hb), IH. reflexivity. Qed.
Lemma bytes_emits bs s : cursor s <= PAGE_SIZE -> Forall is_byte bs -> emits bs (OEmit bs) s.
Proof.
  intros Hc Hb. pose proof (map_u8 _ Hb) as Hm.
  apply (appends_emits _ (forM bs (emitb_on (cur s)))); [right; exact Hc| |].
  - pose proof (emit_on_appends (cur s) bs) as A. rewrite Hm in A. exact A.
  - cbn [step]. unfold nolabel, bind. rewrite emit_meq. reflexivity.
Qed.
Lemma dq_int_emits ev lenv r v s : emits (le 8 v) (OAsm ev lenv r [II64 v]) s.
Proof.
  apply (appends_emits _ (emitq_on (cur s) (u64 v))); [left; discriminate| |].
  - pose proof (emitq_on_appends (cur s) (u64 v)) as A. unfold u64 in A at 1. rewrite (le_mod 8 v) in A by reflexivity. exact A.
  - cbn [step compile_all compile g1 exec_all]. unfold nolabel, bind, exec_all. cbn. unfold bind, emitq, on_cur. destruct (emitq_on (cur s) (u64 v) s) as [[] s'|e s']; reflexivity.
Qed.
Lemma dq_float_emits ev lenv r bits s : compile (IF64 bits) <> None -> emits (le 8 bits) (OAsm ev lenv r [IF64 bits]) s.
Proof.
  intros Hc. assert (F : float_ok bits = true) by (cbn [compile] in Hc; destruct (float_ok bits); [reflexivity|congruence]). clear Hc.
  apply (appends_emits _ (forM (le 8 bits) (emitb_on (cur s)))); [left; discriminate| |].
  - pose proof (emit_on_appends (cur s) (le 8 bits)) as A. rewrite (map_u8 _ (le_byte 8 bits)) in A. exact A.
  - pose proof (emit_meq (le 8 bits) s) as E. cbn [step compile_all compile g1 exec_all]. rewrite F. cbn [exec_all]. unfold nolabel, bind. cbn [exec run_call]. unfold bind, ret.
    unfold g1; cbn [exec run_call]; unfold bind, ret.     rewrite E. destruct (forM (le 8 bits) (emitb_on (cur s)) s) as [[] s'|e s']; reflexivity.
Qed.
Lemma dq_float_refuted : exists bits, bits = 0xbff8000000000000 /\ forall ev lenv r s, ~ emits (le 8 bits) (OAsm ev lenv r [IF64 bits]) s.
Proof.
  eexists. split; [reflexivity|]. intros ev lenv r s [A B]. destruct (Z_le_gt_dec (cursor s + Z.of_nat (length (le 8 0xbff8000000000000))) PAGE_SIZE) as [L|L].
  - destruct (A L) as (s' & E & _). cbn [step compile_all compile] in E. discriminate E.
  - destruct (B ltac:(lia)) as (s' & E). cbn [step compile_all compile] in E. discriminate E.
Qed.

(** ** Jump patches (C23) *)
Lemma loc_range s l p x : Inv s -> loc_of s l = Some (p, x) -> 0 <= x <= PAGE_SIZE.
Proof. intros I H. pose proof (ri_loc _ (iv_r _ I) _ _ _ H) as B. pose proof (ri_cnt _ (iv_r _ I) p) as K. unfold cnt in *. lia. Qed.
Lemma raw4_in a v s : forall k b, nth_error (le 4 v) k = Some b -> mem (outcome (raw_write4 a v s)) (a + Z.of_nat k) = b.
Proof.
  intros k b Hk. assert (Hs : forall n, Z.shiftr v n = v / 2 ^ n \/ n < 0) by (intro n; destruct (Z_lt_le_dec n 0); [auto|left; apply Z.shiftr_div_pow2; lia]).
  cbn [raw_write4 modify outcome mem set_mem]. unfold upd.
  assert (Hd : v / 256 / 256 = v / 65536 /\ v / 256 / 256 / 256 = v / 16777216) by (rewrite !Z.div_div by lia; auto).
  destruct Hd as [D1 D2].
  assert (S8 : Z.shiftr v 8 = v / 256) by (apply (shiftr_u8 v 8 256); [lia|reflexivity]).
  assert (S16 : Z.shiftr v 16 = v / 65536) by (apply (shiftr_u8 v 16 65536); [lia|reflexivity]).
  assert (S24 : Z.shiftr v 24 = v / 16777216) by (apply (shiftr_u8 v 24 16777216); [lia|reflexivity]).
  destruct k as [|[|[|[|k]]]]; cbn [le nth_error] in Hk; try (destruct k; discriminate); inversion Hk; subst b;
    unfold raw_write4, modify, outcome; cbn [mem set_mem]; unfold upd;
    repeat match goal with |- context [?x =? ?y] => destruct (x =? y) eqn:?; try lia end; congruence.
Qed.
Lemma patched s p d q x a : Inv s -> loc_of s p = Some (q, x) -> x + 5 <= PAGE_SIZE -> label_addr s d = Some a -> 0 < base s ->
  exists s', apply_jmp_patch p d s = Ok tt s' /\ base s' = base s /\ cur s' = cur s /\ pages s' = pages s /\ labels s' = labels s /\
    bytes s' q (x + 1) 4 = le 4 (a - addr s q x - 5) /\ in_i32 (a - addr s q x - 5) = true /\
    (forall y, ~ (addr s q x + 1 <= y < addr s q x + 5) -> mem s' y = mem s y).
Proof.
  intros I Hp Hx Hd Hb. pose proof (loc_range _ _ _ _ I Hp) as Rx. destruct (label_addr_some _ _ _ Hd) as (q2 & y & Hl & ->).
  pose proof (loc_range _ _ _ _ I Hl) as Ry.
  assert (A0 : forall u v, 0 <= v -> addr s u v <> 0) by (intros u v Hv; unfold addr, contents; destruct u; cbn [pidx]; unfold PAGE_SIZE; lia).
  pose proof (getters s p) as Gp. rewrite Hp in Gp. destruct Gp as (_ & _ & _ & _ & Gp). specialize (Gp (A0 q x ltac:(lia))).
  pose proof (getters s d) as Gd. rewrite Hl in Gd. destruct Gd as (_ & _ & _ & _ & Gd). specialize (Gd (A0 q2 y ltac:(lia))).
  set (v := addr s q2 y - addr s q x - 5).
  assert (Hv : in_i32 v = true). { unfold in_i32, v, addr, contents, PAGE_SIZE in *. destruct q, q2; cbn [pidx]; lia. }
  exists (outcome (raw_write4 (addr s q x + 1) (u32 (i32 v)) s)).
  split; [unfold apply_jmp_patch, bind; rewrite Gp; unfold apply_jmp_patch_address, bind; rewrite Gd; reflexivity|].
  split; [reflexivity|]. split; [reflexivity|]. split; [reflexivity|]. split; [reflexivity|]. split; [|split; [exact Hv|]].
  - assert (Hle : le 4 (u32 (i32 v)) = le 4 v).
    { unfold u32. rewrite (le_mod 4 _ 4294967296) by reflexivity. unfold i32. rewrite signed_small; [reflexivity|lia|reflexivity|].
      unfold in_i32 in Hv. change (4294967296 / 2) with 2147483648. lia. }
    unfold bytes. rewrite <- Hle. rewrite <- (le_length 4 (u32 (i32 v))) at 1. apply read_eq. intros k Hk. rewrite le_length in Hk.
    match goal with |- mem ?t (addr ?t q (x + 1) + _) = _ => replace (addr t q (x + 1)) with (addr s q x + 1) by (unfold addr, contents; cbn; lia) end.
    apply raw4_in. apply nth_error_nth'. rewrite le_length. exact Hk.
  - intros z Hz. apply (raw4_out (addr s q x + 1) (u32 (i32 v)) s z). lia.
Qed.
Lemma decode_branch m op v : (op = 233 /\ m = Jmp) \/ (op = 232 /\ m = Call) -> in_i32 v = true -> forall rest,
  decode ((op :: le 4 v) ++ rest) = Some (mkIns m W64 [ORel v], rest).
Proof.
  intros H Hv rest. assert (T : take_s 4 (le 4 v ++ rest) = Some (v, rest)).
  { rewrite take_s_le. change (256 ^ Z.of_nat 4) with 4294967296. rewrite signed_small; [reflexivity|lia|reflexivity|].
    unfold in_i32 in Hv. change (4294967296 / 2) with 2147483648. lia. }
  destruct H as [[-> ->]|[-> ->]]; cbn [app];
    match goal with |- decode (?o :: ?t) = _ => change (decode (o :: t)) with (form_rel (if o =? 233 then Jmp else Call) 4 t) end;
    unfold form_rel; rewrite T; reflexivity.
Qed.
Lemma patch_branch s p d q x a m : Inv s -> loc_of s p = Some (q, x) -> x + 5 <= PAGE_SIZE ->
  (byte s q x = 233 /\ m = Jmp) \/ (byte s q x = 232 /\ m = Call) -> label_addr s d = Some a -> 0 < base s ->
  exists s', apply_jmp_patch p d s = Ok tt s' /\
    (exists v, a = addr s q x + 5 + v /\ forall rest, decode (bytes s' q x 5 ++ rest) = Some (mkIns m W64 [ORel v], rest)) /\
    (forall y, ~ (addr s q x + 1 <= y < addr s q x + 5) -> mem s' y = mem s y) /\
    base s' = base s /\ cur s' = cur s /\ pages s' = pages s /\ labels s' = labels s.
Proof.
  intros I Hp Hx Hop Hd Hb. destruct (patched _ _ _ _ _ _ I Hp Hx Hd Hb) as (s' & E & B & C & P & L & Hf & Hr & Hm).
  exists s'. split; [exact E|]. split; [|auto 6]. exists (a - addr s q x - 5). split; [lia|]. intro rest.
  assert (Hby : bytes s' q x 5 = byte s q x :: le 4 (a - addr s q x - 5)).
  { rewrite <- Hf. unfold bytes, byte. change (read (mem s') (addr s' q x) 5) with (mem s' (addr s' q x) :: read (mem s') (addr s' q x + 1) 4).
    rewrite (addr_base s s' q x), (addr_base s s' q (x + 1)) by exact B.
    replace (addr s q (x + 1)) with (addr s q x + 1) by (unfold addr; lia). rewrite (Hm (addr s q x)) by lia. reflexivity. }
  rewrite Hby. apply decode_branch; [|exact Hr]. tauto.
Qed.
Lemma patch_survives s p d q x s' ops s2 : Inv s -> loc_of s p = Some (q, x) -> (forall i, x <= i < x + 5 -> settled s q i) ->
  apply_jmp_patch p d s = Ok tt s' -> forallb api ops = true -> run ops s' = Some s2 -> bytes s2 q x 5 = bytes s' q x 5.
Proof.
  intros I Hp Hs E Ha Er.
  assert (Ea : after (OPatch p d) s = Some s') by (unfold after; cbn [step]; unfold nolabel, bind; rewrite E; reflexivity).
  assert (W : rewritten s s') by (eapply over_rewritten; [|exact Ea]; exists q, x; split; [exact Hp|]; intros; apply Hs; lia).
  pose proof (Inv_rewritten _ _ I W) as I'. apply (settled_bytes ops s' s2 q x 5 I' Ha Er).
  intros i Hi. destruct (Hs i) as [H1 H2]; [lia|]. split.
  - rewrite (rw_pages _ _ W). exact H1.
  - intros (l & t & Ht & Hf). apply H2. exists l, t. unfold refs in *. rewrite (rw_labels _ _ W) in Ht. auto.
Qed.

(** ** include (C24) *)
Lemma include_sel s ptr : include s ptr = true <-> contents s (cur s) <= ptr < contents s (cur s) + 2 * PAGE_SIZE.
Proof. unfold include. lia. Qed.
Lemma include_p0 s ptr : cur s = P0 -> (include s ptr = true <-> exists p i, p <> P2 /\ 0 <= i < PAGE_SIZE /\ ptr = addr s p i).
Proof.
  intro H. rewrite include_sel, H. unfold addr, contents. cbn [pidx]. split.
  - intro Hr. destruct (Z_lt_le_dec ptr (base s + PAGE_SIZE)).
    + exists P0, (ptr - base s). cbn [pidx]. split; [discriminate|]. lia.
    + exists P1, (ptr - base s - PAGE_SIZE). cbn [pidx]. split; [discriminate|]. lia.
  - intros (p & i & Hp & Hi & ->). destruct p; cbn [pidx]; unfold PAGE_SIZE in *; try congruence; lia.
Qed.
Lemma include_p1 s ptr : cur s = P1 -> (include s ptr = true <-> exists p i, p <> P0 /\ 0 <= i < PAGE_SIZE /\ ptr = addr s p i).
Proof.
  intro H. rewrite include_sel, H. unfold addr, contents. cbn [pidx]. split.
  - intro Hr. destruct (Z_lt_le_dec ptr (base s + 2 * PAGE_SIZE)).
    + exists P1, (ptr - base s - PAGE_SIZE). cbn [pidx]. split; [discriminate|]. lia.
    + exists P2, (ptr - base s - 2 * PAGE_SIZE). cbn [pidx]. split; [discriminate|]. lia.
  - intros (p & i & Hp & Hi & ->). destruct p; cbn [pidx]; unfold PAGE_SIZE in *; try congruence; lia.
Qed.

(** ** Code pointers (C36) *)
Lemma pointer_range s a : Inv s -> code_pointer s a -> base s <= a <= base s + 3 * PAGE_SIZE.
Proof.
  intros I [H|[l H]].
  - unfold get_current_address, bind, ModelMem.get, codeptr in H. destruct (_ =? 0); [discriminate|]. inversion H. pose proof (ri_cnt _ (iv_r _ I) (cur s)) as K.
    unfold cnt, addr, contents in *. destruct (cur s); cbn [pidx]; unfold PAGE_SIZE in *; lia.
  - destruct (label_address_ok _ _ _ _ H) as (_ & p & x & Hl & ->). pose proof (loc_range _ _ _ _ I Hl). unfold addr, contents. destruct p; cbn [pidx]; unfold PAGE_SIZE in *; lia.
Qed.
Lemma pointer_arith s a b : Inv s -> 0 < base s -> base s + 3 * PAGE_SIZE < 2 ^ 63 -> code_pointer s a -> code_pointer s b ->
  codeptr_sub b a = b - a /\ in_i32 (codeptr_sub b a) = true /\ (a <= b -> codeptr_add a (codeptr_sub b a) = b) /\
  codeptr_compare b a = Z.compare (codeptr_sub b a) 0.
Proof.
  intros I H0 H1 Ha Hb. apply pointer_range in Ha; [|exact I]. apply pointer_range in Hb; [|exact I].
  assert (Hs : forall z, base s <= z <= base s + 3 * PAGE_SIZE -> i64 z = z).
  { intros z Hz. unfold i64. apply signed_small; [lia|reflexivity|]. change (18446744073709551616 / 2) with (2 ^ 63). lia. }
  assert (Hd : codeptr_sub b a = b - a) by (unfold codeptr_sub; rewrite !Hs by assumption; reflexivity).
  rewrite Hd. split; [reflexivity|]. split; [unfold in_i32, PAGE_SIZE in *; lia|]. split.
  - intro Hle. unfold codeptr_add, u64. replace (a + (b - a)) with b by lia. apply Z.mod_small. change 18446744073709551616 with (2 ^ 64). lia.
  - unfold codeptr_compare. rewrite <- Z.compare_sub. reflexivity.
Qed.
