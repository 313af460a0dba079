(** Indexing by position. *)
From Verif Require Import Base ModelMem ModelPos SpecState SpecHist SpecPos MemInv MemStep MemFill MemFinal MemHist MemRun MemMisc MemFacts MemThm MemDemo.
Local Notation length := List.length.
Local Open Scope list_scope.
Local Open Scope Z_scope.

Lemma indexed_pid k s : indexed (Some k) s = pid_of k.
Proof. unfold indexed, pid_of. destruct (Z.eqb_spec k 0) as [->|H0]; [reflexivity|]. destruct (Z.eqb_spec k 1) as [->|H1]; [reflexivity|]. destruct (Z.eqb_spec k 2) as [->|H2]; [reflexivity|].
  destruct k as [|[p|[|p|]|]|p]; try reflexivity; congruence.
Qed.
Lemma index_eq n p pos s : indexed n s = Some p -> index n pos s = if PAGE_SIZE <=? pos then Panic PageOverflow s else Ok (byte s p pos) s.
Proof. destruct n as [k|]; [rewrite indexed_pid|]; unfold index, on_cur, on_page; intro H; [rewrite H|inversion H; subst]; reflexivity. Qed.
Lemma index_mut_eq n p pos v s : indexed n s = Some p ->
  index_mut n pos v s = if PAGE_SIZE <=? pos then Panic PageOverflow s else Ok tt (set_mem (fun m => upd m (addr s p pos) (u8 v)) s).
Proof. destruct n as [k|]; [rewrite indexed_pid|]; unfold index_mut, poke, on_cur, on_page; intro H; [rewrite H|inversion H; subst]; reflexivity. Qed.
Lemma index_read n p pos s : indexed n s = Some p -> (pos < PAGE_SIZE -> index n pos s = Ok (byte s p pos) s) /\ (PAGE_SIZE <= pos -> index n pos s = Panic PageOverflow s).
Proof. intro H. rewrite (index_eq n p pos s H). destruct (Z.leb_spec PAGE_SIZE pos); split; intros; auto; lia. Qed.
Lemma index_none n pos v s : indexed n s = None -> index n pos s = Panic IndexOOB s /\ index_mut n pos v s = Panic IndexOOB s.
Proof. destruct n as [k|]; [rewrite indexed_pid|]; unfold index, index_mut, on_page; intro H; [rewrite H; split; reflexivity|discriminate]. Qed.
Lemma index_write n p pos v s : indexed n s = Some p -> 0 <= v < 256 ->
  (pos < PAGE_SIZE -> exists s1, index_mut n pos v s = Ok tt s1 /\ one_byte p pos v s s1) /\ (PAGE_SIZE <= pos -> index_mut n pos v s = Panic PageOverflow s).
Proof.
  intros H Hv. rewrite (index_mut_eq n p pos v s H). destruct (Z.leb_spec PAGE_SIZE pos); split; intros; auto; try lia. eexists. split; [reflexivity|].
  split; [reflexivity|]. split; [reflexivity|]. split; [reflexivity|]. split; [reflexivity|]. intro x. cbn [mem set_mem]. unfold upd, addr, contents.
  destruct (x =? _); [|reflexivity]. apply Z.mod_small. lia.
Qed.
Lemma page_apart p q x y : 0 <= x < PAGE_SIZE -> 0 <= y < PAGE_SIZE -> pidx p * PAGE_SIZE + x = pidx q * PAGE_SIZE + y -> p = q /\ x = y.
Proof. intros Hx Hy H. destruct p, q; cbn [pidx] in H; unfold PAGE_SIZE in *; split; try reflexivity; lia. Qed.
Lemma index_back n p pos v s s1 n' p' pos' : indexed n s = Some p -> index_mut n pos v s = Ok tt s1 -> indexed n' s1 = Some p' -> 0 <= v < 256 -> 0 <= pos -> 0 <= pos' < PAGE_SIZE ->
  exists w, index n' pos' s1 = Ok w s1 /\ (p' = p /\ pos' = pos -> w = v) /\ (~ (p' = p /\ pos' = pos) -> w = byte s p' pos').
Proof.
  intros H E H' Hv Hp Hp'. rewrite (index_mut_eq n p pos v s H) in E. destruct (Z.leb_spec PAGE_SIZE pos); [discriminate|]. inversion E; subst s1. clear E.
  rewrite (index_eq n' p' pos' _ H'). destruct (Z.leb_spec PAGE_SIZE pos'); [lia|]. eexists. split; [reflexivity|]. unfold byte. cbn [mem set_mem]. unfold upd, addr, contents. cbn [base set_mem].
  destruct (Z.eqb_spec (base s + pidx p' * PAGE_SIZE + pos') (base s + pidx p * PAGE_SIZE + pos)) as [Eq|Ne]; split; intros G; try (unfold u8; rewrite Z.mod_small; lia); try reflexivity.
  - exfalso. apply G. apply page_apart; lia.
  - exfalso. destruct G as [-> ->]. apply Ne. reflexivity.
Qed.
Lemma index_emitted bs o s v s1 k b : emits bs o s -> step o s = Ok v s1 -> nth_error bs k = Some b -> index None (cursor s + Z.of_nat k) s1 = Ok b s1.
Proof.
  intros [H1 H2] E Hk. assert (k < length bs)%nat by (apply nth_error_Some; congruence).
  destruct (Z.le_gt_cases (cursor s + Z.of_nat (length bs)) PAGE_SIZE) as [Hf|Hf]; [|destruct (H2 Hf) as [s' E']; congruence].
  destruct (H1 Hf) as (s' & E' & G & _). rewrite E in E'. inversion E'; subst s'. rewrite (index_eq None (cur s1)) by reflexivity.
  destruct (Z.leb_spec PAGE_SIZE (cursor s + Z.of_nat k)); [lia|]. f_equal. rewrite <- (gr_bytes _ _ _ G k b Hk). unfold byte, here, addr, contents, cursor. rewrite (gr_base _ _ _ G), (gr_cur _ _ _ G). f_equal. lia.
Qed.
(** ** Code blocks *)
Lemma blocks_in : forall bs a e x y z, blocks a bs e -> In (x, y, z) bs -> a <= x /\ x <= y <= z /\ z <= e.
Proof.
  induction bs as [|[[x0 y0] z0] bs IH]; intros a e x y z H Hi; [destruct Hi|]. cbn [blocks] in H. destruct H as (-> & Hxy & H).
  assert (Hze : z0 <= e). { clear - H. revert z0 H. induction bs as [|[[x1 y1] z1] bs IH]; intros z0 H; cbn [blocks] in H; [lia|]. destruct H as (-> & ? & H). apply IH in H. lia. }
  destruct Hi as [Hi|Hi]; [inversion Hi; subst; lia|]. destruct (IH _ _ _ _ _ H Hi). lia.
Qed.
Lemma i64_small p : 0 <= p < 2 ^ 63 -> i64 p = p.
Proof. intro H. unfold i64, signed. change (18446744073709551616 / 2) with (2 ^ 63). rewrite Z.mod_small by lia. destruct (Z.ltb_spec p (2 ^ 63)); lia. Qed.
Lemma pos_add_small checks p k : 0 <= p < 2 ^ 62 -> 0 <= p + k < 2 ^ 62 -> pos_add checks p k = Some (p + k).
Proof.
  intros Hp Hk. unfold pos_add. rewrite (i64_small p) by lia. cbv zeta. rewrite (i64_small (p + k)) by lia. rewrite Z.eqb_refl. cbn [negb]. rewrite andb_false_r. f_equal. unfold u64. apply Z.mod_small. lia.
Qed.
Lemma pos_sub_small checks p q : 0 <= q <= p -> p < 2 ^ 64 -> pos_sub checks p q = Some (p - q).
Proof. intros H Hp. unfold pos_sub. destruct (Z.ltb_spec p q); [lia|]. rewrite andb_false_r. f_equal. unfold u64. apply Z.mod_small. lia. Qed.
Lemma i64_of p : 0 <= p < 2 ^ 64 -> i64 p = if p <? 2 ^ 63 then p else p - 2 ^ 64.
Proof. intro H. unfold i64, signed. change (18446744073709551616 / 2) with (2 ^ 63). rewrite Z.mod_small by lia. destruct (Z.ltb_spec p (2 ^ 63)); lia. Qed.
Lemma i64_range v : - 2 ^ 63 <= i64 v < 2 ^ 63 /\ exists q, v = i64 v + q * 2 ^ 64.
Proof.
  unfold i64, signed. change (18446744073709551616 / 2) with (2 ^ 63). change 18446744073709551616 with (2 ^ 64). cbv zeta.
  pose proof (Z.mod_pos_bound v (2 ^ 64) ltac:(lia)). pose proof (Z.div_mod v (2 ^ 64) ltac:(lia)). destruct (Z.ltb_spec (v mod 2 ^ 64) (2 ^ 63)); split; try lia; [exists (v / 2 ^ 64)|exists (v / 2 ^ 64 + 1)]; lia.
Qed.
Lemma pos_add_wraps checks p k : 0 <= p < 2 ^ 64 -> - 2 ^ 31 <= k < 2 ^ 31 ->
  (p < 2 ^ 63 <= p + k \/ p + k < 2 ^ 63 <= p -> pos_add checks p k = if checks then None else Some (p + k)) /\
  (~ (p < 2 ^ 63 <= p + k \/ p + k < 2 ^ 63 <= p) -> pos_add checks p k = Some ((p + k) mod 2 ^ 64)).
Proof.
  intros Hp Hk. unfold pos_add. rewrite (i64_of p Hp). cbv zeta.
  assert (M : forall v, - 2 ^ 64 <= v < 2 ^ 64 -> v =? i64 v = (- 2 ^ 63 <=? v) && (v <? 2 ^ 63)).
  { intros v Hv. destruct ((- 2 ^ 63 <=? v) && (v <? 2 ^ 63)) eqn:E.
    - apply Z.eqb_eq. destruct (i64_range v) as (B & q & Q). assert (q = 0) by lia. lia.
    - apply Z.eqb_neq. destruct (i64_range v) as (B & q & Q). lia. }
  destruct (Z.ltb_spec p (2 ^ 63)) as [L|L].
  - rewrite M by lia. split; intro H.
    + replace ((- 2 ^ 63 <=? p + k) && (p + k <? 2 ^ 63)) with false by lia. destruct checks; cbn [andb negb]; [reflexivity|]. unfold u64. rewrite Z.mod_small by lia. reflexivity.
    + replace ((- 2 ^ 63 <=? p + k) && (p + k <? 2 ^ 63)) with true by lia. cbn [negb]. rewrite andb_false_r. reflexivity.
  - assert (U : u64 (p - 2 ^ 64 + k) = (p + k) mod 2 ^ 64) by (unfold u64; replace (p - 2 ^ 64 + k) with (p + k + (-1) * 2 ^ 64) by lia; apply Z.mod_add; lia).
    rewrite M by lia. rewrite U. split; intro H.
    + replace ((- 2 ^ 63 <=? p - 2 ^ 64 + k) && (p - 2 ^ 64 + k <? 2 ^ 63)) with false by lia. destruct checks; cbn [andb negb]; [reflexivity|]. rewrite Z.mod_small by lia. reflexivity.
    + replace ((- 2 ^ 63 <=? p - 2 ^ 64 + k) && (p - 2 ^ 64 + k <? 2 ^ 63)) with true by lia. cbn [negb]. rewrite andb_false_r. reflexivity.
Qed.
Lemma block_positions checks s p a b c : reached s -> In (a, b, c) (code_block (pages s p)) ->
  0 <= a /\ c <= counter (pages s p) /\ pos_sub checks b a = Some (b - a) /\ pos_sub checks c b = Some (c - b) /\
  forall k, 0 <= k < c - a -> pos_add checks a k = Some (a + k) /\ index (Some (pidx p)) (a + k) s = Ok (byte s p (a + k)) s.
Proof.
  intros R Hi. pose proof (Inv_reached _ R) as I. destruct (blocks_reached s p I) as (e & Hb & He). destruct (blocks_in _ _ _ _ _ _ Hb Hi) as (Ha & Hab & Hc).
  pose proof (ri_cnt _ (iv_r _ I) p) as K. unfold cnt in K. unfold PAGE_SIZE in K.
  split; [exact Ha|]. split; [lia|]. split; [apply pos_sub_small; lia|]. split; [apply pos_sub_small; lia|]. intros k Hk. split; [apply pos_add_small; lia|].
  apply index_read; [rewrite indexed_pid; destruct p; reflexivity|unfold PAGE_SIZE; lia].
Qed.
(** A position moved below zero is out of range. *)
Lemma pos_before checks p k n q s : 0 <= p < PAGE_SIZE -> - 2 ^ 31 <= k -> p + k < 0 -> indexed n s = Some q ->
  exists p', pos_add checks p k = Some p' /\ index n p' s = Panic PageOverflow s /\ forall v, index_mut n p' v s = Panic PageOverflow s.
Proof.
  intros Hp Hk Hn Hi. unfold PAGE_SIZE in Hp. exists (p + k + 2 ^ 64).
  assert (E : u64 (p + k) = p + k + 2 ^ 64) by (unfold u64; rewrite <- (Z.mod_add _ 1) by lia; rewrite Z.mod_small; lia).
  split.
  - unfold pos_add. rewrite (i64_small p) by lia. cbv zeta. replace (i64 (p + k)) with (p + k); [rewrite Z.eqb_refl; cbn [negb]; rewrite andb_false_r, E; reflexivity|].
    unfold i64, signed. change (18446744073709551616 / 2) with (2 ^ 63). unfold u64 in E. change (2 ^ 64) with 18446744073709551616 in *. rewrite E. destruct (Z.ltb_spec (p + k + 18446744073709551616) (2 ^ 63)); lia.
  - split; [rewrite (index_eq n q _ s Hi)|intro v; rewrite (index_mut_eq n q _ v s Hi)]; (destruct (Z.leb_spec PAGE_SIZE (p + k + 2 ^ 64)) as [L|L]; [reflexivity|unfold PAGE_SIZE in L; lia]).
Qed.
Lemma pos_cross p q : 0 <= p < q -> q < 2 ^ 64 -> pos_sub true p q = None /\ pos_sub false p q = Some (p - q + 2 ^ 64).
Proof.
  intros H Hq. unfold pos_sub. destruct (Z.ltb_spec p q); [|lia]. cbn [andb]. split; [reflexivity|]. f_equal. unfold u64. rewrite <- (Z.mod_add _ 1) by lia. apply Z.mod_small. lia.
Qed.

Lemma case50 : reached sD /\ In (0, 14, 32) (code_block (pages sD P0)) /\
  pos_sub true 14 0 = Some 14 /\ pos_add true 0 13 = Some 13 /\ index (Some 0) 13 sD = Ok 0xc3 sD /\ index (Some 0) PAGE_SIZE sD = Panic PageOverflow sD /\
  indexed (Some 3) sD = None /\ pos_add true 3 (-4) = Some (2 ^ 64 - 1) /\ pos_sub true 3 4 = None /\
  exists s1, index_mut None 13 0x90 sD = Ok tt s1 /\ index None 13 s1 = Ok 0x90 s1 /\ index None 12 s1 = Ok (byte sD P0 12) s1 /\ mem s1 (65536 + 13) = 0x90.
Proof.
  split; [exact reachedD|]. split; [vm_compute; left; reflexivity|]. split; [reflexivity|]. split; [reflexivity|].
  assert (Eb0 : byte sD P0 13 = 0xc3) by (vm_compute; reflexivity).
  split; [rewrite (index_eq (Some 0) P0 13 sD eq_refl), Eb0; replace (PAGE_SIZE <=? 13) with false by reflexivity; reflexivity|].
  split; [rewrite (index_eq (Some 0) P0 PAGE_SIZE sD eq_refl), Z.leb_refl; reflexivity|]. split; [reflexivity|]. split; [reflexivity|]. split; [reflexivity|].
  destruct (index_write None (cur sD) 13 0x90 sD) as [H _]; [reflexivity|lia|]. destruct H as (s1 & E & B); [reflexivity|]. exists s1. split; [exact E|].
  assert (Ec : cur sD = P0) by (vm_compute; reflexivity). assert (Eb : base sD = 65536) by (vm_compute; reflexivity).
  destruct B as (B1 & B2 & _ & _ & B5). rewrite Ec in *. split; [|split].
  - rewrite (index_eq None (cur s1) 13 s1 eq_refl). replace (PAGE_SIZE <=? 13) with false by reflexivity. unfold byte, addr, contents. rewrite B2, B5, B1, Z.eqb_refl. reflexivity.
  - rewrite (index_eq None (cur s1) 12 s1 eq_refl). replace (PAGE_SIZE <=? 12) with false by reflexivity. unfold byte, addr, contents. rewrite B2, B5, B1, Eb. reflexivity.
  - rewrite B5, Eb. reflexivity.
Qed.
