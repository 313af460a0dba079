(** Page selection, other pages' bytes, alignment, memory protection. *)
From Verif Require Import Base ModelMem ModelProt ModelSyntax ModelMacro Trace Emit SpecState SpecHist.
From Verif Require Import MemInv MemStep MemFinal MemFill MemHist MemRun MemSafe MemOut MemFacts MemLocal MemPlace MemMisc MemCode MemThm MemDemo.
Local Open Scope list_scope. Local Open Scope Z_scope.
Local Notation length := List.length.

(** ** Spec *)
(** [c'] is the least multiple of [a] that is at least [c]. *)
Definition next_multiple (a c c' : Z) : Prop := c' mod a = 0 /\ c <= c' /\ forall x, x mod a = 0 -> c <= x -> c' <= x.
(** Only the cursor of page [p] has changed. *)
Record only_cursor (p : pid) (s s' : jit) : Prop := mkOnlyCursor {
  oc_base : base s' = base s;
  oc_cur : cur s' = cur s;
  oc_mem : forall x, mem s' x = mem s x;
  oc_labels : labels s' = labels s;
  oc_others : forall q, q <> p -> pages s' q = pages s q;
  oc_constants : constants (pages s' p) = constants (pages s p);
  oc_data : data (pages s' p) = data (pages s p);
  oc_code_len : code_len (pages s' p) = code_len (pages s p);
  oc_top : code_block_top (pages s' p) = code_block_top (pages s p);
  oc_blocks : code_block (pages s' p) = code_block (pages s p)
}.
(** The alignment of the four align calls. *)
Definition align_of (c : cop) : option Z :=
  match c with CAlign4 => Some 4 | CAlign8 => Some 8 | CAlign16 => Some 16 | CAlignPage => Some 4096 | _ => None end.

(** ** C15 *)
Lemma other_bytes o p s q i : reached s -> target_page o s = Some p -> q <> p -> 0 <= i < PAGE_SIZE ->
  byte (outcome (step o s)) q i = byte s q i.
Proof.
  intros R T Hq Hi. pose proof (page_local o p s R T) as L. set (s' := outcome (step o s)) in *.
  unfold byte. rewrite (addr_base s s') by apply (lc_base _ _ _ L).
  destruct (Z.eq_dec (mem s' (addr s q i)) (mem s (addr s q i))) as [H|H]; [exact H|]. destruct (lc_mem _ _ _ L _ H) as (j & Hj & Hr).
  pose proof (reached_cnt _ R p) as K. unfold cnt, addr, contents in *. destruct p, q; cbn [pidx] in Hj; unfold PAGE_SIZE in *; try congruence; lia.
Qed.
Lemma select_observed n s s' : step (OSelect n) s = Ok None s' ->
  get_page s' = n /\ base s' = base s /\ labels s' = labels s /\ (forall q, pages s' q = pages s q) /\ forall x, mem s' x = mem s x.
Proof.
  intro H. destruct (select_spec n s) as [_ K]. destruct (K s' H) as (p & Hp & ->). unfold get_page. cbn [cur set_cur base labels pages mem].
  split; [|auto]. unfold pid_of in Hp. destruct (n =? 0) eqn:E0; [|destruct (n =? 1) eqn:E1; [|destruct (n =? 2) eqn:E2]]; inversion Hp; cbn; lia.
Qed.
Lemma select_refused n s : 0 <= n -> n <> 0 -> n <> 1 -> step (OSelect n) s = Panic AssertFailed s.
Proof. intros H H0 H1. rewrite select_step. destruct (n =? 0) eqn:E0; [lia|]. destruct (n =? 1) eqn:E1; [lia|]. destruct (n <? 2) eqn:E2; [lia|reflexivity]. Qed.
(** A call on the selected page emits to page [get_page]. *)
Lemma selected_page o s : reached s -> target_page o s = Some (cur s) ->
  forall q i, 0 <= i < PAGE_SIZE -> pidx q <> get_page s -> byte (outcome (step o s)) q i = byte s q i /\ pages (outcome (step o s)) q = pages s q.
Proof.
  intros R T q i Hi Hq. assert (q <> cur s) as N by (intros ->; apply Hq; reflexivity).
  split; [apply (other_bytes o (cur s)); assumption|]. apply (lc_others _ _ _ (page_local o (cur s) s R T)). exact N.
Qed.

(** ** Alignment *)
Lemma next_multiple_up a c : 0 < a -> next_multiple a c (align_up a c).
Proof.
  intro Ha. destruct (align_up_spec a c Ha) as [[H1 H2] H3]. split; [exact H3|]. split; [exact H1|]. intros x Hx Hc.
  destruct (Z_le_gt_dec (align_up a c) x) as [H|H]; [exact H|exfalso].
  apply Z.mod_divide in Hx; [|lia]. apply Z.mod_divide in H3; [|lia]. destruct Hx as [u ->]. destruct H3 as [v E]. rewrite E in H, H1, H2. assert (u < v) by nia. assert ((u + 1) * a <= v * a) by (apply Z.mul_le_mono_nonneg_r; lia). lia.
Qed.
Lemma run_align c a p s : align_of c = Some a -> run_cop c p s = Ok tt (set_cnt p (align_up a (cnt s p)) s).
Proof.
  destruct c; try discriminate; cbn [align_of]; intro H; inversion H; subst a; cbn [run_cop];
    [apply align4_eq|apply align8_eq|apply align16_eq|apply align_page_eq].
Qed.
Lemma align_step c a n p s : reached s -> align_of c = Some a -> (n = None /\ p = cur s \/ exists k, n = Some k /\ pid_of k = Some p) ->
  exists s', step (OPage n c) s = Ok None s' /\ only_cursor p s s' /\
    next_multiple a (counter (pages s p)) (counter (pages s' p)) /\ counter (pages s' p) <= PAGE_SIZE /\
    (base s mod 4096 = 0 -> addr s' p (counter (pages s' p)) mod a = 0).
Proof.
  intros R Ha Hn. exists (set_cnt p (align_up a (cnt s p)) s).
  assert (In a [1; 4; 8; 16; 4096]) as Hin by (destruct c; inversion Ha; cbn; auto 6).
  assert (0 < a) as Hpos by (cbn in Hin; lia).
  assert (counter (pages (set_cnt p (align_up a (cnt s p)) s) p) = align_up a (cnt s p)) as EC
    by (cbn [set_cnt set_page pages]; rewrite pid_eqb_refl; reflexivity).
  split; [|split; [|rewrite EC; split; [|split]]].
  - cbn [step]. destruct Hn as [[-> ->]|(k & -> & Hk)]; unfold nolabel, on_cur, on_page, bind; rewrite ?Hk, (run_align c a) by exact Ha; reflexivity.
  - constructor; try reflexivity; cbn [set_cnt set_page pages]; try (rewrite pid_eqb_refl; reflexivity).
    intros q Hq. destruct (pid_eqb q p) eqn:E; [|reflexivity]. exfalso. apply Hq. destruct q, p; try discriminate; reflexivity.
  - apply next_multiple_up. exact Hpos.
  - apply align_up_max; [exact Hin|]. pose proof (reached_cnt _ R p). unfold cnt in *. lia.
  - intro B. unfold addr, contents. cbn [base set_cnt set_page].
    destruct (align_up_spec a (cnt s p) Hpos) as [_ M].
    rewrite Z.add_mod by lia. rewrite M, Z.add_0_r, Z.mod_mod by lia.
    apply mod_page; [exact Hpos| |exact B]. cbn in Hin. destruct Hin as [<-|[<-|[<-|[<-|[<-|[]]]]]]; reflexivity.
Qed.
(** A byte emitted right after an align call is at an aligned address. *)
Lemma align_then_emit c a s s1 v s2 : reached s -> align_of c = Some a -> base s mod 4096 = 0 ->
  step (OPage None c) s = Ok None s1 -> step (OPage None (CEmitb v)) s1 = Ok None s2 ->
  exists x, addr s (cur s) x mod a = 0 /\ counter (pages s (cur s)) <= x < counter (pages s (cur s)) + a /\
    byte s2 (cur s) x = u8 v /\ get_current s2 = x + 1.
Proof.
  intros R Ha B H1 H2. destruct (align_step c a None (cur s) s R Ha (or_introl (conj eq_refl eq_refl))) as (s' & E & OC & NM & Hle & AL).
  rewrite H1 in E. inversion E; subst s'. exists (counter (pages s1 (cur s))).
  assert (0 < a) as Hpos by (destruct c; inversion Ha; subst; reflexivity).
  split; [|split].
  - rewrite <- (AL B). f_equal. unfold addr, contents. rewrite (oc_base _ _ _ OC). reflexivity.
  - destruct NM as (M & L & U). split; [exact L|].
    destruct (align_up_spec a (counter (pages s (cur s))) Hpos) as [[K1 K2] K3].
    specialize (U _ K3 K1). lia.
  - destruct (cop_emits (CEmitb v) (le 1 v) s1 eq_refl) as [K1 K2]. unfold cursor in *. cbn [le List.length] in K1, K2.
    rewrite (oc_cur _ _ _ OC) in *.
    destruct (Z_le_gt_dec (counter (pages s1 (cur s)) + Z.of_nat 1) PAGE_SIZE) as [Hr|Hr].
    + destruct (K1 Hr) as (s' & E' & G & _). rewrite H2 in E'. inversion E'; subst s'.
      assert (base s2 = base s1 /\ cur s2 = cur s) as [Gb Gc] by (rewrite (gr_base _ _ _ G), (gr_cur _ _ _ G), (oc_cur _ _ _ OC); auto).
      pose proof (gr_cursor _ _ _ G) as Gk. rewrite (oc_cur _ _ _ OC) in Gk. unfold cursor in Gk. rewrite (oc_cur _ _ _ OC) in Gk. cbn [List.length] in Gk.
      split; [|unfold get_current; rewrite Gc, Gk; reflexivity].
      pose proof (gr_bytes _ _ _ G 0%nat (u8 v) eq_refl) as Gm. unfold here, cursor in Gm. rewrite (oc_cur _ _ _ OC), Z.add_0_r in Gm.
      unfold byte, addr, contents. rewrite Gb. exact Gm.
    + destruct (K2 ltac:(lia)) as (s' & E'). rewrite H2 in E'. discriminate E'.
Qed.

(** ** Protection *)
Lemma prot_code s p i : p <> P2 -> 0 <= i < PAGE_SIZE -> prot_of s (addr s p i) = RWX.
Proof.
  intros Hp Hi. unfold prot_of, prot_at, new_protects. cbn [fold_left]. unfold covers. cbn [pstart plen pval].
  unfold addr, contents. destruct p; [| |congruence]; cbn [pidx];
  repeat match goal with |- context [?a && ?b] => destruct (a && b) eqn:? end; try reflexivity; unfold PAGE_SIZE in *; lia.
Qed.
Lemma prot_data s i : 0 <= i < PAGE_SIZE -> prot_of s (addr s P2 i) = RW.
Proof.
  intros Hi. unfold prot_of, prot_at, new_protects. cbn [fold_left]. unfold covers. cbn [pstart plen pval].
  unfold addr, contents. cbn [pidx].
  repeat match goal with |- context [?a && ?b] => destruct (a && b) eqn:? end; try reflexivity; unfold PAGE_SIZE in *; lia.
Qed.
Lemma prot_outside s x : x < base s \/ base s + 3 * PAGE_SIZE <= x -> prot_of s x = Heap.
Proof.
  intros H. unfold prot_of, prot_at, new_protects. cbn [fold_left]. unfold covers. cbn [pstart plen pval].
  repeat match goal with |- context [?a && ?b] => destruct (a && b) eqn:? end; try reflexivity; unfold PAGE_SIZE in *; lia.
Qed.
Lemma datum_prot s d l ops s1 s2 : reached s -> is_datum d = true -> created_then s d l ops s1 s2 ->
  exists x, loc_of s2 l = Some (P2, x) /\ forall i, 0 <= i < dat_len d -> prot_of s2 (addr s2 P2 (x + i)) = RW.
Proof.
  intros R Hd C. destruct (datum_placed _ _ _ _ _ _ R Hd C) as (x & A1 & _ & _ & A4 & A5 & _). exists x. split; [exact A1|].
  intros i Hi. apply prot_data. destruct C as (s0 & E0 & Ha & Hf & E1 & E2).
  assert (R0 : reached s0) by (apply (reached_api (OCreate d) s s0 R); [reflexivity|unfold after; rewrite E0; reflexivity]).
  assert (R1 : reached s1) by (apply (reached_run ops s0 s1 R0 Ha E1)).
  assert (R2 : reached s2) by (apply (reached_api OFinalize s1 s2 R1 eq_refl E2)).
  pose proof (reached_cursor s1 P2 R1). pose proof (reached_cursor s2 P2 R2). lia.
Qed.
(** Every byte of an instruction assembled on the selected page is executable. *)
Lemma emitted_prot s s' bs k : reached s -> grows s s' bs -> 0 <= k < Z.of_nat (length bs) -> prot_of s' (here s + k) = RWX.
Proof.
  intros R G Hk. pose proof (reached_cursor s (cur s) R) as K. pose proof (gr_cursor _ _ _ G). pose proof (gr_room _ _ _ G).
  unfold prot_of. rewrite (gr_base _ _ _ G). change (prot_of s (here s + k) = RWX). unfold here.
  replace (base s + pidx (cur s) * PAGE_SIZE + cursor s + k) with (addr s (cur s) (cursor s + k)) by (unfold addr, contents; lia).
  apply prot_code; [apply selected; exact R|]. unfold cursor in *. lia.
Qed.
(** ** Cases *)
Ltac vm := vm_compute; reflexivity.
Lemma case40 : reached sA1 /\ counter (pages sA1 P0) = 14 /\ counter (pages (outcome (step (OPage (Some 0) CAlign16) sA1)) P0) = 16 /\
  counter (pages (outcome (step (OPage None CAlignPage) sA1)) P1) = 4096.
Proof. split; [exact (proj1 case15)|]. split; [vm|]. split; vm. Qed.
Lemma case41 : reached sA1 /\ prot_of sA1 (addr sA1 P1 5) = RWX /\ loc_of sB 4%nat = Some (P2, 0) /\ prot_of sB (addr sB P2 0) = RW.
Proof. split; [exact (proj1 case15)|]. split; [vm|]. split; vm. Qed.

(** ** The current address *)
Lemma current_is s a : get_current_address s = Ok a s -> a = addr s (cur s) (cursor s) /\ a <> 0.
Proof.
  unfold get_current_address, bind, ModelMem.get, codeptr. destruct (addr s (cur s) (counter (pages s (cur s))) =? 0) eqn:Z0; [discriminate|].
  intro H. cbn in H. inversion H. split; [reflexivity|]. apply Z.eqb_neq, Z0.
Qed.
Lemma current_of s : addr s (cur s) (cursor s) <> 0 -> get_current_address s = Ok (addr s (cur s) (cursor s)) s.
Proof.
  intro H. unfold get_current_address, bind, ModelMem.get, codeptr. apply Z.eqb_neq in H. unfold cursor in *. rewrite H. reflexivity.
Qed.
Lemma current_address s a : reached s -> 0 < base s -> get_current_address s = Ok a s ->
  (forall v s', step (OPage None (CEmitb v)) s = Ok None s' -> mem s' a = u8 v /\ get_current_address s' = Ok (a + 1) s') /\
  (forall l s', step (OBind l) s = Ok None s' -> label_addr s' l = Some a).
Proof.
  intros R B H. destruct (current_is _ _ H) as [-> Hz]. split.
  - intros v s' E. destruct (cop_emits (CEmitb v) (le 1 v) s eq_refl) as [K1 K2]. cbn [le List.length] in K1, K2.
    destruct (Z_le_gt_dec (cursor s + Z.of_nat 1) PAGE_SIZE) as [Hr|Hr].
    + destruct (K1 Hr) as (s2 & E' & G & _). rewrite E in E'. inversion E'; subst s2.
      pose proof (gr_bytes _ _ _ G 0%nat (u8 v) eq_refl) as Gm. unfold here in Gm. rewrite Z.add_0_r in Gm. split; [exact Gm|].
      assert (A : addr s' (cur s') (cursor s') = addr s (cur s) (cursor s) + 1).
      { pose proof (gr_cursor _ _ _ G) as Gk. cbn [List.length] in Gk. unfold cursor at 1. unfold addr, contents. rewrite (gr_base _ _ _ G), (gr_cur _ _ _ G). lia. }
      rewrite <- A. apply current_of. rewrite A. pose proof (ri_cnt _ (iv_r _ (Inv_reached _ R)) (cur s)) as Kc. unfold cnt, addr, contents, cursor, PAGE_SIZE in *. destruct (cur s); cbn [pidx]; lia.
    + destruct (K2 ltac:(lia)) as (s2 & E'). rewrite E in E'. discriminate E'.
  - intros l s' E. pose proof (bound_here (OBind l) l s s' R E eq_refl) as L. cbn beta iota in L.
    unfold label_addr. rewrite L. unfold addr, contents. rewrite (effect_base _ _ _ (step_effect _ _ _ (Inv_reached _ R) (eq_refl : api (OBind l) = true) (ltac:(unfold after; rewrite E; reflexivity) : after (OBind l) s = Some s'))). reflexivity.
Qed.
Lemma current_exists s : reached s -> 0 < base s -> exists a, get_current_address s = Ok a s.
Proof.
  intros R B. exists (addr s (cur s) (cursor s)). apply current_of. pose proof (ri_cnt _ (iv_r _ (Inv_reached _ R)) (cur s)) as K.
  unfold cnt, addr, contents, cursor, PAGE_SIZE in *. destruct (cur s); cbn [pidx]; lia.
Qed.
Lemma current_full s : reached s -> 0 < base s -> exists a, get_current_address s = Ok a s /\
  (forall v s', step (OPage None (CEmitb v)) s = Ok None s' -> mem s' a = u8 v /\ get_current_address s' = Ok (a + 1) s') /\
  (forall l s', step (OBind l) s = Ok None s' -> label_addr s' l = Some a).
Proof. intros R B. destruct (current_exists s R B) as (a & H). exists a. split; [exact H|]. apply (current_address s a R B H). Qed.
Lemma case36_current : reached sD /\ base sD = 65536 /\ get_current_address sD = Ok 65569 sD /\ mem (outcome (step (OPage None (CEmitb 0xcc)) sD)) 65569 = 0xcc.
Proof.
  split; [exact reachedD|]. split; [vm_compute; reflexivity|]. split; [|vm_compute; reflexivity].
  rewrite current_of; [f_equal; vm_compute; reflexivity|vm_compute; discriminate].
Qed.
