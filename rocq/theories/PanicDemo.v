(** Witnesses for C51: what a panicking finalize loses. *)
From Verif Require Import Base ModelMem ModelEnc ModelSyntax ModelMacro Trace Emit StateFid SpecState SpecHist MemInv MemStep MemFinal MemFill MemHist MemRun MemSafe MemLocal MemDemo SpecPanic PanicFacts.
Local Notation length := List.length.
Local Open Scope list_scope.
Local Open Scope Z_scope.

Lemma emit_room bs s : cnt s (cur s) + Z.of_nat (length bs) <= PAGE_SIZE -> exists s', emit bs s = Ok tt s' /\ adv (cur s) (map u8 bs) s s'.
Proof.
  intro H. rewrite emit_meq. pose proof (emit_on_appends (cur s) bs s) as A. rewrite map_length in A.
  replace (counter (pages s (cur s)) + Z.of_nat (length bs) <=? PAGE_SIZE) with true in A by (unfold cnt in H; lia). exact A.
Qed.
(** Nothing waits: placing changes neither labels nor memory. *)
Lemma placing_nothing s : (forall p, constants (pages s p) = [] /\ data (pages s p) = []) ->
  exists s', placing s = Ok tt s' /\ labels s' = labels s /\ base s' = base s /\ mem s' = mem s /\ (forall p, counter (pages s' p) = counter (pages s p)).
Proof.
  intro H. unfold placing, resolve_constants, resolve_data, all_pages.
  Local Ltac go := repeat (progress (unfold bind, modify, ModelMem.get, ret, resolve_constants_of, resolve_data_of;
    cbn [forM pages set_page pid_eqb pidx Z.eqb Pos.eqb constants data open_block with_blocks with_code_len with_constants with_data])).
  go. rewrite (proj1 (H P0)). go. rewrite (proj1 (H P1)). go. rewrite (proj2 (H P0)). go. rewrite (proj2 (H P1)). go.
  assert (Hl : forall c bs x, exists r, set_last_end c (bs ++ [x]) = Some r).
  { intros c bs x. induction bs as [|y bs [r IH]]; [destruct x as [[u v] w]; eexists; reflexivity|]. destruct y as [[u v] w]. cbn [app set_last_end]. destruct bs; cbn [app] in *; rewrite IH; eexists; reflexivity. }
  unfold close_block_on at 1. cbn [pages set_page pid_eqb pidx Z.eqb Pos.eqb counter code_block open_block with_blocks with_code_len with_constants with_data].
  destruct (Hl (counter (pages s P0)) (code_block (pages s P0)) (code_block_top (pages s P0), counter (pages s P0), 0)) as [r0 ->].
  unfold close_block_on at 1. cbn [pages set_page pid_eqb pidx Z.eqb Pos.eqb counter code_block open_block with_blocks with_code_len with_constants with_data].
  destruct (Hl (counter (pages s P1)) (code_block (pages s P1)) (code_block_top (pages s P1), counter (pages s P1), 0)) as [r1 ->].
  unfold close_block_on at 1. cbn [pages set_page pid_eqb pidx Z.eqb Pos.eqb counter code_block open_block with_blocks with_code_len with_constants with_data].
  destruct (Hl (counter (pages s P2)) (code_block (pages s P2)) (code_block_top (pages s P2), counter (pages s P2), 0)) as [r2 ->].
  eexists. split; [reflexivity|]. repeat (split; [reflexivity|]). intro p. destruct p; reflexivity.
Qed.

(** A jump whose field crosses the end of the page, bound and finalized: every label is lost. *)
Section Lost.
Variable n : nat.
Hypothesis Hn : Z.of_nat n = PAGE_SIZE - 3.
Definition lost : list op := [OEmit (repeat 0 n); asm [IJmp (DestRel "a")]; OBind 0%nat; OFinalize].
Definition sL : jit := outcome (step OLabel newD).
Lemma lost_labels : labels (run_any lost sL) = [].
Proof.
  unfold lost. rewrite run_any_cons. cbn [step]. unfold nolabel, bind.
  destruct (emit_room (repeat 0 n) sL) as (s2 & -> & A2). { rewrite repeat_length, Hn. vm_compute. discriminate. }
  cbn [ret outcome]. rewrite run_any_cons.
  assert (C2 : counter (pages s2 P0) = PAGE_SIZE - 3). { change P0 with (cur sL). rewrite (adv_page _ _ _ _ A2). cbn [counter with_counter]. rewrite map_length, repeat_length, Hn. reflexivity. }
  assert (L2 : labels s2 = [label_new]) by (rewrite (adv_labels _ _ _ _ A2); reflexivity).
  assert (U2 : cur s2 = P0) by (rewrite (adv_cur _ _ _ _ A2); reflexivity).
  assert (D2 : forall p, constants (pages s2 p) = [] /\ data (pages s2 p) = []).
  { intro p. destruct (pid_dec p (cur sL)) as [->|Hp]; [rewrite (adv_page _ _ _ _ A2)|rewrite (adv_others _ _ _ _ A2 p Hp)]; split; reflexivity. }
  assert (B2 : base s2 = 65536) by (rewrite (adv_base _ _ _ _ A2); reflexivity).
  assert (K2c : cnt_ok s2).
  { intro p. unfold cnt. destruct (pid_dec p P0) as [->|Hp]; [rewrite C2; unfold PAGE_SIZE; lia|]. rewrite (adv_others _ _ _ _ A2 p Hp). unfold PAGE_SIZE. cbn. lia. }
  (* the jump: one byte is written, its field overflows *)
  assert (J : exists s3, labels s3 = [mkLabel None [Rel P0 4 (PAGE_SIZE - 2)]] /\ cur s3 = P0 /\ base s3 = 65536 /\ cnt_ok s3 /\
    (forall p, constants (pages s3 p) = [] /\ data (pages s3 p) = []) /\ outcome (step (asm [IJmp (DestRel "a")]) s2) = s3).
  { change (step (asm [IJmp (DestRel "a")]) s2) with ((exec_all evD lenvD rD [GDo (GEncD [0xe9] "a") GNil] ;; ret (@None label)) s2).
    cbn [exec_all exec run_call]. unfold enc_d. unfold bind.
    destruct (emit_room [0xe9] s2) as (s3 & -> & A3). { unfold cnt. rewrite U2, C2. cbn. unfold PAGE_SIZE. lia. }
    assert (F3 : framed P0 s2 s3). { rewrite <- U2. eapply framed_adv; [exact A3|]. left. rewrite U2, C2. cbn. unfold PAGE_SIZE. lia. }
    assert (C3 : counter (pages s3 P0) = PAGE_SIZE - 2). { rewrite <- U2. rewrite (adv_page _ _ _ _ A3). cbn [counter with_counter]. rewrite U2, C2. cbn. reflexivity. }
    assert (U3 : cur s3 = P0) by (rewrite (adv_cur _ _ _ _ A3); exact U2).
    assert (L3 : labels s3 = [label_new]) by (rewrite (adv_labels _ _ _ _ A3); exact L2).
    unfold save_reloc at 1, on_cur at 1, bind, get_counter, modify_label. rewrite U3, C3, L3.
    change (lenvD "a" <? length [label_new])%nat with true. cbv iota.
    set (s4 := set_labels _ s3).
    pose proof (emitl_on_appends P0 0 s4) as A4. rewrite le_length in A4. change (counter (pages s4 P0)) with (counter (pages s3 P0)) in A4. rewrite C3 in A4.
    replace ((PAGE_SIZE - 2 + Z.of_nat 4 <=? PAGE_SIZE) || (4 =? 0)%nat) with false in A4 by reflexivity.
    destruct A4 as (s5 & E5 & F5 & L5). unfold emitl, on_cur. change (cur s4) with (cur s3). rewrite U3, E5. cbn [outcome].
    exists s5. split; [rewrite L5; reflexivity|]. split; [rewrite (fr_cur _ _ _ F5); exact U3|]. split; [rewrite (fr_base _ _ _ F5); change (base s4) with (base s3); rewrite (fr_base _ _ _ F3); exact B2|].
    split; [eapply cnt_ok_framed; [exact F5|]; change (cnt_ok s3); eapply cnt_ok_framed; eassumption|]. split; [|reflexivity].
    intro p. rewrite (page_framed P0 s4 s5 p constants F5), (page_framed P0 s4 s5 p data F5) by reflexivity. change (pages s4 p) with (pages s3 p).
    rewrite (page_framed P0 s2 s3 p constants F3), (page_framed P0 s2 s3 p data F3) by reflexivity. apply D2. }
  destruct J as (s3 & L3 & U3 & B3 & K3c & D3 & ->). clear A2 C2 L2 U2 D2 B2 K2c s2.
  rewrite run_any_cons. cbn [step]. unfold nolabel, bind_label, bind_label_on, on_cur, bind, get_counter, modify_label. rewrite U3, L3.
  cbn [List.length Nat.ltb Nat.leb ret outcome upd_nth with_loc targets]. pose proof (K3c P0) as Hc. unfold cnt in Hc. set (c := counter (pages s3 P0)) in *.
  set (s4 := set_labels _ s3). rewrite run_any_cons. cbn [run_any].
  cbn [step]. unfold nolabel. unfold bind at 1. rewrite finalize_split. unfold bind at 1.
  destruct (placing_nothing s4 D3) as (s5 & -> & L5 & B5 & _ & _).
  unfold bind at 1, fill_relocs. unfold bind at 1, ModelMem.get. unfold bind at 1, modify at 1. unfold bind at 1. rewrite L5. cbn [labels set_labels s4 fill_labels loc with_loc targets].
  unfold bind, ModelMem.get. cbn [targets forM fill_target]. unfold bind, ModelMem.get. cbv zeta.
  match goal with |- context [in_i32 ?x] => set (d := x) end.
  assert (Hd : in_i32 d = true). { unfold d, in_i32, contents, PAGE_SIZE in *. cbn [base set_labels pidx]. lia. }
  rewrite Hd. unfold write32. cbv zeta.
  unfold bind. rewrite put_ok by (unfold PAGE_SIZE; lia). rewrite put_ok by (unfold PAGE_SIZE; lia). rewrite put_panic by (unfold PAGE_SIZE; lia).
  reflexivity.
Qed.
End Lost.
Lemma label_reused : exists ops1 ops2 b m l s1 s2, step OLabel (run_any ops1 (jit_new b m)) = Ok (Some l) s1 /\ step OLabel (run_any ops2 s1) = Ok (Some l) s2.
Proof.
  exists [], (lost (Z.to_nat (PAGE_SIZE - 3))), 65536, (fun _ => 0xcc), 0%nat, sL. eexists. split; [reflexivity|].
  cbn [step]. unfold new_label, bind. rewrite lost_labels by (apply Z2Nat.id; unfold PAGE_SIZE; lia). reflexivity.
Qed.

(** A constant on a full page: finalize panics, the next one returns, and the constant is nowhere. *)
Section Gone.
Variable n : nat.
Hypothesis Hn : Z.of_nat n = PAGE_SIZE.
Definition sG : jit := outcome (step (OCreate (KI64 5)) newD).
Lemma gone : exists s2 s3, run_any [OEmit (repeat 0 n); OFinalize] sG = s2 /\ step OFinalize s2 = Ok None s3 /\
  label_addr s3 0%nat = Some (65536 + PAGE_SIZE) /\ read (mem s3) (65536 + PAGE_SIZE) 8 = repeat 0xcc 8.
Proof.
  rewrite run_any_cons. change (step (OEmit (repeat 0 n)) sG) with ((emit (repeat 0 n) ;; ret (@None label)) sG). unfold bind at 1.
  destruct (emit_room (repeat 0 n) sG) as (s2 & -> & A2). { rewrite repeat_length, Hn. vm_compute. discriminate. }
  cbn [ret outcome]. rewrite run_any_cons. cbn [run_any].
  assert (F2 : framed P0 sG s2). { change P0 with (cur sG). eapply framed_adv; [exact A2|]. left. rewrite map_length, repeat_length, Hn. vm_compute. discriminate. }
  assert (C2 : counter (pages s2 P0) = PAGE_SIZE). { change P0 with (cur sG). rewrite (adv_page _ _ _ _ A2). cbn [counter with_counter]. rewrite map_length, repeat_length, Hn. reflexivity. }
  assert (L2 : labels s2 = [label_new]) by (rewrite (adv_labels _ _ _ _ A2); reflexivity).
  assert (B2 : base s2 = 65536) by (rewrite (adv_base _ _ _ _ A2); reflexivity).
  assert (M2 : forall x, 65536 + PAGE_SIZE <= x -> mem s2 x = 0xcc) by (intros x Hx; rewrite (fr_mem _ _ _ F2); [reflexivity|right; exact Hx]).
  assert (Dc : forall p, constants (pages s2 p) = match p with P0 => [(DU64 5, 0%nat)] | _ => [] end).
  { intro p. rewrite (page_framed P0 sG s2 p constants F2) by reflexivity. destruct p; reflexivity. }
  assert (Dd : forall p, data (pages s2 p) = []).
  { intro p. rewrite (page_framed P0 sG s2 p data F2) by reflexivity. destruct p; reflexivity. }
  (* the first finalize *)
  assert (J : exists s3, outcome (step OFinalize s2) = s3 /\ labels s3 = [mkLabel (Some (P0, PAGE_SIZE)) []] /\ base s3 = 65536 /\
    (forall x, 65536 + PAGE_SIZE <= x -> mem s3 x = 0xcc) /\ (forall p, constants (pages s3 p) = [] /\ data (pages s3 p) = [])).
  { cbn [step]. unfold nolabel, bind at 1. rewrite finalize_split. unfold bind at 1, placing, all_pages, resolve_constants.
    unfold bind at 1. cbn [forM]. unfold bind, modify, ret, resolve_constants_of, ModelMem.get. unfold bind, modify.
    cbn [pages set_page pid_eqb pidx Z.eqb Pos.eqb constants open_block with_blocks with_code_len]. rewrite Dc. cbn [forM]. unfold bind.
    unfold resolve_constant_entry. cbn [fst snd]. unfold bind. rewrite align16_eq.
    set (s4 := set_page P0 (with_constants []) _).
    assert (C4 : cnt s4 P0 = PAGE_SIZE) by exact C2. rewrite C4. replace (align_up 16 PAGE_SIZE) with PAGE_SIZE by reflexivity.
    unfold bind_label_on, bind, get_counter, modify_label. cbn [labels set_cnt set_page s4]. rewrite L2. cbn [List.length Nat.ltb Nat.leb upd_nth with_loc label_new targets pages pid_eqb pidx Z.eqb Pos.eqb counter with_counter].
    set (s5 := set_labels _ _).
    pose proof (emitq_on_appends P0 5 s5) as A5. rewrite le_length in A5. change (counter (pages s5 P0)) with PAGE_SIZE in A5.
    replace ((PAGE_SIZE + Z.of_nat 8 <=? PAGE_SIZE) || (8 =? 0)%nat) with false in A5 by reflexivity.
    destruct A5 as (s6 & -> & F6 & L6). cbn [outcome]. exists s6. split; [reflexivity|]. split; [rewrite L6; reflexivity|].
    split; [rewrite (fr_base _ _ _ F6); exact B2|]. split.
    - intros x Hx. rewrite (fr_mem _ _ _ F6); [exact (M2 x Hx)|]. right. unfold contents. change (base s5) with (base s2). rewrite B2. cbn [pidx]. lia.
    - intro p. rewrite (page_framed P0 s5 s6 p constants F6), (page_framed P0 s5 s6 p data F6) by reflexivity.
      split; [pose proof (Dc p) as H|pose proof (Dd p) as H]; destruct p; first [reflexivity|exact H]. }
  destruct J as (s3 & -> & L3 & B3 & M3 & D3). clear F2 A2 C2 L2 B2 M2 Dc Dd s2.
  exists s3. cbn [step]. unfold nolabel, bind at 1. rewrite finalize_split. unfold bind at 1.
  destruct (placing_nothing s3 D3) as (s5 & -> & L5 & B5 & M5 & C5).
  unfold bind at 1, fill_relocs, ModelMem.get, modify. unfold bind. rewrite L5, L3. cbn [fill_labels loc targets forM all_pages]. unfold bind, ModelMem.get, ret. cbn [rev app].
  eexists. split; [reflexivity|]. split; [reflexivity|]. split.
  - unfold label_addr, loc_of. cbn [labels set_page set_labels nth_error loc]. unfold addr, contents. cbn [base set_page set_labels pidx]. rewrite B5, B3. reflexivity.
  - cbn [mem set_page set_labels]. rewrite M5. cbn [read repeat]. repeat (rewrite M3 by lia). reflexivity.
Qed.
End Gone.
Lemma constant_gone : exists b m s0 s1 l ops s2 s3, s0 = jit_new b m /\ step (OCreate (KI64 5)) s0 = Ok (Some l) s1 /\ run_any ops s1 = s2 /\ step OFinalize s2 = Ok None s3 /\
  exists a, label_addr s3 l = Some a /\ read (mem s3) a 8 <> dat_bytes (KI64 5).
Proof.
  destruct (gone (Z.to_nat PAGE_SIZE) ltac:(apply Z2Nat.id; unfold PAGE_SIZE; lia)) as (s2 & s3 & H1 & H2 & H3 & H4).
  exists 65536, (fun _ => 0xcc), newD, sG, 0%nat, [OEmit (repeat 0 (Z.to_nat PAGE_SIZE)); OFinalize], s2, s3.
  split; [reflexivity|]. split; [reflexivity|]. split; [exact H1|]. split; [exact H2|]. eexists. split; [exact H3|]. rewrite H4. discriminate.
Qed.
(** A jump to a label of another object, after h1: one byte stays behind, everything else is as it was. *)
Definition far : op := OAsm evD (fun _ => 9%nat) rD [IJmp (DestRel "a")].
Lemma case51 : panics far (run_any h1 newD) = true /\ is_over far = false /\ is_finalize far = false /\
  length (labels (outcome (step far (run_any h1 newD)))) = 5%nat /\ counter (pages (outcome (step far (run_any h1 newD))) P0) = 15 /\
  bytes (outcome (step far (run_any h1 newD))) P0 0 15 = bytes (run_any h1 newD) P0 0 14 ++ [0xe9] /\
  refs (outcome (step far (run_any h1 newD))) 1%nat = [Rel P1 4 1] /\ finalizes_well (h1 ++ [far; OFinalize]) newD = true.
Proof. split; [vm|]. split; [reflexivity|]. split; [reflexivity|]. split; [vm|]. split; [vm|]. split; [vm|]. split; vm. Qed.
