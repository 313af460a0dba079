(** Programs of the README's virtual machine that fit in the page are assembled. *)
From Verif Require Import Base ModelMem ModelEnc ModelSyntax ModelMacro SpecX86 SpecAsm SpecTaken SpecState SpecHist SpecMulti
  MemInv MemStep MemFinal MemHist MemRun MemMisc MemFacts ProgOne SpecProg ProgBlock BlockTaken SpecScope ScopeFacts ScopeBlock SpecMachine SpecCpu ModelParse DemoText Fibo SpecVm VmCode VmPlace VmItems VmProg PosFacts Emit.
Local Notation length := List.length.
Local Open Scope string_scope.
Local Open Scope list_scope.
Local Open Scope Z_scope.

Lemma all_effect ev lenv r0 : forall body r gs s r' s1, same_but_imm r0 r -> Forall (regular ev r0) body -> compile_all body = Some gs -> exec_all ev lenv r gs s = Ok r' s1 ->
  cursor s1 <= cursor s + 15 * Z.of_nat (length body) /\ length (labels s1) = length (labels s).
Proof.
  induction body as [|i body IH]; intros r gs s r' s1 Hs Hp Hc He.
  - cbn [compile_all] in Hc. inversion Hc; subst. cbn in He. inversion He; subst. cbn [List.length]. lia.
  - destruct (compile_all_cons _ _ _ Hc) as (g & gs' & Hg & Hc' & ->). destruct (exec_all_cons _ _ _ _ _ _ _ _ He) as (r2 & s2 & He1 & He2).
    inversion Hp as [|? ? Hi Hp']; subst. destruct (stmt_effect ev lenv r0 r i g s r2 s2 Hs Hi Hg He1) as [C1 L1].
    destruct (IH r2 gs' s2 r' s1 (env_same _ _ _ _ _ _ _ _ _ Hs Hg He1) Hp' Hc' He2) as [C2 L2]. cbn [List.length]. lia.
Qed.
(** A call of [n] statements. *)
Definition goes (it : item) (n : Z) : Prop := forall s, cursor s + 15 * n <= PAGE_SIZE ->
  (forall l, In l (it_refs it) \/ it_mark it = Some l -> (l < length (labels s))%nat) ->
  exists o s1, step (it_op it) s = Ok o s1 /\ cursor s1 <= cursor s + 15 * n /\ length (labels s1) = length (labels s).
Lemma text_goes vars labs t code mark refs body frz n :
  stmts t = body -> typed rust_ev (lookup 0 vars) body -> defined body = match block_mark body with Some x => [x] | None => [] end ->
  mark = option_map (lookup 0%nat labs) (block_mark body) -> refs = map (lookup 0%nat labs) (body_labels body) -> frozen rust_ev (lookup 0 vars) body = frz ->
  compile_all body <> None -> n = Z.of_nat (length body) -> Forall (taken_as_ins (eval rust_ev (lookup 0 vars))) frz ->
  goes (mkItem (text vars labs t) mark refs code) n.
Proof.
  intros <- Ty D -> -> <- Hc -> Ht s Hr Hl. cbn [it_op it_mark it_refs] in *. unfold text.
  destruct (proj2 (scoped_accepted rust_ev (lookup 0%nat labs) (lookup 0 vars) (stmts t) s Ty Hc Hr ltac:(
    intros x [Hx|Hx]; apply Hl; [left; apply in_map, Hx|right; rewrite D in Hx; destruct (block_mark (stmts t)) as [y|]; [destruct Hx as [-> |[]]; reflexivity|elim Hx]])) Ht) as [s1 Es].
  exists None, s1. split; [exact Es|]. rewrite (block_frozen rust_ev rust_ev _ _ (lookup 0 vars) _ s) in Es.
  destruct (block_after _ _ _ _ _ _ _ Es) as (gs & r' & Hg & He). rewrite <- (frozen_length rust_ev (stmts t) (lookup 0 vars)).
  eapply all_effect; [apply same_refl|apply frozen_regular, Ty|exact Hg|exact He].
Qed.
Lemma bind_goes l : goes (mkItem (OBind l) (Some l) [] (fun _ => [])) 0.
Proof.
  intros s _ Hl. cbn [it_op it_mark it_refs] in *. specialize (Hl l (or_intror eq_refl)). apply Nat.ltb_lt in Hl. cbn [step]. unfold nolabel, bind, ret, bind_label, on_cur, bind_label_on, bind, get_counter, modify_label. rewrite Hl.
  do 2 eexists. split; [reflexivity|]. split; [unfold cursor; cbn; lia|]. cbn [labels set_labels]. apply upd_nth_length.
Qed.
Ltac is_goes body frz := apply (text_goes _ _ _ _ _ _ body frz); [vm_compute; reflexivity|typ|reflexivity|reflexivity|reflexivity|reflexivity|vm_compute; discriminate|reflexivity|].
Ltac tk := apply Forall_cons; [
  intro; unfold assembled; cbn [taken slip denote taken_mov taken_rm taken_rmi taken_dest d_movq d_rm d_rmi width_of];
  unfold d_alu; cbn [taken slip denote taken_mov taken_rm taken_rmi taken_dest d_movq d_rm d_rmi width_of is_mem_rm is_mem_rmi andb];
  rewrite ?d_taken, ?d_real, ?d_slot by lia; cbn; try discriminate|].
Ltac tks := repeat tk; try apply Forall_nil.

Lemma vm_goes fs f i : 0 <= v_locals f < 2 ^ 28 - 1 -> vmi_ok fs f i -> goes (vm_item i) (vm_stmts i).
Proof.
  intros Hl H. destruct i; cbn [vmi_ok] in H; unfold reg_ok, var_ok in H; cbn [vm_stmts].
  - is_goes b_set_int [IMovq (MovReg (RExpr (ELit (k + 12)))) (MovImm (ELit (u64 v)) None)]. tks.
  - is_goes b_get [IMovq (MovReg (RExpr (ELit (k + 12)))) (MovInd (mkInd (RReg 5) PScaleNone (PExpr true (ELit o))))]. tks.
  - is_goes b_setl [IMovq (MovInd (mkInd (RReg 5) PScaleNone (PExpr true (ELit o)))) (MovReg (RExpr (ELit (k + 12))))]. tks.
  - is_goes b_sub [ISub QWORD (RmReg (RExpr (ELit (d + 12)))) (RmiReg (RExpr (ELit (s + 12))))]. tks.
  - is_goes b_add [IAdd QWORD (RmReg (RExpr (ELit (d + 12)))) (RmiReg (RExpr (ELit (s + 12))))]. tks.
  - is_goes b_cmp [ICmp QWORD (RmReg (RExpr (ELit (d + 12)))) (RmiReg (RExpr (ELit (s + 12))))]. tks.
  - is_goes b_jne b_jne. tks.
  - is_goes b_jmp b_jmp. tks.
  - is_goes b_mark b_mark. tks.
  - is_goes b_call [IMovq (MovReg (RReg 7)) (MovReg (RExpr (ELit (a + 12)))); ICall (DestRel "dest"); IMovq (MovReg (RExpr (ELit (r + 12)))) (MovReg (RReg 0))]. tks.
  - is_goes b_const [IMovq (MovReg (RReg 0)) (MovImm (ELit v) None)]. tks.
  - is_goes b_result [IMovq (MovReg (RReg 0)) (MovReg (RExpr (ELit (k + 12))))]. tks.
  - is_goes b_puts [IMovq (MovReg (RReg 7)) (MovReg (RExpr (ELit (k + 12)))); IMovq (MovReg (RReg 0)) (MovImm (ELit (u64 p)) None); ICall (DestReg 0)]. tks.
Qed.
Lemma pro_goes f : 0 <= v_locals f < 2 ^ 28 - 1 -> goes (i_prologue f) 3.
Proof.
  intro Hl. set (n := (v_locals f + Z.rem (v_locals f) 2) * 8).
  assert (E : 0 <= n < 2 ^ 31) by (unfold n; rewrite Z.rem_mod_nonneg by lia; pose proof (Z.mod_pos_bound (v_locals f) 2 eq_refl); lia).
  is_goes b_pro [IPushq (RmReg (RReg 5)); IMovq (MovReg (RReg 5)) (MovReg (RReg 4)); ISub QWORD (RmReg (RReg 4)) (RmiImm (ELit n))].
  tks. unfold d_imm. cbn [eval]. rewrite i64_small by lia. unfold guard, imm_ok, in_i32. match goal with |- context [if ?c then Some tt else None] => assert (C : c = true) by lia; rewrite C end. discriminate.
Qed.
Lemma save_goes f : 0 <= v_locals f < 2 ^ 28 - 1 -> var_ok f (v_arg f) -> goes (i_save f) 5.
Proof.
  intros Hl [V _]. is_goes b_save [IPushq (RmReg (RReg 12)); IPushq (RmReg (RReg 13)); IPushq (RmReg (RReg 14)); IPushq (RmReg (RReg 15));
    IMovq (MovInd (mkInd (RReg 5) PScaleNone (PExpr true (ELit (v_arg f))))) (MovReg (RReg 7))]. tks.
Qed.
Lemma end_goes f : goes (i_end f) 5. Proof. is_goes b_end b_end. tks. Qed.
Lemma epi_goes : goes i_epilogue 3. Proof. is_goes b_epi b_epi. tks. Qed.

(** ** A list of calls *)
Fixpoint all_go (its : list (item * Z)) : Prop := match its with [] => True | (it, n) :: r => goes it n /\ 0 <= n /\ all_go r end.
Definition total (its : list (item * Z)) : Z := fold_right Z.add 0 (map snd its).
Lemma all_go_app a b : all_go a -> all_go b -> all_go (a ++ b).
Proof. induction a as [|[it n] a IH]; cbn [app all_go]; [auto|]. intros (H1 & H2 & H3) H. auto. Qed.
Lemma total_app a b : total (a ++ b) = total a + total b.
Proof. induction a as [|x a IH]; [reflexivity|]. unfold total in *. cbn [app map fold_right]. rewrite IH. lia. Qed.
Lemma total_nonneg : forall its, all_go its -> 0 <= total its.
Proof. induction its as [|[it n] its IH]; [intros; cbn; lia|]. cbn [all_go]. intros (_ & Hn & H). unfold total in *. cbn [map fold_right snd]. specialize (IH H). lia. Qed.
Lemma calls_go : forall its s, all_go its -> cursor s + 15 * total its <= PAGE_SIZE ->
  (forall it l, In it (map fst its) -> In l (it_refs it) \/ it_mark it = Some l -> (l < length (labels s))%nat) -> exists s1, calls (map it_op (map fst its)) s = Some s1.
Proof.
  induction its as [|[it n] its IH]; intros s H Hc Hl; [cbn; eauto|]. cbn [all_go] in H. destruct H as (H1 & Hn & H2). pose proof (total_nonneg _ H2).
  unfold total in Hc. cbn [map fold_right snd] in Hc. fold (total its) in Hc.
  destruct (H1 s) as (o & s1 & Es & C1 & L1); [lia|intros l K; apply (Hl it l); [left; reflexivity|exact K]|].
  cbn [map fst calls]. rewrite Es. apply IH; [exact H2|lia|]. intros it' l Hi K. rewrite L1. apply (Hl it' l); [right; exact Hi|exact K].
Qed.
Definition fun_sized (f : vfun) : list (item * Z) := [(i_name f, 0); (i_prologue f, 3); (i_save f, 5)] ++ map (fun i => (vm_item i, vm_stmts i)) (v_body f) ++ [(i_end f, 5); (i_epilogue, 3)].
Lemma sized_items f : map fst (fun_sized f) = fun_items f.
Proof. unfold fun_sized, fun_items, fun_tail. rewrite !map_app, map_map. reflexivity. Qed.
Lemma sized_total f : total (fun_sized f) = fun_stmts f.
Proof.
  unfold fun_sized, fun_stmts. rewrite !total_app. unfold total at 2. rewrite map_map. cbn [snd]. replace (map (fun x => vm_stmts x) (v_body f)) with (map vm_stmts (v_body f)) by reflexivity.
  cbn [total map fold_right snd]. unfold total. cbn [map fold_right snd]. lia.
Qed.
Lemma sized_go labels fs f : vm_ok labels fs -> In f fs -> all_go (fun_sized f).
Proof.
  intros (_ & _ & H) Hf. destruct (H f Hf) as (Hl & Ha & Hb). unfold fun_sized. apply all_go_app; [|apply all_go_app].
  - cbn [all_go]. repeat split; try lia; [apply bind_goes|apply pro_goes, Hl|apply save_goes; assumption].
  - clear -Hb Hl. induction (v_body f) as [|i c IH]; [exact I|]. cbn [map all_go]. split; [apply (vm_goes fs f); [exact Hl|apply Hb; left; reflexivity]|].
    split; [destruct i; cbn; lia|]. apply IH. intros j Hj. apply Hb. right. exact Hj.
  - cbn [all_go]. repeat split; try lia; [apply end_goes|apply epi_goes].
Qed.
Lemma prog_sized : forall fs, map fst (flat_map fun_sized fs) = flat_map fun_items fs /\ total (flat_map fun_sized fs) = vm_size fs.
Proof.
  induction fs as [|f fs [E1 E2]]; [split; reflexivity|]. cbn [flat_map]. rewrite map_app, total_app, E1, E2, sized_items, sized_total. split; reflexivity.
Qed.
Lemma prog_go labels fs : vm_ok labels fs -> all_go (flat_map fun_sized fs).
Proof.
  intro H. assert (K : forall gs, incl gs fs -> all_go (flat_map fun_sized gs)); [|apply K, incl_refl].
  induction gs as [|g gs IH]; intro Hi; [exact I|]. cbn [flat_map]. apply all_go_app; [apply (sized_go labels fs); [exact H|apply Hi; left; reflexivity]|].
  apply IH. intros x Hx. apply Hi. right. exact Hx.
Qed.
(** The pages hold no constants. *)
Definition bare (s : jit) : Prop := forall p, constants (pages s p) = [] /\ data (pages s p) = [].
Lemma items_bare : forall its s s1, Inv s -> Forall item_ok its -> calls (map it_op its) s = Some s1 -> bare s -> bare s1.
Proof.
  induction its as [|it its IH]; intros s s1 I Hok E B; [cbn in E; injection E as <-; exact B|]. inversion Hok as [|? ? (A & Pl & _) Hok']; subst. cbn [map calls] in E.
  destruct (step (it_op it) s) as [o s2|] eqn:Es; [|discriminate]. assert (E2 : after (it_op it) s = Some s2) by (unfold after; rewrite Es; reflexivity).
  apply (IH s2 s1 (Inv_step _ _ _ I A E2) Hok' E). intro p. rewrite (go_pages _ _ _ (plain_leaves _ _ _ (ri_cnt _ (iv_r _ I)) Pl (after_leaves _ _ _ E2)) p). cbn [constants data with_counter]. apply B.
Qed.
Theorem vm_accepted labels fs b m : vm_ok labels fs -> 15 * vm_size fs <= PAGE_SIZE -> exists s4, calls (vm_jit labels fs) (jit_new b m) = Some s4.
Proof.
  intros H Hs. destruct (labels_made labels (jit_new b m)) as (s0 & E0 & Hp & Hc & Hb & Hl). destruct (prog_sized fs) as [Pt Pz].
  assert (C0 : cursor s0 = 0) by (unfold cursor; rewrite Hp, Hc; reflexivity).
  destruct (calls_go (flat_map fun_sized fs) s0 (prog_go _ _ H)) as (s & E).
  - rewrite Pz, C0. lia.
  - rewrite Pt. intros it l Hi K. rewrite Hl. replace (length (ModelMem.labels (jit_new b m)) + labels)%nat with labels by reflexivity. destruct H as (H0 & H1 & H2). apply H1. destruct K as [K|K]; [apply (prog_refs labels fs it l (conj H0 (conj H1 H2)) Hi K)|].
    rewrite <- prog_marks. apply in_marks. exists it. split; assumption.
  - rewrite Pt in E. pose proof (prog_ok _ _ H) as Ok.
    assert (A0 : forallb api (repeat OLabel labels) = true) by (clear; induction labels; [reflexivity|assumption]).
    assert (R0 : reached s0) by (apply (reached_run (repeat OLabel labels) (jit_new b m)); [constructor|exact A0|apply calls_run, E0]).
    assert (A : forallb api (map it_op (flat_map fun_items fs)) = true).
    { apply forallb_forall. intros x Hx. apply in_map_iff in Hx. destruct Hx as (y & <- & Hy). rewrite Forall_forall in Ok. apply (Ok y Hy). }
    assert (R : reached s) by (apply (reached_run _ s0 s R0 A), calls_run, E).
    assert (B : bare s) by (apply (items_bare _ s0 s (Inv_reached _ R0) Ok E); intro p; rewrite Hp; split; reflexivity).
    destruct (proj2 (finalize_succeeds s R)) as (s4 & F).
    { pose proof (ri_cnt _ (iv_r _ (Inv_reached _ R))) as K. split.
      - unfold room_for_constants. rewrite (proj1 (B P0)), (proj1 (B P1)), (proj2 (B P0)), (proj2 (B P1)). cbn [app layout_end]. repeat split; apply K.
      - intros p l k Hi. rewrite (proj1 (B p)) in Hi. elim Hi. }
    exists s4. unfold vm_jit. rewrite <- prog_ops. assert (Ap : forall a b s s', calls a s = Some s' -> calls (a ++ b) s = calls b s').
    { clear. induction a as [|o a IH]; intros b s s' H; cbn [app calls] in *; [congruence|]. destruct (step o s); [apply IH, H|discriminate]. }
    rewrite (Ap _ _ _ _ E0), (Ap _ _ _ _ E). cbn [calls]. unfold after in F. destruct (step OFinalize s) as [o s'|e s']; [exact F|]. discriminate F.
Qed.
