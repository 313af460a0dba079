(** A program that grows and is patched: its blocks are kept. *)
From Verif Require Import Base ModelMem ModelEnc ModelSyntax ModelMacro SpecX86 SpecAsm SpecTaken SpecState SpecHist
  Trace Emit StateFid EncFacts EncDec TakenFacts MemInv MemStep MemFinal MemHist MemRun MemMisc MemFacts MemPlace MemCode ProgOne SpecProg ProgBlock ProgExec BlockTaken SpecMachine SpecCpu MachRun SpecScope ScopeFacts ScopeBlock SpecMulti MultiPlace SpecLive LiveFacts LivePlace.
Local Notation length := List.length.
Local Open Scope list_scope.
Local Open Scope Z_scope.

(** ** New blocks *)
Lemma one_held ev lenv r body ops s o s1 s4 : reached s -> step (OAsm ev lenv r body) s = Ok o s1 -> forallb api ops = true -> run (ops ++ [OFinalize]) s1 = Some s4 ->
  bound_once (OAsm ev lenv r body :: ops ++ [OFinalize]) s -> typed ev r body -> (forall x, In x (body_labels body) -> label_addr s4 (lenv x) <> None) ->
  exists w, held s4 (mkBlk ev lenv r body) w /\ fst w = cur s /\ nth 0 (snd w) 0 = cursor s /\ last (snd w) 0 = cursor s1 /\ cur s1 = cur s.
Proof.
  intros R Es Ha E B T C. assert (E1 : after (OAsm ev lenv r body) s = Some s1) by (unfold after; rewrite Es; reflexivity). pose proof (bound_tail _ _ _ _ B E1) as B1.
  assert (R1 : reached s1) by (apply (reached_run [OAsm ev lenv r body] s); [exact R|reflexivity|cbn [run]; rewrite E1; reflexivity]).
  assert (Ha' : forallb api (ops ++ [OFinalize]) = true) by (rewrite forallb_app, Ha; reflexivity).
  pose proof (frozen_exists ev lenv r body s o s1 T Es) as Hlt.
  assert (Q : forall x, In x (defined body) -> fixed_label s (lenv x)).
  { intros x Hx. apply waiting_fixed; [apply Hlt, Hx|]. apply (proj1 B [] (OAsm ev lenv r body) (ops ++ [OFinalize]) s (lenv x) eq_refl eq_refl).
    cbn [binds_label]. exists x. split; [apply in_defined, Hx|reflexivity]. }
  assert (Hn : NoDup (map lenv (defined body))) by (apply (proj2 B (mkBlk ev lenv r body)); cbn [blocks]; rewrite Es; left; reflexivity).
  assert (Q1 : forall x, In x (defined body) -> fixed_label s1 (lenv x)).
  { intros x Hx. apply (fixed_step (OAsm ev lenv r body) s s1); auto using Inv_reached. }
  assert (HL : forall x, In x (body_labels body) -> linked (ops ++ [OFinalize]) s1 (lenv x) = Some (final s4 (lenv x))).
  { intros x Hx. apply (linked_final _ ops s1 s4); auto using Inv_reached, bound_is_once. unfold final. specialize (C x Hx). destruct (label_addr s4 (lenv x)); [reflexivity|congruence]. }
  pose proof Es as Es'. rewrite (block_frozen ev ev lenv r r body s) in Es'. destruct (block_after _ _ _ _ _ _ _ Es') as (gs & r' & Hc & He).
  destruct (block_laid ev lenv r (fun x => final s4 (lenv x)) (ops ++ [OFinalize]) s4 Ha' (frozen ev r body) r gs s r' s1 R (same_refl r) (frozen_regular _ _ _ _ _ T) Hc He E)
    as (marks & L & Hhd & Hlast & Hcur & Hlab & Hjump).
  { rewrite frozen_labels. exact HL. }
  assert (L1 : forall k x, nth_error (frozen ev r body) k = Some (ILabel x) -> loc_of s1 (lenv x) = Some (cur s, nth k marks 0)).
  { intros k x Hk. apply (Hlab k x (nth k marks 0) Hk).
    - apply nth_error_nth'. destruct L as [-> _]. assert (k < length (frozen ev r body))%nat by (apply nth_error_Some; congruence). lia.
    - intros j y Hj Hy. apply (unique_def lenv (frozen ev r body) k j x y); [rewrite frozen_defined; exact Hn|exact Hk|exact Hj|exact Hy].
    - apply Q. rewrite <- (frozen_defined ev body r). eapply defined_in; eauto. }
  assert (Bd : forall x, In x (defined body) -> label_addr s1 (lenv x) <> None).
  { intros x Hx. rewrite <- (frozen_defined ev body r) in Hx. apply in_defined, In_nth_error in Hx. destruct Hx as [k Hk]. apply addr_bound. rewrite (L1 k x Hk). discriminate. }
  assert (L4 : forall x, In x (defined body) -> loc_of s4 (lenv x) = loc_of s1 (lenv x)).
  { intros x Hx. apply (loc_run (ops ++ [OFinalize]) s1 s4 _ (Inv_reached _ R1) Ha' E (Q1 x Hx)). intros o' Ho K.
    apply (once_not (lenv x) (ops ++ [OFinalize]) s1 s4 (Inv_reached _ R1) Ha' E (bound_is_once _ _ _ B1) (Q1 x Hx) (Bd x Hx) o' Ho). apply binds_agree, K. }
  destruct (run_app_fin _ _ _ E) as (s3 & E3 & Ef).
  assert (I3 : Inv s3) by (apply Inv_reached, (reached_run ops s1); assumption).
  assert (C1 : counter (pages s1 (cur s)) = cursor s1) by (unfold cursor; rewrite Hcur; reflexivity).
  pose proof (cnt_run _ _ _ (cur s) (Inv_reached _ R1) Ha' E) as C4. unfold cnt in C4.
  assert (Hm0 : nth 0 marks 0 = cursor s) by (destruct marks; [discriminate|cbn in *; congruence]).
  exists (cur s, marks). cbn [fst snd]. repeat (split; [|first [exact Hm0|split; [exact Hm0|]|idtac]]); auto.
  constructor; cbn [fst snd b_lenv b_ev b_env b_body]; unfold source, meaning; cbn [b_lenv b_ev b_env b_body].
  - exact L.
  - intros k x Hk. rewrite L4; [apply L1, Hk|]. rewrite <- (frozen_defined ev body r). eapply defined_in; eauto.
  - intros i Hi. rewrite Hm0, Hlast in Hi. pose proof (ri_cnt _ (iv_r _ (Inv_reached _ R)) (cur s)) as Hcnt. unfold cnt, cursor in *.
    split; [lia|]. intros (l & t & Ht & Hf). assert (Ht1 : In t (refs s1 l)).
    { apply (pending_back (ops ++ [OFinalize]) s1 s4 (cur s) i (Inv_reached _ R1) Ha' E); [unfold cnt; lia|exact Ht|exact Hf]. }
    destruct (block_refs ev lenv r (frozen ev r body) r gs s r' s1 (same_refl r) (frozen_regular _ _ _ _ _ T) Hc He l t Ht1) as [H0|H0].
    + apply In_nth_error in H0. destruct H0 as [k Hk]. destruct (ri_ref _ (iv_r _ (Inv_reached _ R)) _ _ _ Hk) as (_ & H2 & _).
      destruct Hf as [Hp Hf]. rewrite Hp in H2. unfold cnt in H2. lia.
    + rewrite frozen_labels in H0. apply in_map_iff in H0. destruct H0 as (x & <- & Hx). rewrite (fin_no_refs s3 s4 _ I3 Ef (C x Hx)) in Ht. elim Ht.
  - unfold names. cbn [b_body]. intros x Hx. assert (A : label_addr s4 (lenv x) <> None).
    { apply in_app_or in Hx. destruct Hx as [Hx|Hx]; [apply C, Hx|]. apply addr_bound. rewrite (L4 x Hx). apply addr_bound, Bd, Hx. }
    split; [exact A|]. apply (fin_fixed s3 s4 _ I3 Ef). rewrite <- (fin_len _ _ I3 Ef). apply bound_lt, A.
  - intros k i op Hk Ho. assert (Hlt' : (k < length (frozen ev r body))%nat) by (apply nth_error_Some; congruence).
    destruct (Hjump k i op (nth k marks 0) Hk Ho) as [H1 H2]; [apply nth_error_nth'; destruct L as [-> _]; lia|].
    split; [apply (nth_error_nth _ _ 0) in H1; exact H1|exact H2].
  - rewrite Hlast, <- C1. exact C4.
Qed.
Theorem all_held : forall ops s0 s4, reached s0 -> forallb api ops = true -> run (ops ++ [OFinalize]) s0 = Some s4 ->
  bound_once (ops ++ [OFinalize]) s0 -> complete ops s0 s4 -> exists ws, Forall2 (held s4) (blocks ops s0) ws /\ ForallOrdPairs behind ws /\
    Forall (fun w => counter (pages s0 (fst w)) <= nth 0 (snd w) 0) ws.
Proof.
  induction ops as [|o ops IH]; intros s0 s4 R Ha E B C; [exists []; repeat constructor|].
  cbn [app] in *. apply run_cons in E. destruct E as (s1 & E1 & E). cbn [forallb] in Ha. apply andb_true_iff in Ha. destruct Ha as [Ha1 Ha].
  assert (R1 : reached s1) by (eapply reached_api; eauto).
  destruct (IH s1 s4 R1 Ha E (bound_tail _ _ _ _ B E1)) as (ws & F & O & G).
  { intros b Hb. apply C. cbn [blocks]. rewrite E1. apply in_or_app. right. exact Hb. }
  assert (G0 : Forall (fun w => counter (pages s0 (fst w)) <= nth 0 (snd w) 0) ws).
  { eapply Forall_impl; [|exact G]. intros w Hw. cbv beta in *. pose proof (cnt_run [o] s0 s1 (fst w) (Inv_reached _ R)) as K. unfold cnt in K. cbn [forallb run] in K. rewrite E1, Ha1 in K.
    specialize (K eq_refl eq_refl). lia. }
  cbn [blocks]. rewrite E1. destruct (step o s0) as [y s1'|] eqn:Es; [|exists ws; auto].
  assert (s1' = s1) by (unfold after in E1; rewrite Es in E1; congruence). subst s1'.
  destruct o; try (exists ws; auto; fail). cbn [block_of app].
  destruct (C (mkBlk ev lenv r body)) as [T CL]; [cbn [blocks]; rewrite Es; left; reflexivity|].
  destruct (one_held ev lenv r body ops s0 y s1 s4 R Es Ha E B T CL) as (w & Hw & Hp & H0 & Hl & Hc). exists (w :: ws). split; [constructor; assumption|]. split.
  - constructor; [|exact O]. eapply Forall_impl; [|exact G]. intros v Hv Hpv. cbv beta in Hv. rewrite Hl. unfold cursor. rewrite Hc, <- Hp, Hpv. exact Hv.
  - constructor; [|exact G0]. rewrite Hp, H0. unfold cursor. lia.
Qed.

(** ** Patches *)
Lemma patched_at s q x d s' : Inv s -> 0 <= x -> x + 5 <= PAGE_SIZE -> apply_jmp_patch_address (addr s q x) d s = Ok tt s' ->
  exists a, label_addr s d = Some a /\ base s' = base s /\ pages s' = pages s /\ labels s' = labels s /\
    bytes s' q (x + 1) 4 = le 4 (a - addr s q x - 5) /\ in_i32 (a - addr s q x - 5) = true /\
    (forall y, ~ (addr s q x + 1 <= y < addr s q x + 5) -> mem s' y = mem s y).
Proof.
  intros I H0 Hx E. unfold apply_jmp_patch_address, bind in E. destruct (get_label_address d s) as [a s1|e s1] eqn:Ed; [|discriminate].
  destruct (label_address_ok _ _ _ _ Ed) as (-> & q2 & y & Hl & ->). exists (addr s q2 y). split; [unfold label_addr; rewrite Hl; reflexivity|].
  pose proof (loc_range _ _ _ _ I Hl) as Ry. set (v := addr s q2 y - addr s q x - 5) in *.
  assert (Hv : in_i32 v = true). { unfold in_i32, v, addr, contents, PAGE_SIZE in *. destruct q, q2; cbn [pidx]; lia. }
  cbv zeta in E. assert (s' = outcome (raw_write4 (addr s q x + 1) (u32 (i32 v)) s)) by (inversion E; reflexivity). subst s'. clear E.
  split; [reflexivity|]. split; [reflexivity|]. split; [reflexivity|]. split; [|split; [exact Hv|]].
  - assert (Hle : le 4 (u32 (i32 v)) = le 4 v).
    { unfold u32. rewrite (le_mod 4 _ 4294967296) by reflexivity. unfold i32. rewrite signed_small; [reflexivity|lia|reflexivity|].
      unfold in_i32 in Hv. change (4294967296 / 2) with 2147483648. lia. }
    unfold bytes. rewrite <- Hle. rewrite <- (le_length 4 (u32 (i32 v))) at 1. apply read_eq. intros k Hk. rewrite le_length in Hk.
    match goal with |- mem ?t (addr ?t q (x + 1) + _) = _ => replace (addr t q (x + 1)) with (addr s q x + 1) by (unfold addr, contents; cbn; lia) end.
    apply raw4_in. apply nth_error_nth'. rewrite le_length. exact Hk.
  - intros z Hz. apply (raw4_out (addr s q x + 1) (u32 (i32 v)) s z). lia.
Qed.
