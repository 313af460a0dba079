(** The machine on the linked blocks and the interpreter of their source take the same steps. *)
From Verif Require Import Base ModelMem ModelEnc ModelSyntax ModelMacro SpecX86 SpecAsm SpecTaken SpecState SpecHist
  MemRun SpecProg ProgBlock ProgExec SpecMachine SpecCpu MachRun SpecScope ScopeFacts ScopeBlock SpecMulti MultiPlace.
Local Notation length := List.length.
Local Open Scope list_scope.
Local Open Scope Z_scope.

Section Run.
Variables (s : jit) (prog : list blk) (ws : list place_of).
Hypothesis F : Forall2 (placed s) prog ws.
Notation at_ := (marks_of s ws).
Notation target := (final s).

Lemma placed_at u b : nth_error prog u = Some b -> exists w, nth_error ws u = Some w /\ placed s b w.
Proof.
  revert u. clear -F; induction F as [|x y l l' H K IH]; intros [|u] Hu; try discriminate.
  - inversion Hu; subst. exists y. auto.
  - exact (IH K u Hu).
Qed.
Lemma at_eq u w k : nth_error ws u = Some w -> at_ u k = at_mark s (fst w) (snd w) k.
Proof. intro H. unfold marks_of. rewrite H. reflexivity. Qed.
Lemma labels_at b w : placed s b w -> forall k x, nth_error (source b) k = Some (ILabel x) -> In x (body_labels (source b)) -> final s (b_lenv b x) = at_mark s (fst w) (snd w) k.
Proof. intros [_ H] k x Hk _. unfold final. rewrite (H k x Hk). reflexivity. Qed.
Lemma source_length b : length (source b) = length (b_body b). Proof. apply frozen_length. Qed.

(** ** Going to a place *)
Lemma arrive_addr a : where_is at_ (arrive prog at_ a) = a /\ proper prog (arrive prog at_ a).
Proof.
  unfold arrive. destruct (find _ _) as [[u k]|] eqn:E; [|split; reflexivity]. apply find_some in E. destruct E as [_ E]. cbn [fst snd] in E.
  apply andb_true_iff in E. destruct E as [E1 E2]. split; [apply Z.eqb_eq, E2|exact E1].
Qed.
Lemma enter_addr u k b : nth_error prog u = Some b -> (k <= length (source b))%nat ->
  where_is at_ (enter prog at_ u k) = at_ u k /\ proper prog (enter prog at_ u k).
Proof.
  intros Hu Hk. destruct (placed_at u b Hu) as (w & Hw & P). unfold enter. rewrite Hu. cbv zeta.
  destruct (skip_body (meaning b) (fun x => target (b_lenv b x)) s (fst w) (snd w) (source b) (proj1 P) (linked_branch _) (labels_at b w P) k Hk) as (k' & -> & _ & Ha & _).
  rewrite !(at_eq u w) by exact Hw. destruct (is_code prog u k') eqn:Hc.
  - split; [|exact Hc]. cbn [where_is]. rewrite (at_eq u w) by exact Hw. exact Ha.
  - rewrite <- Ha. apply arrive_addr.
Qed.
Lemma goto_addr_of l : where_is at_ (goto prog target at_ l) = target l /\ proper prog (goto prog target at_ l).
Proof.
  unfold goto. destruct (find _ _) as [[u k]|] eqn:E; [|apply arrive_addr]. apply find_some in E. destruct E as [_ E]. unfold defines in E. cbn [fst snd] in E.
  destruct (nth_error prog u) as [b|] eqn:Hu; [|discriminate]. unfold stmt in E. rewrite Hu in E. destruct (nth_error (source b) k) as [i|] eqn:Hk; [|discriminate].
  destruct i; try discriminate. apply Nat.eqb_eq in E. subst l.
  assert (Hlt : (k < length (source b))%nat) by (apply nth_error_Some; congruence).
  destruct (enter_addr u k b Hu ltac:(lia)) as [A P]. split; [|exact P]. rewrite A. destruct (placed_at u b Hu) as (w & Hw & Pl).
  rewrite (at_eq u w) by exact Hw. unfold final. rewrite (proj2 Pl k _ Hk). reflexivity.
Qed.

(** ** Steps *)
Section Steps.
Variable mstate : Type.
Variable sem : ins -> Z -> mstate -> option (mstate * ctl).
Hypothesis Hsem : forall x y next st, same_ins x y -> sem x next st = sem y next st.
Lemma pstep_same u k st : is_code prog u k = true ->
  match pstep mstate sem prog target at_ u k st with
  | PGo _ w st' => mstep mstate sem (mem s) (at_ u k) st = Some (where_is at_ w, st') /\ proper prog w
  | PFault _ => mstep mstate sem (mem s) (at_ u k) st = None
  end.
Proof.
  unfold is_code, pstep, stmt. destruct (nth_error prog u) as [b|] eqn:Hu; [|discriminate]. destruct (nth_error (source b) k) as [i|] eqn:Hi; [|discriminate]. intro Hin.
  destruct (placed_at u b Hu) as (w & Hw & P). assert (Hk : (k < length (source b))%nat) by (apply nth_error_Some; congruence). cbv zeta.
  pose proof (stmt_k (meaning b) (fun x => target (b_lenv b x)) s (fst w) (snd w) (source b) (proj1 P) (linked_branch _) (labels_at b w P) k i Hi) as St.
  destruct (mstep_stmt mstate sem Hsem (meaning b) (fun x => target (b_lenv b x)) s (fst w) (snd w) (linked_branch _) i _ _ st Hin St) as (x & D & M).
  change (addr s (fst w) (nth (S k) (snd w) 0)) with (at_mark s (fst w) (snd w) (S k)) in D, M.
  change (addr s (fst w) (nth k (snd w) 0)) with (at_mark s (fst w) (snd w) k) in M. rewrite <- (at_eq u w (S k) Hw) in D, M. rewrite <- (at_eq u w k Hw) in M.
  rewrite D, M. destruct (sem x (at_ u (S k)) st) as [[st' [| |a]]|]; [| | |reflexivity].
  - destruct (enter_addr u (S k) b Hu Hk) as [-> Hp]. split; [reflexivity|exact Hp].
  - destruct (branch_label i) as [l|] eqn:Hl.
    + destruct (goto_addr_of (b_lenv b l)) as [-> Hp]. rewrite (linked_branch _ _ _ _ _ Hl D). split; [do 2 f_equal; lia|exact Hp].
    + destruct (rel_of x) as [d|]; [|reflexivity]. destruct (arrive_addr (at_ u (S k) + d)) as [-> Hp]. split; [reflexivity|exact Hp].
  - destruct (arrive_addr a) as [-> Hp]. split; [reflexivity|exact Hp].
Qed.
Theorem multi_runs : forall n w st, proper prog w -> same_prun mstate sem (mrun mstate sem (mem s)) prog target at_ n w st.
Proof.
  unfold same_prun. induction n as [|n IH]; intros w st Hp; [reflexivity|]. destruct w as [u k|a].
  - cbn [prun where_is]. pose proof (pstep_same u k st Hp) as St. destruct (pstep mstate sem prog target at_ u k st) as [w' st'|].
    + destruct St as [Sm Hw]. specialize (IH w' st' Hw). cbn [mrun]. rewrite Sm. destruct (prun _ _ _ _ _ n w' st') as [w2 st2|j a st2|]; [exact IH| |exact IH].
      destruct IH as [Hj IH]. split; [lia|]. rewrite Nat.sub_succ_l by exact Hj. cbn [mrun]. rewrite Sm. exact IH.
    + cbn [mrun]. rewrite St. reflexivity.
  - cbn [prun where_is]. split; [lia|]. rewrite Nat.sub_diag. reflexivity.
Qed.
End Steps.

(** ** The processor *)
Lemma code_held u k b st : nth_error prog u = Some b -> is_code prog u k = true -> holds (mem s) (at_ u 0%nat) (at_ u (length (b_body b))) st ->
  cpu_step (at_ u k) st = mstep mach x86 (mem s) (at_ u k) st.
Proof.
  unfold is_code, stmt. intros Hu. rewrite Hu. destruct (nth_error (source b) k) as [i|] eqn:Hi; [|discriminate]. intros Hin Hh.
  destruct (placed_at u b Hu) as (w & Hw & P). assert (Hk : (k < length (source b))%nat) by (apply nth_error_Some; congruence).
  rewrite !(at_eq u w) in * by exact Hw. unfold cpu_step.
  pose proof (stmt_k (meaning b) (fun x => target (b_lenv b x)) s (fst w) (snd w) (source b) (proj1 P) (linked_branch _) (labels_at b w P) k i Hi) as St.
  apply (fetch_same (meaning b) (fun x => target (b_lenv b x)) s (fst w) (snd w) (linked_branch _) (mm st) i _ _ st Hin St). intros z Hz. apply Hh.
  pose proof (marks_mono (meaning b) (fun x => target (b_lenv b x)) s (fst w) (snd w) (source b) (proj1 P) (linked_branch _) (labels_at b w P) k 0 ltac:(lia)) as M1.
  pose proof (marks_mono (meaning b) (fun x => target (b_lenv b x)) s (fst w) (snd w) (source b) (proj1 P) (linked_branch _) (labels_at b w P) (length (source b) - S k) (S k) ltac:(lia)) as M2.
  replace (S k + (length (source b) - S k))%nat with (length (source b)) in M2 by lia. cbn [Nat.add] in M1. rewrite source_length in M2. unfold at_mark, addr in *. lia.
Qed.
Theorem multi_cpu : forall n w st, proper prog w -> keeps_blocks (mem s) prog target at_ n w st -> same_prun mach x86 cpu prog target at_ n w st.
Proof.
  unfold same_prun. induction n as [|n IH]; intros w st Hp Hk; [reflexivity|]. destruct w as [u k|a].
  - cbn [prun where_is]. pose proof (pstep_same mach x86 x86_same u k st Hp) as St.
    assert (Hc : cpu_step (at_ u k) st = mstep mach x86 (mem s) (at_ u k) st).
    { pose proof Hp as Hp'. unfold proper, is_code, stmt in Hp'. destruct (nth_error prog u) as [b|] eqn:Hu; [|discriminate].
      apply (code_held u k b st Hu Hp). apply (Hk O (At u k) st u b (Nat.le_0_l _) eq_refl Hu). }
    rewrite <- Hc in St. destruct (pstep mach x86 prog target at_ u k st) as [w' st'|] eqn:Ep.
    + destruct St as [Sm Hw]. specialize (IH w' st' Hw). cbn [cpu]. rewrite Sm.
      assert (Hk' : keeps_blocks (mem s) prog target at_ n w' st').
      { intros j w2 st2 u2 b2 Hj Hr. apply (Hk (S j) w2 st2 u2 b2 ltac:(lia)). cbn [prun]. rewrite Ep. exact Hr. }
      specialize (IH Hk'). destruct (prun _ _ _ _ _ n w' st') as [w2 st2|j a st2|]; [exact IH| |exact IH].
      destruct IH as [Hj IH]. split; [lia|]. rewrite Nat.sub_succ_l by exact Hj. cbn [cpu]. rewrite Sm. exact IH.
    + cbn [cpu]. rewrite St. reflexivity.
  - cbn [prun where_is]. split; [lia|]. rewrite Nat.sub_diag. reflexivity.
Qed.
End Run.

(** ** From the history *)
Theorem program_runs_multi mstate sem ops s0 s4 : (forall x y next st, same_ins x y -> sem x next st = sem y next st) ->
  reached s0 -> forallb api ops = true -> run (ops ++ [OFinalize]) s0 = Some s4 -> bound_once (ops ++ [OFinalize]) s0 -> complete ops s0 s4 ->
  exists ws, Forall2 (placed s4) (blocks ops s0) ws /\
    forall n w st, proper (blocks ops s0) w -> same_prun mstate sem (mrun mstate sem (mem s4)) (blocks ops s0) (final s4) (marks_of s4 ws) n w st.
Proof.
  intros Hsem R Ha E B C. destruct (all_placed ops s0 s4 R Ha E B C) as [ws Fw]. exists ws. split; [exact Fw|]. intros. apply multi_runs; assumption.
Qed.
Theorem program_cpu_multi ops s0 s4 :
  reached s0 -> forallb api ops = true -> run (ops ++ [OFinalize]) s0 = Some s4 -> bound_once (ops ++ [OFinalize]) s0 -> complete ops s0 s4 ->
  exists ws, Forall2 (placed s4) (blocks ops s0) ws /\
    (forall l, label_addr s4 l <> None -> where_is (marks_of s4 ws) (goto (blocks ops s0) (final s4) (marks_of s4 ws) l) = final s4 l /\
       proper (blocks ops s0) (goto (blocks ops s0) (final s4) (marks_of s4 ws) l)) /\
    forall n w st, proper (blocks ops s0) w -> keeps_blocks (mem s4) (blocks ops s0) (final s4) (marks_of s4 ws) n w st ->
      same_prun mach x86 cpu (blocks ops s0) (final s4) (marks_of s4 ws) n w st.
Proof.
  intros R Ha E B C. destruct (all_placed ops s0 s4 R Ha E B C) as [ws Fw]. exists ws. split; [exact Fw|].
  split; [intros l _; apply goto_addr_of; exact Fw|]. intros. apply multi_cpu; assumption.
Qed.
