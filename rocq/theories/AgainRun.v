(** The machine on the linked blocks and the interpreter of their source take the same steps, though labels are bound again. *)
From Verif Require Import Base ModelMem ModelEnc ModelSyntax ModelMacro SpecX86 SpecAsm SpecTaken SpecState SpecHist
  MemRun SpecProg ProgBlock ProgExec SpecMachine SpecCpu MachRun SpecScope ScopeFacts ScopeBlock SpecMulti MultiPlace SpecAgain AgainPlace.
Local Notation length := List.length.
Local Open Scope list_scope.
Local Open Scope Z_scope.

(** ** Listings (as in ProgExec and MachRun, whatever the addresses of the labels) *)
Section Listing.
Variables (mean : (string -> Z) -> inst -> option ins) (target : string -> Z) (s : jit) (p : pid) (marks : list Z) (body : list inst).
Hypothesis HL : listing mean target s p marks body.
Lemma l_mark k : (k <= length body)%nat -> nth_error marks k = Some (nth k marks 0).
Proof. intro H. apply nth_error_nth'. destruct HL as [-> _]. lia. Qed.
Lemma l_stmt k i : nth_error body k = Some i -> stmt_at mean target s p i (nth k marks 0) (nth (S k) marks 0).
Proof.
  intro H. assert (k < length body)%nat by (apply nth_error_Some; congruence). destruct HL as [_ G].
  apply (G k i); [exact H|apply l_mark; lia|apply l_mark; lia].
Qed.
Lemma l_skip : forall l k, (forall d, nth_error body (k + d) = nth_error l d) ->
  exists d, skip k l = (k + d)%nat /\ (d <= length l)%nat /\ (at_mark s p marks) (k + d) = (at_mark s p marks) k /\ match nth_error body (k + d) with Some (ILabel _) => False | _ => True end.
Proof.
  induction l as [|i l IH]; intros k H.
  - exists O. cbn [skip]. split; [lia|]. split; [reflexivity|]. rewrite Nat.add_0_r. split; [reflexivity|]. specialize (H O). rewrite Nat.add_0_r in H. rewrite H. exact Logic.I.
  - assert (H0 := H O). rewrite Nat.add_0_r in H0. cbn [nth_error] in H0.
    assert (G : match i with ILabel _ => False | _ => True end -> skip k (i :: l) = k -> exists d, skip k (i :: l) = (k + d)%nat /\ (d <= length (i :: l))%nat /\ (at_mark s p marks) (k + d) = (at_mark s p marks) k /\
                match nth_error body (k + d) with Some (ILabel _) => False | _ => True end).
    { intros Hi Hk. exists O. rewrite Nat.add_0_r. split; [exact Hk|]. split; [lia|]. split; [reflexivity|]. rewrite H0. exact Hi. }
    destruct i; try (apply G; [exact Logic.I|reflexivity]). clear G. cbn [skip].
    destruct (IH (S k)) as (d & E1 & E2 & E3 & E4). { intro d. specialize (H (S d)). rewrite <- plus_n_Sm in H. exact H. }
    exists (S d). rewrite <- plus_n_Sm. split; [exact E1|]. split; [cbn [length]; lia|]. split; [|exact E4].
    change (S (k + d)) with (S k + d)%nat. rewrite E3. pose proof (l_stmt k _ H0) as St. cbn [stmt_at] in St. unfold at_mark. rewrite St. reflexivity.
Qed.
Lemma l_enter k : (k <= length body)%nat -> exists k', skip k (skipn k body) = k' /\ (k <= k' <= length body)%nat /\ (at_mark s p marks) k' = (at_mark s p marks) k /\
  match nth_error body k' with Some (ILabel _) => False | _ => True end.
Proof.
  intro Hk. destruct (l_skip (skipn k body) k) as (d & A & B & C & D).
  { intro d. rewrite <- (firstn_skipn k body) at 1. rewrite nth_error_app2 by (rewrite firstn_length_le by lia; lia). rewrite firstn_length_le by lia. f_equal. lia. }
  exists (k + d)%nat. rewrite skipn_length in B. split; [exact A|]. split; [lia|]. split; [exact C|exact D].
Qed.
Lemma l_step k : (k < length body)%nat -> nth k marks 0 <= nth (S k) marks 0.
Proof.
  intro Hk. destruct (nth_error body k) as [i|] eqn:Hi; [|apply nth_error_None in Hi; lia].
  pose proof (l_stmt k i Hi) as St. destruct i; cbn [stmt_at] in St; destruct St; lia.
Qed.
Lemma l_mono : forall d k, (k + d <= length body)%nat -> nth k marks 0 <= nth (k + d) marks 0.
Proof.
  induction d as [|d IH]; intros k H; [rewrite Nat.add_0_r; lia|]. rewrite <- plus_n_Sm in *. specialize (IH k ltac:(lia)). pose proof (l_step (k + d) ltac:(lia)). lia.
Qed.
End Listing.

Section Run.
Variables (s : jit) (ps : list piece) (ws : list place_of).
Hypothesis F : Forall2 (placed_as s) ps ws.
Hypothesis G : forall p, In p ps -> lands s (prog ps) ws (p_refers p).
Notation at_ := (marks_of s ws).
Notation pr := (prog ps).
Notation tgt p := (fun x => address (p_refers p) (b_lenv (p_blk p) x)).

Lemma piece_blk u b : nth_error pr u = Some b -> exists p, nth_error ps u = Some p /\ p_blk p = b.
Proof. unfold prog. rewrite nth_error_map. destruct (nth_error ps u) as [p|]; [|discriminate]. cbn. intro H. inversion H. exists p. auto. Qed.
Lemma blk_piece u p : nth_error ps u = Some p -> nth_error pr u = Some (p_blk p).
Proof. intro H. unfold prog. rewrite nth_error_map, H. reflexivity. Qed.
Lemma placed_at u p : nth_error ps u = Some p -> exists w, nth_error ws u = Some w /\ placed_as s p w.
Proof.
  revert u. clear -F; induction F as [|x y l l' H K IH]; intros [|u] Hu; try discriminate.
  - inversion Hu; subst. exists y. auto.
  - exact (IH K u Hu).
Qed.
Lemma at_eq u w k : nth_error ws u = Some w -> at_ u k = at_mark s (fst w) (snd w) k.
Proof. intro H. unfold marks_of. rewrite H. reflexivity. Qed.
Lemma source_length b : length (source b) = length (b_body b). Proof. apply frozen_length. Qed.

(** ** Going to a place *)
Lemma arrive_addr a : where_is at_ (arrive pr at_ a) = a /\ proper pr (arrive pr at_ a).
Proof.
  unfold arrive. destruct (find _ _) as [[u k]|] eqn:E; [|split; reflexivity]. apply find_some in E. destruct E as [_ E]. cbn [fst snd] in E.
  apply andb_true_iff in E. destruct E as [E1 E2]. split; [apply Z.eqb_eq, E2|exact E1].
Qed.
Lemma enter_addr u k b : nth_error pr u = Some b -> (k <= length (source b))%nat ->
  where_is at_ (enter pr at_ u k) = at_ u k /\ proper pr (enter pr at_ u k).
Proof.
  intros Hu Hk. destruct (piece_blk u b Hu) as (p & Hp & <-). destruct (placed_at u p Hp) as (w & Hw & P). unfold enter. rewrite Hu. cbv zeta.
  destruct (l_enter (meaning (p_blk p)) (tgt p) s (fst w) (snd w) (source (p_blk p)) P k Hk) as (k' & -> & _ & Ha & _).
  rewrite !(at_eq u w) by exact Hw. destruct (is_code pr u k') eqn:Hc.
  - split; [|exact Hc]. cbn [where_is]. rewrite (at_eq u w) by exact Hw. exact Ha.
  - rewrite <- Ha. apply arrive_addr.
Qed.
Lemma follow_addr p l : In p ps -> where_is at_ (follow ps at_ p l) = address (p_refers p) l /\ proper pr (follow ps at_ p l).
Proof.
  intro Hp. unfold follow, address. destruct (p_refers p l) as [[a [u k|]]|] eqn:E; [|apply arrive_addr|split; reflexivity].
  destruct (G p Hp l a u k E) as [-> (b & x & Hb & Hx & _)]. apply (enter_addr u k b Hb). assert (k < length (source b))%nat by (apply nth_error_Some; congruence). lia.
Qed.

(** ** Steps *)
Section Steps.
Variable mstate : Type.
Variable sem : ins -> Z -> mstate -> option (mstate * ctl).
Hypothesis Hsem : forall x y next st, same_ins x y -> sem x next st = sem y next st.
Lemma astep_same u k st : is_code pr u k = true ->
  match astep mstate sem ps at_ u k st with
  | PGo _ w st' => mstep mstate sem (mem s) (at_ u k) st = Some (where_is at_ w, st') /\ proper pr w
  | PFault _ => mstep mstate sem (mem s) (at_ u k) st = None
  end.
Proof.
  unfold is_code, astep, stmt. destruct (nth_error pr u) as [b|] eqn:Hu; [|discriminate]. destruct (piece_blk u b Hu) as (p & Hp0 & <-). rewrite Hp0. destruct (nth_error (source (p_blk p)) k) as [i|] eqn:Hi; [|discriminate]. intro Hin.
  destruct (placed_at u p Hp0) as (w & Hw & P). assert (Hk : (k < length (source (p_blk p)))%nat) by (apply nth_error_Some; congruence). cbv zeta.
  pose proof (l_stmt (meaning (p_blk p)) (tgt p) s (fst w) (snd w) (source (p_blk p)) P k i Hi) as St.
  destruct (mstep_stmt mstate sem Hsem (meaning (p_blk p)) (tgt p) s (fst w) (snd w) (linked_branch _) i _ _ st Hin St) as (x & D & M).
  change (addr s (fst w) (nth (S k) (snd w) 0)) with (at_mark s (fst w) (snd w) (S k)) in D, M.
  change (addr s (fst w) (nth k (snd w) 0)) with (at_mark s (fst w) (snd w) k) in M. rewrite <- (at_eq u w (S k) Hw) in D, M. rewrite <- (at_eq u w k Hw) in M.
  rewrite D, M. destruct (sem x (at_ u (S k)) st) as [[st' [| |a]]|]; [| | |reflexivity].
  - destruct (enter_addr u (S k) (p_blk p) Hu Hk) as [-> Hp]. split; [reflexivity|exact Hp].
  - destruct (branch_label i) as [l|] eqn:Hl.
    + destruct (follow_addr p (b_lenv (p_blk p) l) (nth_error_In _ _ Hp0)) as [-> Hp]. rewrite (linked_branch _ _ _ _ _ Hl D). split; [do 2 f_equal; lia|exact Hp].
    + destruct (rel_of x) as [d|]; [|reflexivity]. destruct (arrive_addr (at_ u (S k) + d)) as [-> Hp]. split; [reflexivity|exact Hp].
  - destruct (arrive_addr a) as [-> Hp]. split; [reflexivity|exact Hp].
Qed.
Theorem again_runs : forall n w st, proper pr w -> same_arun mstate sem (mrun mstate sem (mem s)) ps at_ n w st.
Proof.
  unfold same_arun. induction n as [|n IH]; intros w st Hp; [reflexivity|]. destruct w as [u k|a].
  - cbn [arun where_is]. pose proof (astep_same u k st Hp) as St. destruct (astep mstate sem ps at_ u k st) as [w' st'|].
    + destruct St as [Sm Hw]. specialize (IH w' st' Hw). cbn [mrun]. rewrite Sm. destruct (arun _ _ _ _ n w' st') as [w2 st2|j a st2|]; [exact IH| |exact IH].
      destruct IH as [Hj IH]. split; [lia|]. rewrite Nat.sub_succ_l by exact Hj. cbn [mrun]. rewrite Sm. exact IH.
    + cbn [mrun]. rewrite St. reflexivity.
  - cbn [arun where_is]. split; [lia|]. rewrite Nat.sub_diag. reflexivity.
Qed.
End Steps.

(** ** The processor *)
Lemma code_held u k p st : nth_error ps u = Some p -> is_code pr u k = true -> holds (mem s) (at_ u 0%nat) (at_ u (length (b_body (p_blk p)))) st ->
  cpu_step (at_ u k) st = mstep mach x86 (mem s) (at_ u k) st.
Proof.
  unfold is_code, stmt. intros Hp0. rewrite (blk_piece u p Hp0). destruct (nth_error (source (p_blk p)) k) as [i|] eqn:Hi; [|discriminate]. intros Hin Hh.
  destruct (placed_at u p Hp0) as (w & Hw & P). assert (Hk : (k < length (source (p_blk p)))%nat) by (apply nth_error_Some; congruence).
  rewrite !(at_eq u w) in * by exact Hw. unfold cpu_step.
  pose proof (l_stmt (meaning (p_blk p)) (tgt p) s (fst w) (snd w) (source (p_blk p)) P k i Hi) as St.
  apply (fetch_same (meaning (p_blk p)) (tgt p) s (fst w) (snd w) (linked_branch _) (mm st) i _ _ st Hin St). intros z Hz. apply Hh.
  pose proof (l_mono (meaning (p_blk p)) (tgt p) s (fst w) (snd w) (source (p_blk p)) P k 0 ltac:(lia)) as M1.
  pose proof (l_mono (meaning (p_blk p)) (tgt p) s (fst w) (snd w) (source (p_blk p)) P (length (source (p_blk p)) - S k) (S k) ltac:(lia)) as M2.
  replace (S k + (length (source (p_blk p)) - S k))%nat with (length (source (p_blk p))) in M2 by lia. cbn [Nat.add] in M1. rewrite source_length in M2. unfold at_mark, addr in *. lia.
Qed.
Theorem again_cpu : forall n w st, proper pr w -> keeps_pieces (mem s) ps at_ n w st -> same_arun mach x86 cpu ps at_ n w st.
Proof.
  unfold same_arun. induction n as [|n IH]; intros w st Hp Hk; [reflexivity|]. destruct w as [u k|a].
  - cbn [arun where_is]. pose proof (astep_same mach x86 x86_same u k st Hp) as St.
    assert (Hc : cpu_step (at_ u k) st = mstep mach x86 (mem s) (at_ u k) st).
    { pose proof Hp as Hp'. unfold proper, is_code, stmt in Hp'. destruct (nth_error pr u) as [b|] eqn:Hu; [|discriminate].
      destruct (piece_blk u b Hu) as (p & Hp0 & <-). apply (code_held u k p st Hp0 Hp). apply (Hk O (At u k) st u p (Nat.le_0_l _) eq_refl Hp0). }
    rewrite <- Hc in St. destruct (astep mach x86 ps at_ u k st) as [w' st'|] eqn:Ep.
    + destruct St as [Sm Hw]. specialize (IH w' st' Hw). cbn [cpu]. rewrite Sm.
      assert (Hk' : keeps_pieces (mem s) ps at_ n w' st').
      { intros j w2 st2 u2 b2 Hj Hr. apply (Hk (S j) w2 st2 u2 b2 ltac:(lia)). cbn [arun]. rewrite Ep. exact Hr. }
      specialize (IH Hk'). destruct (arun _ _ _ _ n w' st') as [w2 st2|j a st2|]; [exact IH| |exact IH].
      destruct IH as [Hj IH]. split; [lia|]. rewrite Nat.sub_succ_l by exact Hj. cbn [cpu]. rewrite Sm. exact IH.
    + cbn [cpu]. rewrite St. reflexivity.
  - cbn [arun where_is]. split; [lia|]. rewrite Nat.sub_diag. reflexivity.
Qed.
End Run.

(** ** From the history *)
Theorem places_again ops s0 s4 : reached s0 -> forallb api ops = true -> run ops s0 = Some s4 -> all_linked (program ops s0) ->
  exists ws, Forall2 (placed_as s4) (program ops s0) ws /\ forall p, In p (program ops s0) -> lands s4 (prog (program ops s0)) ws (p_refers p).
Proof.
  intros R Ha E C. destruct (all_pieces ops s0 0 (fun _ => Otherwise) [] [] s4 R Ha E C) as (ws & F & _ & H); [intros l u k X; discriminate|reflexivity|reflexivity|].
  exists ws. split; [exact F|exact H].
Qed.
Theorem program_runs_again mstate sem ops s0 s4 : (forall x y next st, same_ins x y -> sem x next st = sem y next st) ->
  reached s0 -> forallb api ops = true -> run ops s0 = Some s4 -> all_linked (program ops s0) ->
  exists ws, Forall2 (placed_as s4) (program ops s0) ws /\
    forall n w st, proper (prog (program ops s0)) w -> same_arun mstate sem (mrun mstate sem (mem s4)) (program ops s0) (marks_of s4 ws) n w st.
Proof.
  intros Hsem R Ha E C. destruct (places_again ops s0 s4 R Ha E C) as (ws & F & H). exists ws. split; [exact F|]. intros. apply again_runs; assumption.
Qed.
Theorem program_cpu_again ops s0 s4 :
  reached s0 -> forallb api ops = true -> run ops s0 = Some s4 -> all_linked (program ops s0) ->
  exists ws, Forall2 (placed_as s4) (program ops s0) ws /\
    (forall p l a u k, In p (program ops s0) -> p_refers p l = Some (a, ByStmt u k) ->
       a = marks_of s4 ws u k /\ exists b x, nth_error (prog (program ops s0)) u = Some b /\ stmt (prog (program ops s0)) u k = Some (ILabel x) /\ b_lenv b x = l) /\
    forall n w st, proper (prog (program ops s0)) w -> keeps_pieces (mem s4) (program ops s0) (marks_of s4 ws) n w st ->
      same_arun mach x86 cpu (program ops s0) (marks_of s4 ws) n w st.
Proof.
  intros R Ha E C. destruct (places_again ops s0 s4 R Ha E C) as (ws & F & H). exists ws. split; [exact F|]. split; [|intros; apply again_cpu; assumption].
  intros p l a u k Hp Hl. destruct (H p Hp l a u k Hl) as [Ea (b & x & Hb & Hx & Hd)]. split; [exact Ea|]. exists b, x. split; [exact Hb|]. split; [|exact Hd].
  unfold stmt. rewrite Hb. exact Hx.
Qed.

(** ** Labels of a block that is finalized next *)
Lemma pieces_split : forall pre s n d rest s', run pre s = Some s' -> exists l d', pieces (pre ++ rest) s n d = l ++ pieces rest s' (n + length l) d'.
Proof.
  induction pre as [|o pre IH]; intros s n d rest s' E.
  - cbn [run] in E. inversion E; subst. exists [], d. cbn [app length]. rewrite Nat.add_0_r. reflexivity.
  - apply run_cons in E. destruct E as (s1 & E1 & E). cbn [app pieces]. rewrite E1.
    destruct (IH s1 (n + length (made o s))%nat (rebound o s n d) rest s' E) as (l & d' & ->). rewrite app_assoc.
    exists (map (fun b => mkPiece b (refers (pre ++ rest) s1 (n + length (made o s)) (rebound o s n d))) (made o s) ++ l), d'.
    rewrite app_length, map_length, Nat.add_assoc. reflexivity.
Qed.
Lemma fixed_waits s l : fixed_label s l -> waits s l = false.
Proof.
  intros [_ Hq]. destruct (waits s l) eqn:W; [|reflexivity]. elim Hq. unfold waits in W. apply existsb_exists in W. destruct W as (q & _ & W).
  apply existsb_exists in W. destruct W as (e & He & Hl). apply Nat.eqb_eq in Hl. subst l. unfold MemHist.queue. apply in_map. rewrite !in_app_iff.
  destruct q; cbn [waiting] in He; [auto|auto|]. apply in_app_or in He. tauto.
Qed.
Theorem own_label ops s0 s4 pre ev lenv r body rest s : reached s0 -> forallb api ops = true -> run ops s0 = Some s4 -> all_linked (program ops s0) ->
  ops = pre ++ OAsm ev lenv r body :: OFinalize :: rest -> run pre s0 = Some s -> (exists y s1, step (OAsm ev lenv r body) s = Ok y s1) ->
  exists u p, nth_error (program ops s0) u = Some p /\ p_blk p = mkBlk ev lenv r body /\
    forall x, In (ILabel x) body -> waits s (lenv x) = false -> exists a k y, p_refers p (lenv x) = Some (a, ByStmt u k) /\ nth_error body k = Some (ILabel y) /\ lenv y = lenv x /\
      forall j z, (k < j)%nat -> nth_error body j = Some (ILabel z) -> lenv z <> lenv x.
Proof.
  intros R Ha E C -> Hr (y & s1 & Es). unfold program in *.
  destruct (pieces_split pre s0 0 (fun _ => Otherwise) (OAsm ev lenv r body :: OFinalize :: rest) s Hr) as (l & d & Hp). rewrite Hp in C |- *. cbn [Nat.add] in *.
  assert (E1 : after (OAsm ev lenv r body) s = Some s1) by (unfold after; rewrite Es; reflexivity).
  assert (M : made (OAsm ev lenv r body) s = [mkBlk ev lenv r body]) by (unfold made; rewrite Es; reflexivity).
  rewrite forallb_app in Ha. apply andb_true_iff in Ha. destruct Ha as [Ha0 Ha]. cbn [forallb api andb] in Ha.
  pose proof (reached_run pre s0 s R Ha0 Hr) as Rs.
  apply run_app in E. destruct E as (s' & Hr' & E). assert (s' = s) by congruence. subst s'. clear Hr'.
  apply run_cons in E. destruct E as (s1' & E1' & E). assert (s1' = s1) by congruence. subst s1'. clear E1'.
  pose proof (reached_api (OAsm ev lenv r body) s s1 Rs eq_refl E1) as R1.
  set (d' := rebound (OAsm ev lenv r body) s (length l) d) in *. set (t := refers (OFinalize :: rest) s1 (length l + 1) d').
  assert (Hin : In (mkPiece (mkBlk ev lenv r body) t) (pieces (OAsm ev lenv r body :: OFinalize :: rest) s (length l) d)).
  { cbn [pieces]. rewrite E1, M. left. reflexivity. }
  destruct (C _ (in_or_app _ _ _ (or_intror Hin))) as [T CL]. cbn [p_blk p_refers b_ev b_env b_body b_lenv] in T, CL.
  exists (length l), (mkPiece (mkBlk ev lenv r body) t). split; [|split; [reflexivity|]].
  { rewrite nth_error_app2 by lia. rewrite Nat.sub_diag. cbn [pieces]. rewrite E1, M. reflexivity. }
  intros x Hx Hwait.
  destruct (one_piece ev lenv r body (OFinalize :: rest) s y s1 s4 0 (fun _ => Otherwise) [] [] Rs Es) as (w & _ & K); [exact Ha|exact E|intros l0 u k X; discriminate|reflexivity|reflexivity|exact T| |].
  { intros z Hz. specialize (CL z Hz). intro N. apply CL. pose proof (refers_linked (lenv z) (OFinalize :: rest) s1 (length l + 1) d') as Q1.
    pose proof (refers_linked (lenv z) (OFinalize :: rest) s1 (0 + 1) (rebound (OAsm ev lenv r body) s 0 (fun _ => Otherwise))) as Q2. rewrite N in Q2. fold t in Q1. rewrite Q2 in Q1.
    destruct (t (lenv z)); [discriminate|reflexivity]. }
  destruct (last_def lenv (lenv x) 0 body) as [k|] eqn:D; [|elim (last_def_none _ _ _ _ D x Hx eq_refl)].
  destruct (last_def_some _ _ _ _ _ D) as (e & z & He & Hz & Hl & Hn). cbn [Nat.add] in He. subst e.
  destruct (K (lenv x) 0%nat k) as (w' & b' & x' & _ & _ & HL & _). { cbn [rebound]. rewrite D, Es. reflexivity. }
  apply run_cons in E. destruct E as (s2 & E2 & E).
  assert (Hf : fixed_label s1 (lenv x)).
  { apply (fixed_step (OAsm ev lenv r body) s s1 (lenv x) (Inv_reached _ Rs) eq_refl E1). apply waiting_fixed; [|apply waits_not, Hwait].
    apply (frozen_exists ev lenv r body s y s1 T Es), in_defined, Hx. }
  assert (Nw : waits s1 (lenv x) = false).
  { apply fixed_waits, Hf. }
  assert (L2 : loc_of s2 (lenv x) = loc_of s1 (lenv x)) by (apply (loc_step OFinalize s1 s2 (lenv x) (Inv_reached _ R1) eq_refl E2 Hf); intro X; exact X).
  exists (addr s2 (fst w') (nth k (snd w') 0)), k, z. split; [|split; [exact Hz|split; [exact Hl|exact Hn]]].
  cbn [p_refers]. unfold t. cbn [refers is_finalize]. rewrite E2. unfold label_addr. rewrite L2, HL. f_equal. f_equal. unfold d'. cbn [rebound]. rewrite Nw, D, Es. reflexivity.
Qed.
