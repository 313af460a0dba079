(** The machine on the linked bytes and the interpreter of the source take the same steps. *)
From Verif Require Import Base ModelMem ModelEnc ModelSyntax ModelMacro SpecX86 SpecAsm SpecTaken SpecState SpecHist
  Emit Trace StateFid MemInv MemStep MemFill MemFinal MemHist MemRun MemMisc MemFacts MemPlace ProgOne SpecProg ProgBlock.
Local Notation length := List.length.
Local Open Scope list_scope.
Local Open Scope Z_scope.

(** ** Addresses of defined labels *)
Lemma linked_split : forall ops s l a, linked ops s l = Some a ->
  exists u v s1, ops = u ++ v /\ run u s = Some s1 /\ label_addr s1 l = Some a.
Proof.
  induction ops as [|o ops IH]; intros s l a H; [discriminate|]. cbn [linked] in H. destruct (after o s) as [s1|] eqn:E; [|discriminate].
  destruct (if is_finalize o then label_addr s1 l else None) as [x|] eqn:F.
  - destruct (is_finalize o); [|discriminate]. inversion H; subst. exists [o], ops, s1. split; [reflexivity|]. split; [cbn [run]; rewrite E; reflexivity|exact F].
  - destruct (IH _ _ _ H) as (u & v & s2 & -> & Hr & Hl). exists (o :: u), v, s2. split; [reflexivity|]. split; [cbn [run]; rewrite E; exact Hr|exact Hl].
Qed.
Lemma linked_loc ops s l p m a : Inv s -> forallb api ops = true -> fixed_label s l -> (forall o, In o ops -> ~ binds_label o l) ->
  loc_of s l = Some (p, m) -> linked ops s l = Some a -> a = addr s p m.
Proof.
  intros I Ha Hf Hn Hl H. destruct (linked_split _ _ _ _ H) as (u & v & s1 & -> & Hr & Hx).
  rewrite forallb_app in Ha. apply andb_true_iff in Ha. destruct Ha as [Ha _].
  unfold label_addr in Hx. rewrite (loc_run u s s1 l I Ha Hr Hf) in Hx.
  - rewrite Hl in Hx. inversion Hx. unfold addr, contents. rewrite (base_run _ _ _ I Ha Hr). reflexivity.
  - intros o Ho Hb. apply (Hn o); [apply in_or_app; left; exact Ho|]. apply (proj1 (binds_agree _ _) Hb).
Qed.
Lemma waiting_fixed s l : (l < length (labels s))%nat -> (forall q e, In e (waiting s q) -> snd e <> l) -> fixed_label s l.
Proof.
  intros Hl Hn. split; [exact Hl|]. intro H. unfold queue in H. rewrite !map_app, !in_app_iff, !in_map_iff in H.
  destruct H as [(e & <- & He)|[(e & <- & He)|[(e & <- & He)|(e & <- & He)]]];
    [apply (Hn P0 e He)|apply (Hn P1 e He)|apply (Hn P2 e)|apply (Hn P2 e)]; try reflexivity; cbn [waiting]; rewrite in_app_iff; auto.
Qed.
Lemma defined_app a b : defined (a ++ b) = defined a ++ defined b. Proof. apply flat_map_app. Qed.
Lemma defined_in body k x : nth_error body k = Some (ILabel x) -> In x (defined body).
Proof. intro H. apply nth_error_In in H. unfold defined. apply in_flat_map. exists (ILabel x). split; [exact H|left; reflexivity]. Qed.
Lemma unique_def (lenv : string -> label) body k j x y : NoDup (map lenv (defined body)) -> nth_error body k = Some (ILabel x) -> (k < j)%nat -> nth_error body j = Some (ILabel y) -> lenv y <> lenv x.
Proof.
  intros Hn Hk Hj Hy E. destruct (nth_error_split _ _ Hk) as (u & v & -> & Hu). rewrite nth_error_app2 in Hy by lia.
  replace (j - length u)%nat with (S (j - length u - 1))%nat in Hy by lia. cbn [nth_error] in Hy. apply defined_in in Hy.
  rewrite defined_app, map_app in Hn. apply NoDup_remove_2 with (l := map lenv (defined u)) (l' := map lenv (defined v)) (a := lenv x) in Hn.
  apply Hn. apply in_or_app. right. rewrite <- E. apply in_map, Hy.
Qed.

(** ** Positions *)
Lemma find_label_spec x : forall l k j, find_label x k l = Some j -> exists d, j = (k + d)%nat /\ nth_error l d = Some (ILabel x).
Proof.
  induction l as [|i l IH]; intros k j H; [discriminate|]. cbn [find_label] in H.
  assert (G : find_label x (S k) l = Some j -> exists d, j = (k + d)%nat /\ nth_error (i :: l) d = Some (ILabel x)).
  { intro K. destruct (IH _ _ K) as (d & -> & Hd). exists (S d). split; [lia|exact Hd]. }
  destruct i; try (apply G, H). destruct (String.eqb x ident) eqn:E; [|apply G, H].
  apply String.eqb_eq in E. subst. inversion H; subst. exists O. split; [lia|reflexivity].
Qed.
Lemma goto_addr_addr at_ body a : place_addr at_ (goto_addr at_ body a) = a.
Proof.
  unfold goto_addr. destruct (find _ _) as [k|] eqn:E; [|reflexivity]. apply find_some in E. destruct E as [_ E]. cbn. lia.
Qed.
Definition inside (n : nat) (p : place) : Prop := match p with Stmt k => (k <= n)%nat | Outside _ => True end.
Lemma goto_addr_inside at_ body a : inside (length body) (goto_addr at_ body a).
Proof. unfold goto_addr. destruct (find _ _) as [k|] eqn:E; [|exact Logic.I]. apply find_some in E. destruct E as [E _]. apply in_seq in E. cbn. lia. Qed.

(** The displacement of a branch. *)
Lemma denote_branch val i l r x : branch_label i = Some l -> denote val r i = Some x -> rel_of x = Some (r l).
Proof.
  intros H D. destruct i; try discriminate H; cbn [branch_label] in H; try (destruct d; try discriminate H); inversion H; subst; cbn [denote d_dest] in D; inversion D; reflexivity.
Qed.
Lemma linked_branch val i l r x : branch_label i = Some l -> as_linked val r i = Some x -> rel_of x = Some (r l).
Proof.
  intros H D. destruct i; try discriminate H; cbn [branch_label] in H; try (destruct d; try discriminate H); inversion H; subst;
    unfold as_linked in D; cbn [assembled taken taken_dest denote d_dest slip] in D; inversion D; cbn; f_equal; lia.
Qed.

Section Exec.
Variable mstate : Type.
Variable sem : ins -> Z -> mstate -> option (mstate * ctl).
Hypothesis Hsem : forall x y next st, same_ins x y -> sem x next st = sem y next st.
Variables (mean : (string -> Z) -> inst -> option ins) (target : string -> Z) (s : jit) (p : pid) (marks : list Z) (body : list inst).
Hypothesis HL : listing mean target s p marks body.
Definition at_mark (k : nat) : Z := addr s p (nth k marks 0).
Hypothesis branch_rel : forall i l r x, branch_label i = Some l -> mean r i = Some x -> rel_of x = Some (r l).
Hypothesis HT : forall k x, nth_error body k = Some (ILabel x) -> In x (body_labels body) -> target x = at_mark k.

Lemma mark_nth k : (k <= length body)%nat -> nth_error marks k = Some (nth k marks 0).
Proof. clear HT Hsem branch_rel. intro H. apply nth_error_nth'. destruct HL as [-> _]. lia. Qed.
Lemma stmt_k k i : nth_error body k = Some i -> stmt_at mean target s p i (nth k marks 0) (nth (S k) marks 0).
Proof.
  intro H. assert (k < length body)%nat by (apply nth_error_Some; congruence). destruct HL as [_ G].
  apply (G k i); [exact H|apply mark_nth; lia|apply mark_nth; lia].
Qed.
Lemma skip_spec : forall l k, (forall d, nth_error body (k + d) = nth_error l d) ->
  exists d, skip k l = (k + d)%nat /\ (d <= length l)%nat /\ at_mark (k + d) = at_mark k /\ match nth_error body (k + d) with Some (ILabel _) => False | _ => True end.
Proof.
  induction l as [|i l IH]; intros k H.
  - exists O. cbn [skip]. split; [lia|]. split; [reflexivity|]. rewrite Nat.add_0_r. split; [reflexivity|]. specialize (H O). rewrite Nat.add_0_r in H. rewrite H. exact Logic.I.
  - assert (H0 := H O). rewrite Nat.add_0_r in H0. cbn [nth_error] in H0.
    assert (G : match i with ILabel _ => False | _ => True end -> skip k (i :: l) = k -> exists d, skip k (i :: l) = (k + d)%nat /\ (d <= length (i :: l))%nat /\ at_mark (k + d) = at_mark k /\
                match nth_error body (k + d) with Some (ILabel _) => False | _ => True end).
    { intros Hi Hk. exists O. rewrite Nat.add_0_r. split; [exact Hk|]. split; [lia|]. split; [reflexivity|]. rewrite H0. exact Hi. }
    destruct i; try (apply G; [exact Logic.I|reflexivity]). clear G. cbn [skip].
    destruct (IH (S k)) as (d & E1 & E2 & E3 & E4). { intro d. specialize (H (S d)). rewrite <- plus_n_Sm in H. exact H. }
    exists (S d). rewrite <- plus_n_Sm. split; [exact E1|]. split; [cbn [length]; lia|]. split; [|exact E4].
    change (S (k + d)) with (S k + d)%nat. rewrite E3. pose proof (stmt_k k _ H0) as St. cbn [stmt_at] in St. unfold at_mark. rewrite St. reflexivity.
Qed.
Lemma skip_body k : (k <= length body)%nat -> exists k', skip k (skipn k body) = k' /\ (k <= k' <= length body)%nat /\ at_mark k' = at_mark k /\
  match nth_error body k' with Some (ILabel _) => False | _ => True end.
Proof.
  intro Hk. destruct (skip_spec (skipn k body) k) as (d & A & B & C & D).
  { intro d. rewrite <- (firstn_skipn k body) at 1. rewrite nth_error_app2 by (rewrite firstn_length_le by lia; lia). rewrite firstn_length_le by lia. f_equal. lia. }
  exists (k + d)%nat. rewrite skipn_length in B. split; [exact A|]. split; [lia|]. split; [exact C|exact D].
Qed.
Lemma rel_of_same x y : same_ins x y -> rel_of x = rel_of y.
Proof. intros [z|w a b|w]; [reflexivity|destruct a, b; reflexivity|reflexivity]. Qed.

(** One step of the machine at a statement. *)
Lemma mstep_stmt i a b st : is_instr i = true -> stmt_at mean target s p i a b ->
  exists x, mean (fun l => target l - addr s p b) i = Some x /\
    mstep mstate sem (mem s) (addr s p a) st = match sem x (addr s p b) st with
      | None => None | Some (st', Fall) => Some (addr s p b, st')
      | Some (st', Taken) => match rel_of x with Some d => Some (addr s p b + d, st') | None => None end
      | Some (st', Jump a') => Some (a', st') end.
Proof.
  intros Hi St. assert (G : a <= b <= a + 15 /\ exists x y, mean (fun l => target l - addr s p b) i = Some x /\ same_ins x y /\
           forall rest, decode (bytes s p a (Z.to_nat (b - a)) ++ rest) = Some (y, rest)) by (destruct i; try discriminate Hi; exact St).
  destruct G as (Hab & x & y & D & S & Hd). exists x. split; [exact D|]. unfold mstep.
  assert (E : read (mem s) (addr s p a) 15 = bytes s p a (Z.to_nat (b - a)) ++ read (mem s) (addr s p b) (15 - Z.to_nat (b - a))).
  { unfold bytes. replace 15%nat with (Z.to_nat (b - a) + (15 - Z.to_nat (b - a)))%nat at 1 by lia. rewrite read_app. do 2 f_equal. unfold addr. lia. }
  rewrite E, Hd, read_length. cbv zeta. replace (addr s p a + (15 - Z.of_nat (15 - Z.to_nat (b - a)))) with (addr s p b) by (unfold addr; lia).
  rewrite (Hsem _ _ (addr s p b) st S), (rel_of_same _ _ S). reflexivity.
Qed.
Lemma branch_in i l : branch_label i = Some l -> In l (inst_labels i).
Proof.
  intro H. unfold inst_labels. apply in_or_app. right.
  destruct i; try discriminate H; cbn [branch_label] in H; try (destruct d; try discriminate H); inversion H; left; reflexivity.
Qed.
Lemma goto_label_addr l : In l (body_labels body) -> place_addr at_mark (goto_label target at_mark body l) = target l.
Proof.
  intro Hl. unfold goto_label. destruct (find_label l 0 body) as [k|] eqn:E; [|apply goto_addr_addr].
  destruct (find_label_spec _ _ _ _ E) as (d & -> & Hd). cbn. symmetry. apply HT; assumption.
Qed.
Lemma goto_label_inside l : inside (length body) (goto_label target at_mark body l).
Proof.
  unfold goto_label. destruct (find_label l 0 body) as [k|] eqn:E; [|apply goto_addr_inside].
  destruct (find_label_spec _ _ _ _ E) as (d & -> & Hd). cbn. assert (d < length body)%nat by (apply nth_error_Some; congruence). lia.
Qed.

Notation sstep' := (sstep mstate sem mean target at_mark body).
Notation srun' := (srun mstate sem mean target at_mark body).
Lemma step_same k st : (k <= length body)%nat ->
  match sstep' k st with
  | Go q st' => mstep mstate sem (mem s) (at_mark k) st = Some (place_addr at_mark q, st') /\ inside (length body) q
  | Fault => mstep mstate sem (mem s) (at_mark k) st = None
  | NoCode k' => at_mark k' = at_mark k
  end.
Proof.
  intro Hk. destruct (skip_body k Hk) as (k' & Hs & Hb & Ha & Hn). unfold sstep. rewrite Hs. cbv zeta.
  destruct (nth_error body k') as [i|] eqn:Hi; [|exact Ha]. rewrite <- Ha.
  destruct (is_instr i) eqn:Hin.
  2: { destruct i; try discriminate Hin; try (elim Hn); reflexivity. }
  assert (Hk' : (k' < length body)%nat) by (apply nth_error_Some; congruence).
  destruct (mstep_stmt i _ _ st Hin (stmt_k k' i Hi)) as (x & D & M). fold (at_mark k') (at_mark (S k')) in D, M.
  assert (G : match (match mean (fun l => target l - at_mark (S k')) i with
      | None => NoCode k'
      | Some x =>
          match sem x (at_mark (S k')) st with
          | None => Fault
          | Some (st', Fall) => Go (Stmt (S k')) st'
          | Some (st', Taken) =>
              match branch_label i, rel_of x with
              | Some l, _ => Go (goto_label target at_mark body l) st'
              | None, Some d => Go (goto_addr at_mark body (at_mark (S k') + d)) st'
              | None, None => Fault
              end
          | Some (st', Jump a) => Go (goto_addr at_mark body a) st'
          end
      end) with
    | Go q st' => mstep mstate sem (mem s) (at_mark k') st = Some (place_addr at_mark q, st') /\ inside (length body) q
    | Fault => mstep mstate sem (mem s) (at_mark k') st = None
    | NoCode k2 => at_mark k2 = at_mark k'
    end).
  2: { destruct i; try discriminate Hin; exact G. }
  rewrite D, M. destruct (sem x (at_mark (S k')) st) as [[st' [| |a]]|]; [split; [reflexivity|cbn; lia]| |split; [rewrite goto_addr_addr; reflexivity|apply goto_addr_inside]|reflexivity].
  destruct (branch_label i) as [l|] eqn:Hl.
  - rewrite (branch_rel _ _ _ _ Hl D). split; [|apply goto_label_inside]. rewrite goto_label_addr.
    + do 2 f_equal. lia.
    + unfold body_labels. apply in_flat_map. exists i. split; [apply nth_error_In in Hi; exact Hi|apply branch_in, Hl].
  - destruct (rel_of x) as [d|]; [|reflexivity]. split; [rewrite goto_addr_addr; reflexivity|apply goto_addr_inside].
Qed.
Lemma run_same : forall n q st, inside (length body) q ->
  match srun' n q st with
  | Inside q' st' => mrun mstate sem (mem s) n (place_addr at_mark q) st = Some (place_addr at_mark q', st')
  | Faulted => mrun mstate sem (mem s) n (place_addr at_mark q) st = None
  | Gone j a st' => (j <= n)%nat /\ mrun mstate sem (mem s) (n - j) (place_addr at_mark q) st = Some (a, st')
  end.
Proof.
  induction n as [|n IH]; intros q st Hq; [reflexivity|]. destruct q as [k|a]; cbn [srun place_addr].
  - pose proof (step_same k st Hq) as St. destruct (sstep' k st) as [q' st'| |k'].
    + destruct St as [Sm Hi]. specialize (IH q' st' Hi). cbn [mrun]. rewrite Sm. destruct (srun' n q' st') as [q2 st2| |j a st2]; [exact IH|exact IH|].
      destruct IH as [Hj IH]. split; [lia|]. rewrite Nat.sub_succ_l by exact Hj. cbn [mrun]. rewrite Sm. exact IH.
    + cbn [mrun]. rewrite St. reflexivity.
    + split; [lia|]. rewrite Nat.sub_diag. cbn [mrun]. rewrite St. reflexivity.
  - split; [lia|]. rewrite Nat.sub_diag. reflexivity.
Qed.
End Exec.

(** Where the statements of a block are, and that its labels are bound there. *)
Lemma program_marks_any ev lenv r body s o s1 ops s4 target :
  reached s -> Forall (regular ev r) body -> step (OAsm ev lenv r body) s = Ok o s1 -> forallb api ops = true -> run ops s1 = Some s4 ->
  (forall x, In x (body_labels body) -> linked ops s1 (lenv x) = Some (target x)) -> own_labels lenv body s ops ->
  exists marks, listing (as_linked (eval ev r)) target s4 (cur s) marks body /\ hd_error marks = Some (cursor s) /\ last marks 0 = cursor s1 /\
    forall j x a, nth_error body j = Some (ILabel x) -> linked ops s1 (lenv x) = Some a -> a = at_mark s4 (cur s) marks j.
Proof.
  intros R Hp Es Ha E HL [Hnd Hown]. destruct (block_after _ _ _ _ _ _ _ Es) as (gs & r' & Hc & He).
  destruct (block_linked ev lenv r target ops s4 Ha body r gs s r' s1 R (same_refl r) Hp Hc He E HL) as (marks & L & Hh & Hl & Hcur & Hlab).
  exists marks. split; [exact L|]. split; [exact Hh|]. split; [exact Hl|].
  assert (A : after (OAsm ev lenv r body) s = Some s1) by (eapply after_block; eauto).
  assert (R1 : reached s1) by (apply (reached_run [OAsm ev lenv r body] s); [exact R|reflexivity|cbn [run]; rewrite A; reflexivity]).
  intros j x a Hj Hx. destruct (Hown x (defined_in _ _ _ Hj)) as (Hlt & Hw & Hb). pose proof (waiting_fixed s (lenv x) Hlt Hw) as Hf.
  assert (Hf1 : fixed_label s1 (lenv x)) by (eapply (fixed_step (OAsm ev lenv r body) s s1); eauto using Inv_reached).
  unfold at_mark. replace (addr s4 (cur s) (nth j marks 0)) with (addr s1 (cur s) (nth j marks 0)) by (unfold addr, contents; rewrite (base_run _ _ _ (Inv_reached _ R1) Ha E); reflexivity).
  apply (linked_loc ops s1 (lenv x)); auto using Inv_reached. apply (Hlab j x); auto.
  - destruct L as [Ln _]. apply nth_error_nth'. rewrite Ln. assert (j < length body)%nat by (apply nth_error_Some; congruence). lia.
  - intros j' y Hj' Hy. eapply unique_def; eauto.
Qed.
Lemma program_runs_any mstate sem ev lenv r body s o s1 ops s4 target :
  (forall x y next st, same_ins x y -> sem x next st = sem y next st) ->
  reached s -> Forall (regular ev r) body -> step (OAsm ev lenv r body) s = Ok o s1 -> forallb api ops = true -> run ops s1 = Some s4 ->
  (forall x, In x (body_labels body) -> linked ops s1 (lenv x) = Some (target x)) -> own_labels lenv body s ops ->
  exists marks, listing (as_linked (eval ev r)) target s4 (cur s) marks body /\ hd_error marks = Some (cursor s) /\ last marks 0 = cursor s1 /\
    forall n k st, (k <= length body)%nat ->
      same_run mstate sem (as_linked (eval ev r)) target (fun k => addr s4 (cur s) (nth k marks 0)) body (mem s4) n k st.
Proof.
  intros Hsem R Hp Es Ha E HL Ho. destruct (program_marks_any ev lenv r body s o s1 ops s4 target R Hp Es Ha E HL Ho) as (marks & L & Hh & Hl & Hm).
  exists marks. split; [exact L|]. split; [exact Hh|]. split; [exact Hl|]. intros n k st Hk.
  apply (run_same mstate sem Hsem (as_linked (eval ev r)) target s4 (cur s) marks body L (linked_branch _)) with (q := Stmt k); [|exact Hk]. intros j x Hj Hx. eauto.
Qed.
Lemma block_listing_any ev lenv r body s o s1 ops s4 target :
  reached s -> Forall (regular ev r) body -> step (OAsm ev lenv r body) s = Ok o s1 -> forallb api ops = true -> run ops s1 = Some s4 ->
  (forall x, In x (body_labels body) -> linked ops s1 (lenv x) = Some (target x)) ->
  exists marks, listing (as_linked (eval ev r)) target s4 (cur s) marks body /\ hd_error marks = Some (cursor s) /\ last marks 0 = cursor s1.
Proof.
  intros R Hp Es Ha E HL. destruct (block_after _ _ _ _ _ _ _ Es) as (gs & r' & Hc & He).
  destruct (block_linked ev lenv r target ops s4 Ha body r gs s r' s1 R (same_refl r) Hp Hc He E HL) as (marks & L & Hh & Hl & _). eauto.
Qed.

(** Without the operands that go wrong. *)
Lemma all_regular ev r body : Forall (plain ev r) body -> Forall (regular ev r) body.
Proof. apply Forall_impl. apply plain_regular. Qed.
Lemma program_marks ev lenv r body s o s1 ops s4 target :
  reached s -> Forall (plain ev r) body -> step (OAsm ev lenv r body) s = Ok o s1 -> forallb api ops = true -> run ops s1 = Some s4 ->
  (forall x, In x (body_labels body) -> linked ops s1 (lenv x) = Some (target x)) -> own_labels lenv body s ops ->
  exists marks, listing (denote (eval ev r)) target s4 (cur s) marks body /\ hd_error marks = Some (cursor s) /\ last marks 0 = cursor s1 /\
    forall j x a, nth_error body j = Some (ILabel x) -> linked ops s1 (lenv x) = Some a -> a = at_mark s4 (cur s) marks j.
Proof.
  intros R Hp Es Ha E HL Ho. destruct (program_marks_any ev lenv r body s o s1 ops s4 target R (all_regular _ _ _ Hp) Es Ha E HL Ho) as (marks & L & H).
  exists marks. split; [apply plain_listing; assumption|exact H].
Qed.
Lemma program_runs mstate sem ev lenv r body s o s1 ops s4 target :
  (forall x y next st, same_ins x y -> sem x next st = sem y next st) ->
  reached s -> Forall (plain ev r) body -> step (OAsm ev lenv r body) s = Ok o s1 -> forallb api ops = true -> run ops s1 = Some s4 ->
  (forall x, In x (body_labels body) -> linked ops s1 (lenv x) = Some (target x)) -> own_labels lenv body s ops ->
  exists marks, listing (denote (eval ev r)) target s4 (cur s) marks body /\ hd_error marks = Some (cursor s) /\ last marks 0 = cursor s1 /\
    forall n k st, (k <= length body)%nat ->
      same_run mstate sem (denote (eval ev r)) target (fun k => addr s4 (cur s) (nth k marks 0)) body (mem s4) n k st.
Proof.
  intros Hsem R Hp Es Ha E HL Ho. destruct (program_marks ev lenv r body s o s1 ops s4 target R Hp Es Ha E HL Ho) as (marks & L & Hh & Hl & Hm).
  exists marks. split; [exact L|]. split; [exact Hh|]. split; [exact Hl|]. intros n k st Hk.
  apply (run_same mstate sem Hsem (denote (eval ev r)) target s4 (cur s) marks body L (denote_branch _)) with (q := Stmt k); [|exact Hk]. intros j x Hj Hx. eauto.
Qed.
Lemma block_listing ev lenv r body s o s1 ops s4 target :
  reached s -> Forall (plain ev r) body -> step (OAsm ev lenv r body) s = Ok o s1 -> forallb api ops = true -> run ops s1 = Some s4 ->
  (forall x, In x (body_labels body) -> linked ops s1 (lenv x) = Some (target x)) ->
  exists marks, listing (denote (eval ev r)) target s4 (cur s) marks body /\ hd_error marks = Some (cursor s) /\ last marks 0 = cursor s1.
Proof.
  intros R Hp Es Ha E HL. destruct (block_listing_any ev lenv r body s o s1 ops s4 target R (all_regular _ _ _ Hp) Es Ha E HL) as (marks & L & H).
  exists marks. split; [apply plain_listing; assumption|exact H].
Qed.
