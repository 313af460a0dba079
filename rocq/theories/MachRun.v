(** A program assembled by the model, run by the machine of SpecMachine.v. *)
From Verif Require Import Base ModelMem ModelEnc ModelSyntax ModelMacro SpecX86 SpecAsm SpecTaken SpecState SpecHist
  Emit Trace StateFid MemInv MemStep MemFill MemFinal MemHist MemRun MemMisc MemFacts MemPlace ProgOne SpecProg ProgBlock ProgExec SpecMachine SpecCpu.
Local Notation length := List.length.
Local Open Scope list_scope.
Local Open Scope Z_scope.

(** The two spellings of xchg do the same. *)
Lemma weq_eq a b : weq a b = true -> a = b.
Proof. destruct a, b; intro H; try reflexivity; discriminate H. Qed.
Lemma key_same w x y k : key w x = Some k -> key w y = Some k -> (exists a b, x = OMem a /\ y = OMem b) \/ x = y.
Proof.
  intros Hx Hy. destruct x as [w1 n1|n1| |a| |]; destruct y as [w2 n2|n2| |b| |]; cbn [key] in Hx, Hy; try discriminate; try solve [left; eauto];
    repeat match type of Hx with context [if ?c then _ else _] => destruct c eqn:?; try discriminate end;
    repeat match type of Hy with context [if ?c then _ else _] => destruct c eqn:?; try discriminate end;
    injection Hx as Hx; injection Hy as Hy; try lia.
  - apply andb_true_iff in Heqb, Heqb0. destruct Heqb as [E1 _], Heqb0 as [E2 _]. apply weq_eq in E1, E2. subst. right. f_equal. lia.
  - right. f_equal. lia.
Qed.
Lemma xchg_sym w next x y st : do_xchg w next x y st = do_xchg w next y x st.
Proof.
  unfold do_xchg. destruct (key w x) as [kx|] eqn:Kx; destruct (key w y) as [ky|] eqn:Ky; cbn [obind]; try reflexivity.
  destruct (kx =? ky) eqn:E.
  - apply Z.eqb_eq in E. subst ky. rewrite Z.eqb_refl. destruct (key_same w x y kx Kx Ky) as [(a & b & -> & ->)| ->]; [|reflexivity].
    destruct (get w next st (OMem a)), (get w next st (OMem b)); reflexivity.
  - rewrite Z.eqb_sym, E. destruct (get w next st x) as [a|], (get w next st y) as [b|]; cbn [obind]; try reflexivity.
    apply Z.eqb_neq in E. destruct (kx <? ky) eqn:L; destruct (ky <? kx) eqn:L'; try lia; reflexivity.
Qed.
Lemma x86_same x y next st : same_ins x y -> x86 x next st = x86 y next st.
Proof.
  intros [z|w a b|w]; [reflexivity| |reflexivity]. cbn [x86 i_mnem i_ops i_width]. rewrite xchg_sym. reflexivity.
Qed.

Section Cpu.
Variables (mean : (string -> Z) -> inst -> option ins) (target : string -> Z) (s : jit) (p : pid) (marks : list Z) (body : list inst).
Hypothesis HL : listing mean target s p marks body.
Notation at_ := (at_mark s p marks).
Hypothesis branch_rel : forall i l r x, branch_label i = Some l -> mean r i = Some x -> rel_of x = Some (r l).
Hypothesis HT : forall k x, nth_error body k = Some (ILabel x) -> In x (body_labels body) -> target x = at_ k.

Lemma marks_step k : (k < length body)%nat -> nth k marks 0 <= nth (S k) marks 0.
Proof.
  intro Hk. destruct (nth_error body k) as [i|] eqn:Hi; [|apply nth_error_None in Hi; lia].
  pose proof (stmt_k mean target s p marks body HL branch_rel HT k i Hi) as St. destruct i; cbn [stmt_at] in St; destruct St; lia.
Qed.
Lemma marks_mono : forall d k, (k + d <= length body)%nat -> nth k marks 0 <= nth (k + d) marks 0.
Proof.
  induction d as [|d IH]; intros k H; [rewrite Nat.add_0_r; lia|]. rewrite <- plus_n_Sm in *. specialize (IH k ltac:(lia)). pose proof (marks_step (k + d) ltac:(lia)). lia.
Qed.
(** Only the bytes of the instruction matter. *)
Lemma fetch_same m i a b st : is_instr i = true -> stmt_at mean target s p i a b -> (forall x, addr s p a <= x < addr s p b -> m x = mem s x) ->
  mstep mach x86 m (addr s p a) st = mstep mach x86 (mem s) (addr s p a) st.
Proof.
  intros Hi St Hm. assert (G : a <= b <= a + 15 /\ exists x y, mean (fun l => target l - addr s p b) i = Some x /\ same_ins x y /\
           forall rest, decode (bytes s p a (Z.to_nat (b - a)) ++ rest) = Some (y, rest)) by (destruct i; try discriminate Hi; exact St).
  destruct G as (Hab & x & y & D & S & Hd).
  assert (E : forall m', read m' (addr s p a) 15 = read m' (addr s p a) (Z.to_nat (b - a)) ++ read m' (addr s p b) (15 - Z.to_nat (b - a))).
  { intro m'. replace 15%nat with (Z.to_nat (b - a) + (15 - Z.to_nat (b - a)))%nat at 1 by lia. rewrite read_app. do 2 f_equal. unfold addr. lia. }
  unfold mstep. rewrite !E. rewrite (read_ext m (mem s) (Z.to_nat (b - a))) by (intros z Hz; apply Hm; unfold addr in *; lia).
  change (read (mem s) (addr s p a) (Z.to_nat (b - a))) with (bytes s p a (Z.to_nat (b - a))). rewrite !Hd, !read_length. reflexivity.
Qed.
Notation sstep' := (sstep mach x86 mean target at_ body).
Notation srun' := (srun mach x86 mean target at_ body).
Lemma cpu_step_same k st : (k <= length body)%nat -> holds (mem s) (at_ 0) (at_ (length body)) st ->
  match sstep' k st with
  | Go q st' => cpu_step (at_ k) st = Some (place_addr at_ q, st') /\ inside (length body) q
  | Fault => cpu_step (at_ k) st = None
  | NoCode k' => at_ k' = at_ k
  end.
Proof.
  intros Hk Hh. pose proof (step_same mach x86 x86_same mean target s p marks body HL branch_rel HT k st Hk) as St.
  assert (G : match sstep' k st with NoCode _ => True | _ => cpu_step (at_ k) st = mstep mach x86 (mem s) (at_ k) st end).
  { destruct (skip_body mean target s p marks body HL branch_rel HT k Hk) as (k' & Hs & Hb & Ha & Hn).
    unfold sstep. rewrite Hs. cbv zeta. destruct (nth_error body k') as [i|] eqn:Hi; [|exact Logic.I].
    assert (F : is_instr i = true -> cpu_step (at_ k) st = mstep mach x86 (mem s) (at_ k) st).
    { intro Hin. rewrite <- Ha. unfold cpu_step. assert (k' < length body)%nat by (apply nth_error_Some; congruence).
      apply (fetch_same (mm st) i (nth k' marks 0) (nth (S k') marks 0)); [exact Hin|apply (stmt_k mean target s p marks body HL branch_rel HT); exact Hi|].
      intros z Hz. apply Hh. pose proof (marks_mono k' 0 ltac:(lia)) as M1. pose proof (marks_mono (length body - S k') (S k') ltac:(lia)) as M2.
      replace (S k' + (length body - S k'))%nat with (length body) in M2 by lia. cbn [Nat.add] in M1. unfold at_mark, addr in *. lia. }
    destruct (is_instr i) eqn:Hin; [specialize (F eq_refl)|destruct i; try discriminate Hin; exact Logic.I].
    destruct i; try discriminate Hin; destruct (mean _ _) as [x0|]; try exact Logic.I; destruct (x86 x0 (at_ (S k')) st) as [[? [| |?]]|]; try exact F;
      destruct (branch_label _); try exact F; destruct (rel_of x0); exact F. }
  destruct (sstep' k st); [rewrite G; exact St|rewrite G; exact St|exact St].
Qed.
Lemma cpu_same : forall n q st, inside (length body) q ->
  (forall j q' st', (j <= n)%nat -> srun' j q st = Inside q' st' -> holds (mem s) (at_ 0) (at_ (length body)) st') ->
  match srun' n q st with
  | Inside q' st' => cpu n (place_addr at_ q) st = Some (place_addr at_ q', st')
  | Faulted => cpu n (place_addr at_ q) st = None
  | Gone j a st' => (j <= n)%nat /\ cpu (n - j) (place_addr at_ q) st = Some (a, st')
  end.
Proof.
  induction n as [|n IH]; intros q st Hq Hh; [reflexivity|]. destruct q as [k|a]; cbn [srun place_addr].
  - pose proof (cpu_step_same k st Hq (Hh O _ _ (Nat.le_0_l _) eq_refl)) as St. destruct (sstep' k st) as [q' st'| |k'] eqn:Es.
    + destruct St as [Sm Hi]. specialize (IH q' st' Hi). cbn [cpu]. rewrite Sm.
      assert (Hh' : forall j q2 st2, (j <= n)%nat -> srun' j q' st' = Inside q2 st2 -> holds (mem s) (at_ 0) (at_ (length body)) st2).
      { intros j q2 st2 Hj Hr. apply (Hh (S j) q2 st2); [lia|]. cbn [srun]. rewrite Es. exact Hr. }
      specialize (IH Hh'). destruct (srun' n q' st') as [q2 st2| |j a st2]; [exact IH|exact IH|].
      destruct IH as [Hj IH]. split; [lia|]. rewrite Nat.sub_succ_l by exact Hj. cbn [cpu]. rewrite Sm. exact IH.
    + cbn [cpu]. rewrite St. reflexivity.
    + split; [lia|]. rewrite Nat.sub_diag. cbn [cpu]. rewrite St. reflexivity.
  - split; [lia|]. rewrite Nat.sub_diag. reflexivity.
Qed.
End Cpu.

Lemma program_cpu_any ev lenv r body s o s1 ops s4 target :
  reached s -> Forall (regular ev r) body -> step (OAsm ev lenv r body) s = Ok o s1 -> forallb api ops = true -> run ops s1 = Some s4 ->
  (forall x, In x (body_labels body) -> linked ops s1 (lenv x) = Some (target x)) -> own_labels lenv body s ops ->
  exists marks, listing (as_linked (eval ev r)) target s4 (cur s) marks body /\ hd_error marks = Some (cursor s) /\ last marks 0 = cursor s1 /\
    (forall j x a, nth_error body j = Some (ILabel x) -> linked ops s1 (lenv x) = Some a -> a = addr s4 (cur s) (nth j marks 0)) /\
    forall n k st, (k <= length body)%nat ->
      keeps_code (mem s4) (addr s4 (cur s) (cursor s)) (addr s4 (cur s) (cursor s1)) (as_linked (eval ev r)) target (fun k => addr s4 (cur s) (nth k marks 0)) body n k st ->
      same_cpu (as_linked (eval ev r)) target (fun k => addr s4 (cur s) (nth k marks 0)) body n k st.
Proof.
  intros R Hp Es Ha E HL Ho. destruct (program_marks_any ev lenv r body s o s1 ops s4 target R Hp Es Ha E HL Ho) as (marks & L & Hh & Hl & Hm).
  exists marks. split; [exact L|]. split; [exact Hh|]. split; [exact Hl|]. split; [exact Hm|]. intros n k st Hk Hkeep.
  apply (cpu_same (as_linked (eval ev r)) target s4 (cur s) marks body L (linked_branch _)) with (q := Stmt k); [|exact Hk|].
  - intros j x Hj Hx. eauto.
  - intros j q' st' Hj Hs. pose proof (Hkeep j q' st' Hj Hs) as K.
    assert (E0 : nth 0 marks 0 = cursor s) by (destruct marks; [discriminate Hh|inversion Hh; reflexivity]).
    assert (E1 : nth (length body) marks 0 = cursor s1).
    { rewrite <- Hl. destruct L as [Ln _]. destruct (@exists_last _ marks) as (l' & z & ->); [destruct marks; discriminate|].
      rewrite last_last. rewrite app_length in Ln. cbn [length] in Ln. rewrite app_nth2 by lia. replace (length body - length l')%nat with O by lia. reflexivity. }
    unfold at_mark. rewrite E0, E1. exact K.
Qed.

Lemma program_cpu ev lenv r body s o s1 ops s4 target :
  reached s -> Forall (plain ev r) body -> step (OAsm ev lenv r body) s = Ok o s1 -> forallb api ops = true -> run ops s1 = Some s4 ->
  (forall x, In x (body_labels body) -> linked ops s1 (lenv x) = Some (target x)) -> own_labels lenv body s ops ->
  exists marks, listing (denote (eval ev r)) target s4 (cur s) marks body /\ hd_error marks = Some (cursor s) /\ last marks 0 = cursor s1 /\
    (forall j x a, nth_error body j = Some (ILabel x) -> linked ops s1 (lenv x) = Some a -> a = addr s4 (cur s) (nth j marks 0)) /\
    forall n k st, (k <= length body)%nat ->
      keeps_code (mem s4) (addr s4 (cur s) (cursor s)) (addr s4 (cur s) (cursor s1)) (denote (eval ev r)) target (fun k => addr s4 (cur s) (nth k marks 0)) body n k st ->
      same_cpu (denote (eval ev r)) target (fun k => addr s4 (cur s) (nth k marks 0)) body n k st.
Proof.
  intros R Hp Es Ha E HL Ho. destruct (program_marks ev lenv r body s o s1 ops s4 target R Hp Es Ha E HL Ho) as (marks & L & Hh & Hl & Hm).
  exists marks. split; [exact L|]. split; [exact Hh|]. split; [exact Hl|]. split; [exact Hm|]. intros n k st Hk Hkeep.
  apply (cpu_same (denote (eval ev r)) target s4 (cur s) marks body L (denote_branch _)) with (q := Stmt k); [|exact Hk|].
  - intros j x Hj Hx. eauto.
  - intros j q' st' Hj Hs. pose proof (Hkeep j q' st' Hj Hs) as K.
    assert (E0 : nth 0 marks 0 = cursor s) by (destruct marks; [discriminate Hh|inversion Hh; reflexivity]).
    assert (E1 : nth (length body) marks 0 = cursor s1).
    { rewrite <- Hl. destruct L as [Ln _]. destruct (@exists_last _ marks) as (l' & z & ->); [destruct marks; discriminate|].
      rewrite last_last. rewrite app_length in Ln. cbn [length] in Ln. rewrite app_nth2 by lia. replace (length body - length l')%nat with O by lia. reflexivity. }
    unfold at_mark. rewrite E0, E1. exact K.
Qed.
