(** Where the blocks of a history are whose labels may be bound again, and where their references go. *)
From Verif Require Import Base ModelMem ModelEnc ModelSyntax ModelMacro SpecX86 SpecAsm SpecTaken SpecState SpecHist
  Emit MemInv MemStep MemFinal MemHist MemRun MemMisc MemFacts MemPlace ProgOne SpecProg ProgBlock ProgExec SpecMachine SpecScope ScopeFacts ScopeBlock SpecMulti MultiPlace SpecAgain.
Local Notation length := List.length.
Local Open Scope list_scope.
Local Open Scope Z_scope.

(** ** The last definition *)
Lemma last_def_some lenv l : forall body k j, last_def lenv l k body = Some j ->
  exists d x, j = (k + d)%nat /\ nth_error body d = Some (ILabel x) /\ lenv x = l /\
    forall e y, (d < e)%nat -> nth_error body e = Some (ILabel y) -> lenv y <> l.
Proof.
  assert (N : forall body k, last_def lenv l k body = None -> forall e y, nth_error body e = Some (ILabel y) -> lenv y <> l).
  { induction body as [|i b IH]; intros k H e y Hy; [destruct e; discriminate|]. cbn [last_def] in H. destruct (last_def lenv l (S k) b) eqn:E; [discriminate|].
    destruct e as [|e]; [|exact (IH _ E e y Hy)]. cbn [nth_error] in Hy. inversion Hy; subst. destruct (Nat.eqb (lenv y) l) eqn:Q; [discriminate|]. apply Nat.eqb_neq, Q. }
  induction body as [|i b IH]; intros k j H; [discriminate|]. cbn [last_def] in H. destruct (last_def lenv l (S k) b) as [j'|] eqn:E.
  - inversion H; subst. destruct (IH _ _ E) as (d & x & -> & Hx & Hl & Hn). exists (S d), x. split; [lia|]. split; [exact Hx|]. split; [exact Hl|].
    intros [|e] y He Hy; [lia|]. apply (Hn e y); [lia|exact Hy].
  - assert (exists x, i = ILabel x) as [x ->] by (destruct i; try discriminate H; eauto).
    destruct (Nat.eqb (lenv x) l) eqn:Q; [|discriminate]. inversion H; subst. apply Nat.eqb_eq in Q. exists O, x. split; [lia|]. split; [reflexivity|]. split; [exact Q|].
    intros [|e] y He Hy; [lia|]. exact (N b (S j) E e y Hy).
Qed.
Lemma last_def_none lenv l : forall body k, last_def lenv l k body = None -> forall y, In (ILabel y) body -> lenv y <> l.
Proof.
  induction body as [|i b IH]; intros k H y Hy; [elim Hy|]. cbn [last_def] in H. destruct (last_def lenv l (S k) b) eqn:E; [discriminate|].
  destruct Hy as [-> |Hy]; [|exact (IH _ E y Hy)]. destruct (Nat.eqb (lenv y) l) eqn:Q; [discriminate|]. apply Nat.eqb_neq, Q.
Qed.
Lemma last_def_frozen ev lenv l : forall body r k, last_def lenv l k (frozen ev r body) = last_def lenv l k body.
Proof. induction body as [|i b IH]; intros r k; cbn [frozen last_def]; [reflexivity|]. rewrite IH. destruct (last_def lenv l (S k) b); [reflexivity|]. destruct i; reflexivity. Qed.

(** ** References *)
Lemma refers_linked l : forall ops s n d, linked ops s l = option_map fst (refers ops s n d l).
Proof.
  induction ops as [|o ops IH]; intros s n d; [reflexivity|]. cbn [linked refers]. destruct (after o s) as [s'|]; [|reflexivity].
  destruct (if is_finalize o then label_addr s' l else None); [reflexivity|]. apply IH.
Qed.
(** What [d] says is so. *)
Definition kept (s : jit) (d : label -> origin) (bs : list blk) (ws : list place_of) : Prop :=
  forall l u k, d l = ByStmt u k ->
    exists w b x, nth_error ws u = Some w /\ nth_error bs u = Some b /\ loc_of s l = Some (fst w, nth k (snd w) 0) /\ nth_error (source b) k = Some (ILabel x) /\ b_lenv b x = l.
Lemma kept_app s d bs ws bs' ws' : kept s d bs ws -> kept s d (bs ++ bs') (ws ++ ws').
Proof.
  intros K l u k H. destruct (K l u k H) as (w & b & x & Hw & Hb & R). exists w, b, x.
  split; [rewrite nth_error_app1; [exact Hw|apply nth_error_Some; congruence]|]. split; [rewrite nth_error_app1; [exact Hb|apply nth_error_Some; congruence]|exact R].
Qed.
Lemma rebound_not o s n d l u k : rebound o s n d l = ByStmt u k -> ~ binds_label o l -> d l = ByStmt u k /\ (o = OFinalize -> waits s l = false).
Proof.
  destruct o; cbn [rebound binds_label]; intros H Hn; try (split; [exact H|discriminate]);
  try (match type of H with context [Nat.eqb ?x ?y] => destruct (Nat.eqb x y); [discriminate|split; [exact H|discriminate]] end; fail);
  try (destruct (waits s l); [discriminate H|split; [exact H|reflexivity]]; fail).
  - split; [|discriminate]. destruct (last_def lenv l 0 body) as [j|] eqn:E; [|exact H]. destruct (last_def_some _ _ _ _ _ E) as (e & x & _ & Hx & Hl & _).
    elim Hn. exists x. split; [eapply nth_error_In; eauto|exact Hl].
  - split; [|discriminate]. match type of H with match ?c with _ => _ end = _ => destruct c; try exact H end. destruct (Nat.eqb _ l); [discriminate|exact H].
Qed.
Lemma waits_not s l : waits s l = false -> forall q e, In e (waiting s q) -> snd e <> l.
Proof.
  intros H q e He Hl. unfold waits in H. assert (K : existsb (fun q => existsb (fun e => Nat.eqb (snd e) l) (waiting s q)) [P0; P1; P2] = true).
  { apply existsb_exists. exists q. split; [destruct q; cbn [In]; auto|]. apply existsb_exists. exists e. split; [exact He|]. apply Nat.eqb_eq, Hl. }
  congruence.
Qed.
(** A label bound by a statement of an earlier block is not bound by this call. *)
Lemma rebound_old o s n d l u k : rebound o s n d l = ByStmt u k -> (forall ev lenv r body, o = OAsm ev lenv r body -> last_def lenv l 0 body = None \/ exists p s', step o s = Panic p s') -> ~ binds_label o l.
Proof.
  destruct o; cbn [rebound binds_label]; intros H Hn Hb; try exact Hb; try (subst; rewrite Nat.eqb_refl in H; discriminate).
  - destruct Hb as (x & Hx & Hl). destruct (last_def lenv l 0 body) as [j|] eqn:E; [|exact (last_def_none _ _ _ _ E x Hx Hl)].
    destruct (Hn _ _ _ _ eq_refl) as [K|(p & s' & K)]; [congruence|]. rewrite K in H. discriminate.
  - match type of H with match ?c with _ => _ end = _ => destruct c; try exact Hb end. subst. rewrite Nat.eqb_refl in H. discriminate.
Qed.
Lemma kept_step o s s1 n d bs ws : reached s -> api o = true -> after o s = Some s1 -> kept s d bs ws ->
  forall l u k, rebound o s n d l = ByStmt u k -> ~ binds_label o l ->
  exists w b x, nth_error ws u = Some w /\ nth_error bs u = Some b /\ loc_of s1 l = Some (fst w, nth k (snd w) 0) /\ nth_error (source b) k = Some (ILabel x) /\ b_lenv b x = l.
Proof.
  intros R Ha E K l u k H Hn. pose proof (Inv_reached _ R) as I. destruct (rebound_not _ _ _ _ _ _ _ H Hn) as [Hd Hw0].
  destruct (K l u k Hd) as (w & b & x & Hw & Hb & HL & Hr).
  exists w, b, x. split; [exact Hw|]. split; [exact Hb|]. split; [|exact Hr]. rewrite <- HL.
  assert (X : ~ rebinds l o) by (intro X; apply Hn, binds_agree, X). destruct (is_finalize o) eqn:Fo; [|apply (loc_same o s s1); auto].
  assert (o = OFinalize) by (destruct o; try discriminate Fo; reflexivity). apply (loc_step o s s1 l I Ha E); [|exact X].
  apply waiting_fixed; [apply bound_lt, addr_bound; congruence|]. apply waits_not. auto.
Qed.

(** ** One block *)
Lemma one_piece ev lenv r body ops s o s1 s4 n d bs ws : reached s -> step (OAsm ev lenv r body) s = Ok o s1 -> forallb api ops = true -> run ops s1 = Some s4 ->
  kept s d bs ws -> length bs = n -> length ws = n ->
  typed ev r body ->
  let d' := rebound (OAsm ev lenv r body) s n d in let t := refers ops s1 (n + 1) d' in
  (forall x, In x (body_labels body) -> t (lenv x) <> None) ->
  exists w, placed_as s4 (mkPiece (mkBlk ev lenv r body) t) w /\ kept s1 d' (bs ++ [mkBlk ev lenv r body]) (ws ++ [w]).
Proof.
  intros R Es Ha E K Lb Lw T d' t C. assert (E1 : after (OAsm ev lenv r body) s = Some s1) by (unfold after; rewrite Es; reflexivity).
  pose proof Es as Es'. rewrite (block_frozen ev ev lenv r r body s) in Es'. destruct (block_after _ _ _ _ _ _ _ Es') as (gs & r' & Hc & He).
  destruct (block_linked_any ev lenv r (fun x => address t (lenv x)) ops s4 Ha (frozen ev r body) r gs s r' s1 R (same_refl r) (frozen_regular _ _ _ _ _ T) Hc He E) as (marks & L & _ & _ & _ & Hlab).
  { rewrite frozen_labels. intros x Hx. rewrite (refers_linked (lenv x) ops s1 (n + 1) d'). fold t. unfold address. specialize (C x Hx). destruct (t (lenv x)) as [[a y]|]; [reflexivity|congruence]. }
  exists (cur s, marks). split; [exact L|]. intros l u k H. destruct (last_def lenv l 0 body) as [j|] eqn:D.
  - pose proof D as D0. rewrite <- (last_def_frozen ev lenv l body r) in D0. destruct (last_def_some _ _ _ _ _ D0) as (e & x & Hj & Hx & Hl & Hn). cbn [Nat.add] in Hj. subst j.
    unfold d' in H. cbn [rebound] in H. rewrite D, Es in H. inversion H; subst u k l. clear H.
    exists (cur s, marks), (mkBlk ev lenv r body), x.
    rewrite !nth_error_app2 by lia. rewrite Lw, Lb, Nat.sub_diag. cbn [nth_error fst snd]. split; [reflexivity|]. split; [reflexivity|]. split; [|split; [exact Hx|reflexivity]].
    apply (Hlab e x (nth e marks 0) Hx); [|exact Hn].
    apply nth_error_nth'. destruct L as [L0 _]. cbn [snd] in L0. rewrite L0. assert (e < length (frozen ev r body))%nat by (apply nth_error_Some; congruence). lia.
  - assert (Hn : ~ binds_label (OAsm ev lenv r body) l). { apply (rebound_old _ _ _ _ _ _ _ H). intros ev' lenv' r0 body' X. inversion X; subst. left. exact D. }
    destruct (kept_step (OAsm ev lenv r body) s s1 n d bs ws R eq_refl E1 K l u k H Hn) as (w & b & x & Hw & Hb & Hr). exists w, b, x.
    split; [rewrite nth_error_app1; [exact Hw|apply nth_error_Some; congruence]|]. split; [rewrite nth_error_app1; [exact Hb|apply nth_error_Some; congruence]|exact Hr].
Qed.

(** ** Every block *)
Definition lands (s : jit) (bs : list blk) (ws : list place_of) (t : label -> option (Z * origin)) : Prop :=
  forall l a u k, t l = Some (a, ByStmt u k) -> a = marks_of s ws u k /\
    exists b x, nth_error bs u = Some b /\ nth_error (source b) k = Some (ILabel x) /\ b_lenv b x = l.
Lemma kept_addr s s4 d bs ws l a u k : kept s d bs ws -> base s4 = base s -> label_addr s l = Some a -> d l = ByStmt u k ->
  a = marks_of s4 ws u k /\ exists b x, nth_error bs u = Some b /\ nth_error (source b) k = Some (ILabel x) /\ b_lenv b x = l.
Proof.
  intros K B A D. destruct (K l u k D) as (w & b & x & Hw & Hb & HL & Hr). split; [|exists b, x; auto].
  unfold label_addr in A. rewrite HL in A. inversion A. unfold marks_of, mark. rewrite Hw. unfold addr, contents. rewrite B. reflexivity.
Qed.
Lemma all_pieces : forall ops s n d bs ws s4, reached s -> forallb api ops = true -> run ops s = Some s4 -> all_linked (pieces ops s n d) ->
  kept s d bs ws -> length bs = n -> length ws = n ->
  exists ws', Forall2 (placed_as s4) (pieces ops s n d) ws' /\
    lands s4 (bs ++ map p_blk (pieces ops s n d)) (ws ++ ws') (refers ops s n d) /\
    forall p, In p (pieces ops s n d) -> lands s4 (bs ++ map p_blk (pieces ops s n d)) (ws ++ ws') (p_refers p).
Proof.
  induction ops as [|o ops IH]; intros s n d bs ws s4 R Ha E C K Lb Lw.
  { exists []. split; [constructor|]. split; [intros l a u k H; discriminate|]. intros p []. }
  apply run_cons in E. destruct E as (s1 & E1 & E). cbn [forallb] in Ha. apply andb_true_iff in Ha. destruct Ha as [Ha1 Ha].
  assert (R1 : reached s1) by (eapply reached_api; eauto).
  (* the call assembles a block, or not *)
  destruct (made o s) as [|b0 bl] eqn:M.
  - assert (K1 : kept s1 (rebound o s n d) bs ws).
    { intros l u k H. apply (kept_step o s s1 n d bs ws R Ha1 E1 K l u k H). apply (rebound_old _ _ _ _ _ _ _ H). intros ev lenv r body ->. right.
      unfold made in M. destruct (step (OAsm ev lenv r body) s) as [y s'|e s']; [discriminate|eauto]. }
    cbn [pieces] in C |- *. rewrite E1, M in C |- *. cbn [length map app] in C |- *. rewrite Nat.add_0_r in *.
    destruct (IH s1 n (rebound o s n d) bs ws s4 R1 Ha E C K1 Lb Lw) as (ws' & F & G & Hp). exists ws'. split; [exact F|]. split; [|exact Hp].
    intros l a u k H. cbn [refers] in H. rewrite E1, M in H. cbn [length] in H. rewrite Nat.add_0_r in H.
    destruct (is_finalize o) eqn:Fo; [|exact (G l a u k H)]. destruct (label_addr s1 l) as [a'|] eqn:La; [|exact (G l a u k H)]. inversion H; subst a'.
    apply (kept_addr s1 s4 (rebound o s n d)); [apply kept_app, K1|apply (base_run _ _ _ (Inv_reached _ R1) Ha E)|exact La|assumption].
  - unfold made in M. destruct (step o s) as [y s1'|] eqn:Es; [|discriminate]. assert (s1' = s1) by (unfold after in E1; rewrite Es in E1; congruence). subst s1'.
    destruct o; try discriminate M. cbn [block_of] in M. inversion M; subst b0 bl.
    assert (M' : made (OAsm ev lenv r body) s = [mkBlk ev lenv r body]) by (unfold made; rewrite Es; reflexivity).
    cbn [pieces] in C |- *. rewrite E1, M' in C |- *. cbn [length map app] in C |- *.
    destruct (C (mkPiece (mkBlk ev lenv r body) (refers ops s1 (n + 1) (rebound (OAsm ev lenv r body) s n d)))) as [T CL]; [left; reflexivity|]. cbn [p_blk p_refers b_ev b_env b_body b_lenv] in T, CL.
    destruct (one_piece ev lenv r body ops s y s1 s4 n d bs ws R Es Ha E K Lb Lw T) as (w & Pw & K1); [exact CL|].
    destruct (IH s1 (n + 1)%nat (rebound (OAsm ev lenv r body) s n d) (bs ++ [mkBlk ev lenv r body]) (ws ++ [w]) s4 R1 Ha E) as (ws' & F & G & Hp).
    { intros p Hp. apply C. right. exact Hp. }
    { exact K1. } { rewrite app_length. cbn [length]. lia. } { rewrite app_length. cbn [length]. lia. }
    rewrite <- !app_assoc in G, Hp. cbn [app] in G, Hp.
    exists (w :: ws'). split; [constructor; assumption|]. cbn [p_blk]. split.
    + intros l a u k H. cbn [refers is_finalize] in H. rewrite E1, M' in H. exact (G l a u k H).
    + intros p [<-|H]; [exact G|]. exact (Hp p H).
Qed.
