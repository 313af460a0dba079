(** A patched program is its patched source, and a living program runs as its source. *)
From Verif Require Import Base ModelMem ModelEnc ModelSyntax ModelMacro SpecX86 SpecAsm SpecTaken SpecState SpecHist
  Trace Emit StateFid EncFacts EncDec TakenFacts MemInv MemStep MemFinal MemHist MemRun MemMisc MemFacts MemPlace MemCode ProgOne SpecProg ProgBlock ProgExec BlockTaken SpecMachine SpecCpu MachRun SpecScope ScopeFacts ScopeBlock SpecMulti MultiPlace MultiRun SpecLive LiveFacts LivePlace LiveGrow.
Local Notation length := List.length.
Local Open Scope list_scope.
Local Open Scope Z_scope.

(** ** The source of a patched block *)
Lemma jump_op_to y i j : jump_to y i = Some j -> exists op, jump_op i = Some op /\ jump_op j = Some op.
Proof. destruct i; try discriminate; destruct d; try discriminate; cbn; intro H; inversion H; subst; cbn; eauto. Qed.
Lemma frozen_split ev r pre i post : frozen ev r (pre ++ i :: post) =
  frozen ev r pre ++ frozen1 ev (scope_after_all ev r pre) i :: frozen ev (scope_after ev (scope_after_all ev r pre) i) post.
Proof. rewrite frozen_app. reflexivity. Qed.
Lemma frozen_jump ev r i op : jump_op i = Some op -> frozen1 ev r i = i /\ scope_after ev r i = r.
Proof. destruct i; try discriminate; destruct d; try discriminate; intros _; split; reflexivity. Qed.
Lemma frozen_label ev : forall body r k x, nth_error body k = Some (ILabel x) -> nth_error (frozen ev r body) k = Some (ILabel x).
Proof.
  induction body as [|i body IH]; intros r [|k] x H; try discriminate.
  - cbn in H. inversion H; subst. reflexivity.
  - cbn [nth_error frozen] in *. apply IH, H.
Qed.
Lemma nth_changed {A} (F1 F2 : list A) i j n x : nth_error (F1 ++ j :: F2) n = Some x -> (n = length F1 /\ x = j) \/ (n <> length F1 /\ nth_error (F1 ++ i :: F2) n = Some x).
Proof.
  intro H. destruct (Nat.eq_dec n (length F1)) as [->|Hn].
  - left. split; [reflexivity|]. rewrite nth_error_app2 in H by lia. rewrite Nat.sub_diag in H. cbn in H. congruence.
  - right. split; [exact Hn|]. destruct (Nat.lt_ge_cases n (length F1)) as [Hl|Hl].
    + rewrite nth_error_app1 in * by exact Hl. exact H.
    + rewrite nth_error_app2 in * by exact Hl. destruct (n - length F1)%nat as [|m] eqn:E; [lia|]. exact H.
Qed.
Lemma names_changed b pre i j post y x : b_body b = pre ++ i :: post -> jump_to y i = Some j ->
  In x (body_labels (pre ++ j :: post) ++ defined (pre ++ j :: post)) -> x = y \/ In x (names b).
Proof.
  intros Hb Hj Hx. unfold names. rewrite Hb. unfold body_labels, defined in *. rewrite !flat_map_app, !in_app_iff in *. cbn [flat_map] in *. rewrite !in_app_iff in *.
  assert (Lj : inst_labels j = [y]) by (destruct i; try discriminate Hj; destruct d; try discriminate Hj; cbn in Hj; inversion Hj; reflexivity).
  rewrite Lj in Hx. assert (Dj : forall z, ~ In z (match j with ILabel x => [x] | _ => [] end)) by (destruct i; try discriminate Hj; destruct d; try discriminate Hj; cbn in Hj; inversion Hj; subst; cbn; tauto).
  destruct Hx as [[Hx|[Hx|Hx]]|[Hx|[Hx|Hx]]]; try tauto; [destruct Hx as [->|[]]; left; reflexivity|elim (Dj _ Hx)].
Qed.

(** ** The block that is patched, and the others *)
Record patch_of (s s' : jit) (q : pid) (x a : Z) : Prop := mkPatch {
  po_base : base s' = base s;
  po_pages : pages s' = pages s;
  po_labels : labels s' = labels s;
  po_bytes : bytes s' q (x + 1) 4 = le 4 (a - addr s q x - 5);
  po_range : in_i32 (a - addr s q x - 5) = true;
  po_frame : forall y, ~ (addr s q x + 1 <= y < addr s q x + 5) -> mem s' y = mem s y
}.
Lemma po_loc s s' q x a l : patch_of s s' q x a -> loc_of s' l = loc_of s l.
Proof. intro P. unfold loc_of. rewrite (po_labels _ _ _ _ _ P). reflexivity. Qed.
Lemma po_fixed s s' q x a l : patch_of s s' q x a -> fixed_label s l -> fixed_label s' l.
Proof. intros P [H1 H2]. unfold fixed_label, queue in *. rewrite (po_pages _ _ _ _ _ P), (po_labels _ _ _ _ _ P). auto. Qed.
Lemma po_settled s s' q x a p i : patch_of s s' q x a -> settled s p i -> settled s' p i.
Proof.
  intros P [H1 H2]. split; [rewrite (po_pages _ _ _ _ _ P); exact H1|]. intros (l & t & Ht & Hf). apply H2. exists l, t. unfold refs in *.
  rewrite (po_labels _ _ _ _ _ P) in Ht. auto.
Qed.
Lemma po_byte s s' q x a p i : Inv s -> 0 <= x -> x + 5 <= PAGE_SIZE -> patch_of s s' q x a -> 0 <= i < counter (pages s p) -> (p = q -> i <= x \/ x + 5 <= i) -> byte s' p i = byte s p i.
Proof.
  intros I H0 Hx P Hi Hd. unfold byte. rewrite (addr_base s s') by apply (po_base _ _ _ _ _ P). apply (po_frame _ _ _ _ _ P). intro H.
  pose proof (ri_cnt _ (iv_r _ I) p) as Hc. unfold cnt in Hc.
  destruct (addr_inj s p q i (addr s p i - contents s q)) as [-> _]; [lia|unfold addr in *; lia|unfold addr; lia|]. specialize (Hd eq_refl). unfold addr in *. lia.
Qed.
Lemma other_held s s' q x a b w : Inv s -> 0 <= x -> x + 5 <= PAGE_SIZE -> patch_of s s' q x a -> held s b w ->
  (fst w = q -> x + 5 <= nth 0 (snd w) 0 \/ last (snd w) 0 <= x) -> held s' b w.
Proof.
  intros I H0 Hx P H Hd. apply (held_moved s s' b w H); [apply (po_base _ _ _ _ _ P)| | |rewrite (po_pages _ _ _ _ _ P); lia].
  - intros i Hi. pose proof (hl_settled _ _ _ H i Hi) as St. split; [eapply po_settled; eauto|]. eapply po_byte; eauto; [apply St|]. intro E. specialize (Hd E). lia.
  - intros z Hz. split; [eapply po_loc; eauto|]. eapply po_fixed; eauto. apply (hl_bound _ _ _ H), Hz.
Qed.
Lemma patched_held s s' a d b w b' k : Inv s -> held s b w -> retargeted b k d b' -> label_addr s d = Some a -> fixed_label s d ->
  patch_of s s' (fst w) (nth k (snd w) 0) a -> 0 <= nth k (snd w) 0 -> nth k (snd w) 0 + 5 <= PAGE_SIZE -> held s' b' w.
Proof.
  intros I H (y & lenv' & pre & i & j & post & Hb & Hk & Hj & Hy & Hn & ->) Ha Hf P Hx0 Hx.
  destruct (jump_op_to _ _ _ Hj) as (op & Oi & Oj).
  set (F1 := frozen (b_ev b) (b_env b) pre) in *. set (F2 := frozen (b_ev b) (scope_after_all (b_ev b) (b_env b) pre) post) in *.
  assert (S1 : source b = F1 ++ i :: F2).
  { unfold source. rewrite Hb, frozen_split. destruct (frozen_jump (b_ev b) (scope_after_all (b_ev b) (b_env b) pre) i op Oi) as [-> ->]. reflexivity. }
  set (b' := mkBlk (b_ev b) lenv' (b_env b) (pre ++ j :: post)) in *.
  assert (S2 : source b' = F1 ++ j :: F2).
  { unfold source, b'. cbn [b_ev b_env b_body]. rewrite frozen_split. destruct (frozen_jump (b_ev b) (scope_after_all (b_ev b) (b_env b) pre) j op Oj) as [-> ->]. reflexivity. }
  assert (Hk1 : length F1 = k) by (unfold F1; rewrite frozen_length; exact Hk).
  assert (Hki : nth_error (source b) k = Some i) by (rewrite S1, nth_error_app2, Hk1, Nat.sub_diag by lia; reflexivity).
  assert (Hlen : length (source b') = length (source b)) by (rewrite S1, S2, !app_length; reflexivity).
  assert (Hlt : (k < length (source b))%nat) by (apply nth_error_Some; congruence).
  destruct (hl_jump _ _ _ H k i op Hki Oi) as [M5 Bop]. pose proof (held_last _ _ _ H) as La.
  assert (Sub : forall n z, nth_error (source b') n = Some z -> (n = k /\ z = j) \/ (n <> k /\ nth_error (source b) n = Some z)).
  { intros n z Hz. rewrite S2 in Hz. rewrite S1. rewrite <- Hk1. apply nth_changed, Hz. }
  assert (Rg : forall n, (n < length (source b))%nat -> nth 0 (snd w) 0 <= nth n (snd w) 0 /\ nth (S n) (snd w) 0 <= last (snd w) 0).
  { intros n Hn'. rewrite La. split; apply (held_le _ _ _ H); lia. }
  assert (Byte : forall z, nth 0 (snd w) 0 <= z < last (snd w) 0 -> z <= nth k (snd w) 0 \/ nth k (snd w) 0 + 5 <= z -> byte s' (fst w) z = byte s (fst w) z).
  { intros z Hz Ho. eapply po_byte; eauto. apply (hl_settled _ _ _ H), Hz. }
  assert (Nm : forall x, In x (names b') -> label_addr s (lenv' x) <> None /\ fixed_label s (lenv' x)).
  { intros x Hx'. destruct (names_changed b pre i j post y x Hb Hj Hx') as [->|Hx2]; [rewrite Hy, Ha; split; [discriminate|exact Hf]|].
    rewrite (Hn x Hx2). apply (hl_bound _ _ _ H), Hx2. }
  assert (Fin : forall l, label_addr s' l = label_addr s l) by (intro l; apply final_loc; [apply (po_base _ _ _ _ _ P)|eapply po_loc; eauto]).
  constructor.
  - split; [rewrite Hlen; apply (held_len _ _ _ H)|]. intros n z u v Hz Hu Hv. apply (nth_error_nth _ _ 0) in Hu. apply (nth_error_nth _ _ 0) in Hv. subst u v.
    destruct (Sub n z Hz) as [[-> ->]|[Hne Hz']].
    + rewrite M5. set (m := nth k (snd w) 0) in *.
      assert (G : m <= m + 5 <= m + 15 /\ exists x y0, meaning b' (fun l => final s' (lenv' l) - addr s' (fst w) (m + 5)) j = Some x /\ same_ins x y0 /\
         forall rest, decode (bytes s' (fst w) m (Z.to_nat (m + 5 - m)) ++ rest) = Some (y0, rest)).
      { split; [lia|]. set (v := a - addr s (fst w) m - 5).
        assert (By : bytes s' (fst w) m 5 = op :: le 4 v).
        { unfold v. rewrite <- (po_bytes _ _ _ _ _ P). rewrite <- Bop. rewrite <- (Byte m); [|destruct (Rg k Hlt); unfold m in *; lia|left; lia].
          unfold bytes, byte. change (read (mem s') (addr s' (fst w) m) 5) with (mem s' (addr s' (fst w) m) :: read (mem s') (addr s' (fst w) m + 1) 4).
          do 2 f_equal. unfold addr. lia. }
        assert (Ev : final s' (lenv' y) - addr s' (fst w) (m + 5) = v).
        { unfold final. rewrite Fin, Hy, Ha, (addr_base s s') by apply (po_base _ _ _ _ _ P). unfold v, addr. lia. }
        replace (Z.to_nat (m + 5 - m)) with 5%nat by lia. rewrite By.
        destruct i; try discriminate Hj; destruct d0; try discriminate Hj; cbn in Hj, Oi; inversion Hj; inversion Oi; subst j op; eexists; eexists; (split; [|split; [|intro rest; apply decode_branch; [eauto|exact (po_range _ _ _ _ _ P)]]]).
        all: try (unfold meaning, as_linked; cbn [assembled taken taken_dest denote d_dest slip]; rewrite Ev, Z.add_0_r; reflexivity).
        all: apply SpecAsm.same_refl. }
      destruct i; try discriminate Hj; destruct d0; try discriminate Hj; cbn in Hj; inversion Hj; subst j; exact G.
    + assert (Hnl : (n < length (source b))%nat) by (apply nth_error_Some; congruence). destruct (Rg n Hnl) as [R1 R2].
      apply (stmt_moved (b_ev b) (b_env b) (fun x => final s (b_lenv b x)) _ s); [apply (po_base _ _ _ _ _ P)| | |apply (held_at _ _ _ H), Hz'].
      * intros u Hu. apply Byte; [lia|]. destruct (Nat.lt_ge_cases n k) as [Hc|Hc].
        -- left. pose proof (held_le _ _ _ H (S n) k ltac:(lia)). lia.
        -- right. pose proof (held_le _ _ _ H (S k) n ltac:(lia)). lia.
      * intros x Hx'. unfold final. rewrite Fin. cbn [b_lenv b']. rewrite (Hn x); [reflexivity|]. eapply labels_in_names; eauto.
  - intros n x Hz. destruct (Sub n _ Hz) as [[_ Hz']|[_ Hz']]; [subst j; discriminate Oj|]. rewrite (po_loc _ _ _ _ _ _ P). cbn [b_lenv b'].
    rewrite (Hn x) by (eapply defined_in_names; eauto). apply (hl_labels _ _ _ H), Hz'.
  - intros z Hz. eapply po_settled; eauto. apply (hl_settled _ _ _ H), Hz.
  - intros x Hx'. destruct (Nm x Hx') as [A1 A2]. rewrite Fin. split; [exact A1|]. eapply po_fixed; eauto.
  - intros n z op' Hz Ho. destruct (Sub n _ Hz) as [[-> ->]|[Hne Hz']].
    + rewrite Oj in Ho. inversion Ho; subst op'. split; [exact M5|]. rewrite Byte; [exact Bop| |left; lia]. destruct (Rg k Hlt). lia.
    + destruct (hl_jump _ _ _ H n z op' Hz' Ho) as [E5 Eb]. split; [exact E5|]. rewrite <- Eb.
      assert (Hnl : (n < length (source b))%nat) by (apply nth_error_Some; congruence). destruct (Rg n Hnl) as [R1 R2]. apply Byte; [lia|].
      destruct (Nat.lt_ge_cases n k) as [Hc|Hc]; [left; pose proof (held_le _ _ _ H (S n) k ltac:(lia)); lia|right; pose proof (held_le _ _ _ H (S k) n ltac:(lia)); lia].
  - rewrite (po_pages _ _ _ _ _ P). apply (hl_end _ _ _ H).
Qed.

(** ** A patch *)
Lemma point_loc s b w l k : held s b w -> patch_point b l k -> (k < length (source b))%nat -> loc_of s l = Some (fst w, nth k (snd w) 0).
Proof.
  intros H (j & x & Hj & <- & Hlt & Hm) Hk. rewrite (hl_labels _ _ _ H j x (frozen_label _ _ _ _ _ Hj)). do 2 f_equal.
  assert (G : forall n, (j + n < k)%nat -> nth j (snd w) 0 = nth (j + S n) (snd w) 0).
  { induction n as [|n IH]; intro Hn.
    - pose proof (held_at _ _ _ H j _ (frozen_label _ _ (b_env b) _ _ Hj)) as St. cbn [stmt_at] in St. rewrite Nat.add_1_r. symmetry. exact St.
    - rewrite (IH ltac:(lia)). rewrite <- (plus_n_Sm j (S n)). destruct (nth_error (b_body b) (j + S n)) as [i|] eqn:Hi.
      + destruct (Hm (j + S n)%nat i ltac:(lia) Hi) as [z ->]. pose proof (held_at _ _ _ H _ _ (frozen_label _ _ (b_env b) _ _ Hi)) as St. cbn [stmt_at] in St. symmetry. exact St.
      + apply nth_error_None in Hi. unfold source in Hk. rewrite frozen_length in Hk. lia. }
  specialize (G (k - j - 1)%nat ltac:(lia)). replace (j + S (k - j - 1))%nat with k in G by lia. exact G.
Qed.
Lemma retargeted_lt b k d b' : retargeted b k d b' -> (k < length (source b))%nat.
Proof. intros (y & lenv' & pre & i & j & post & Hb & Hk & _). unfold source. rewrite frozen_length, Hb, app_length. cbn [length]. lia. Qed.
Lemma retargeted_jump b k d b' : retargeted b k d b' -> exists i op, nth_error (source b) k = Some i /\ jump_op i = Some op.
Proof.
  intros (y & lenv' & pre & i & j & post & Hb & Hk & Hj & _). destruct (jump_op_to _ _ _ Hj) as (op & Oi & _). exists i, op. split; [|exact Oi].
  unfold source. rewrite Hb, frozen_split. destruct (frozen_jump (b_ev b) (scope_after_all (b_ev b) (b_env b) pre) i op Oi) as [-> _].
  rewrite nth_error_app2; rewrite frozen_length; [|lia]. rewrite Hk, Nat.sub_diag. reflexivity.
Qed.
Lemma patch_step s o l d y s' b w b' k : reached s -> held s b w -> patch_point b l k -> patches s o l d -> step o s = Ok y s' -> retargeted b k d b' ->
  exists a, label_addr s d = Some a /\ patch_of s s' (fst w) (nth k (snd w) 0) a /\ 0 <= nth k (snd w) 0 /\ nth k (snd w) 0 + 5 <= PAGE_SIZE /\
    nth 0 (snd w) 0 <= nth k (snd w) 0 /\ nth k (snd w) 0 + 5 <= last (snd w) 0 /\ reached s'.
Proof.
  intros R H Pp Po E Rt. pose proof (Inv_reached _ R) as I. pose proof (retargeted_lt _ _ _ _ Rt) as Hk. pose proof (point_loc _ _ _ _ _ H Pp Hk) as Hl.
  destruct (retargeted_jump _ _ _ _ Rt) as (i & op & Hi & Ho). destruct (hl_jump _ _ _ H k i op Hi Ho) as [M5 _]. set (m := nth k (snd w) 0) in *.
  assert (Lo : nth 0 (snd w) 0 <= m) by (apply (held_le _ _ _ H); lia).
  assert (Hi5 : m + 5 <= last (snd w) 0) by (rewrite <- M5, (held_last _ _ _ H); apply (held_le _ _ _ H); lia).
  pose proof (ri_cnt _ (iv_r _ I) (fst w)) as Hc. unfold cnt in Hc. pose proof (hl_end _ _ _ H) as He.
  assert (H0 : 0 <= m) by (destruct (hl_settled _ _ _ H m ltac:(lia)); lia).
  assert (Hs : forall z, m + 1 <= z < m + 5 -> settled s (fst w) z) by (intros z Hz; apply (hl_settled _ _ _ H); lia).
  assert (G : apply_jmp_patch_address (addr s (fst w) m) d s = Ok tt s' /\ overwrites o s).
  { destruct Po as [->|(a & Ha & ->)].
    - cbn [step] in E. unfold nolabel, bind in E. destruct (apply_jmp_patch l d s) as [[] s2|] eqn:E2; [|discriminate]. inversion E; subst s2.
      split; [|exists (fst w), m; auto]. unfold apply_jmp_patch, bind in E2. destruct (get_label_address l s) as [a s3|] eqn:E3; [|discriminate].
      destruct (label_address_ok _ _ _ _ E3) as (-> & q & x & Hl2 & ->). rewrite Hl in Hl2. inversion Hl2; subst q x. exact E2.
    - unfold label_addr in Ha. rewrite Hl in Ha. inversion Ha; subst a. cbn [step] in E. unfold nolabel, bind in E.
      destruct (apply_jmp_patch_address (addr s (fst w) m) d s) as [[] s2|] eqn:E2; [|discriminate]. inversion E; subst s2. split; [reflexivity|]. exists (fst w), m. auto. }
  destruct G as [G Ov]. destruct (patched_at s (fst w) m d s' I H0 ltac:(lia) G) as (a & Ha & P1 & P2 & P3 & P4 & P5 & P6). exists a. split; [exact Ha|].
  split; [constructor; assumption|]. repeat (split; [lia|]). apply (reached_over o s s' R Ov). unfold after. rewrite E. reflexivity.
Qed.

(** ** Lists of blocks *)
Lemma ord_app {A} (P : A -> A -> Prop) (a b : list A) : ForallOrdPairs P a -> ForallOrdPairs P b -> Forall (fun x => Forall (P x) b) a -> ForallOrdPairs P (a ++ b).
Proof.
  intros Ha Hb Hab. induction Ha as [|x l Hx Ha IH]; [exact Hb|]. inversion Hab; subst. cbn [app]. constructor; [apply Forall_app; split; assumption|apply IH; assumption].
Qed.
Lemma ord_split {A} (P : A -> A -> Prop) (a b : list A) x : ForallOrdPairs P (a ++ x :: b) -> Forall (fun y => P y x) a /\ Forall (P x) b.
Proof.
  induction a as [|y a IH]; cbn [app]; intro H; inversion H as [|? ? H1 H2]; subst; [split; [constructor|assumption]|].
  destruct (IH H2) as [I1 I2]. split; [|exact I2]. constructor; [|exact I1]. apply Forall_app in H1. destruct H1 as [_ H1]. inversion H1; assumption.
Qed.
Lemma held_end s prog ws : Forall2 (held s) prog ws -> Forall (fun w => last (snd w) 0 <= counter (pages s (fst w))) ws.
Proof. induction 1; constructor; [eapply hl_end; eauto|assumption]. Qed.
Lemma Forall2_forall {A B} (P Q : A -> B -> Prop) (R : B -> Prop) l1 l2 : (forall x y, P x y -> R y -> Q x y) -> Forall2 P l1 l2 -> Forall R l2 -> Forall2 Q l1 l2.
Proof. intros H F. induction F; intro K; inversion K; subst; constructor; auto. Qed.

Lemma Forall2_weaken {A B} (P Q : A -> B -> Prop) l1 l2 : (forall x y, P x y -> Q x y) -> Forall2 P l1 l2 -> Forall2 Q l1 l2.
Proof. intros H F. induction F; constructor; auto. Qed.

(** ** A program that lives *)
Definition settled_labels (s : jit) (prog : list blk) : Prop := prog = [] \/ forall l, (l < length (labels s))%nat -> fixed_label s l.
Record alive (s : jit) (prog : list blk) (ws : list place_of) : Prop := mkAlive {
  al_reached : reached s;
  al_fixed : settled_labels s prog;
  al_held : Forall2 (held s) prog ws;
  al_ord : ForallOrdPairs behind ws
}.
Lemma alive_grow s prog ws ops s' : alive s prog ws -> forallb api ops = true -> run (ops ++ [OFinalize]) s = Some s' ->
  bound_once (ops ++ [OFinalize]) s -> complete ops s s' -> exists vs, alive s' (prog ++ blocks ops s) (ws ++ vs).
Proof.
  intros [R _ H O] Ha E B C. destruct (all_held ops s s' R Ha E B C) as (vs & H' & O' & G). exists vs.
  assert (Ha' : forallb api (ops ++ [OFinalize]) = true) by (rewrite forallb_app, Ha; reflexivity). constructor.
  - apply (reached_run (ops ++ [OFinalize]) s); assumption.
  - right. intros l Hl. destruct (run_app_fin _ _ _ E) as (s3 & E3 & Ef). assert (I3 : Inv s3) by (apply Inv_reached, (reached_run ops s); assumption).
    apply (fin_fixed s3 s' l I3 Ef). rewrite <- (fin_len _ _ I3 Ef). exact Hl.
  - apply Forall2_app; [|exact H']. eapply Forall2_weaken; [|exact H]. intros b w Hb. apply (held_run (ops ++ [OFinalize]) s s' b w Hb (Inv_reached _ R) Ha' E).
    intro l. apply bound_is_once, B.
  - apply ord_app; [exact O|exact O'|]. eapply Forall_impl; [|exact (held_end _ _ _ H)]. intros w Hw. eapply Forall_impl; [|exact G]. cbv beta in *.
    intros v Hv Hp. rewrite <- Hp in Hv. lia.
Qed.
Lemma alive_patch s pre b post ws o l d k y s' b' : alive s (pre ++ b :: post) ws -> patch_point b l k -> patches s o l d -> step o s = Ok y s' -> retargeted b k d b' ->
  alive s' (pre ++ b' :: post) ws.
Proof.
  intros [R Fx H O] Pp Po E Rt. apply Forall2_app_inv_l in H. destruct H as (ws1 & ws2' & H1 & H2 & ->). inversion H2 as [|? w ? ws2 Hb H3]; subst.
  destruct (patch_step s o l d y s' b w b' k R Hb Pp Po E Rt) as (a & Ha & P & B0 & B5 & Lo & Hi & R'). pose proof (Inv_reached _ R) as I.
  destruct (ord_split _ _ _ _ O) as [O1 O2].
  assert (Fl : forall n, (n < length (labels s))%nat -> fixed_label s n) by (destruct Fx as [Fx|Fx]; [destruct pre; discriminate|exact Fx]).
  constructor; [exact R'| | |exact O].
  - right. intros n Hn. rewrite (po_labels _ _ _ _ _ P) in Hn. eapply po_fixed; eauto.
  - apply Forall2_app; [|constructor].
    + apply (Forall2_forall _ _ _ _ _ (fun c v Hc Hv => other_held s s' (fst w) (nth k (snd w) 0) a c v I B0 B5 P Hc Hv) H1).
      eapply Forall_impl; [|exact O1]. intros v Hv Hp. specialize (Hv Hp). right. lia.
    + eapply patched_held; eauto. apply Fl, bound_lt. congruence.
    + apply (Forall2_forall _ _ _ _ _ (fun c v Hc Hv => other_held s s' (fst w) (nth k (snd w) 0) a c v I B0 B5 P Hc Hv) H3).
      eapply Forall_impl; [|exact O2]. intros v Hv Hp. specialize (Hv (eq_sym Hp)). left. lia.
Qed.
Lemma lives_alive s0 s prog : reached s0 -> lives s0 s prog -> exists ws, alive s prog ws.
Proof.
  intros R L. induction L as [|ops s s' prog L IH Ha E B C|o l d k y s s' pre b b' post L IH Pp Po E Rt].
  - exists []. constructor; [exact R|left; reflexivity|constructor|constructor].
  - destruct IH as [ws A]. destruct (alive_grow _ _ _ _ _ A Ha E B C) as [vs A']. eauto.
  - destruct IH as [ws A]. exists ws. eapply alive_patch; eauto.
Qed.
Lemma alive_placed s prog ws : alive s prog ws -> Forall2 (placed s) prog ws.
Proof. intro A. eapply Forall2_weaken; [|apply (al_held _ _ _ A)]. intros. apply held_placed. assumption. Qed.

(** ** What it does *)
Theorem live_runs mstate sem s0 s prog : (forall x y next st, same_ins x y -> sem x next st = sem y next st) -> reached s0 -> lives s0 s prog ->
  exists ws, Forall2 (placed s) prog ws /\ ForallOrdPairs behind ws /\
    forall n w st, proper prog w -> same_prun mstate sem (mrun mstate sem (mem s)) prog (final s) (marks_of s ws) n w st.
Proof.
  intros Hs R L. destruct (lives_alive _ _ _ R L) as [ws A]. exists ws. pose proof (alive_placed _ _ _ A) as F. split; [exact F|]. split; [apply (al_ord _ _ _ A)|].
  intros. apply multi_runs; assumption.
Qed.
Theorem live_cpu s0 s prog : reached s0 -> lives s0 s prog ->
  exists ws, Forall2 (placed s) prog ws /\ ForallOrdPairs behind ws /\
    (forall l, label_addr s l <> None -> where_is (marks_of s ws) (goto prog (final s) (marks_of s ws) l) = final s l /\ proper prog (goto prog (final s) (marks_of s ws) l)) /\
    forall n w st, proper prog w -> keeps_blocks (mem s) prog (final s) (marks_of s ws) n w st -> same_prun mach x86 cpu prog (final s) (marks_of s ws) n w st.
Proof.
  intros R L. destruct (lives_alive _ _ _ R L) as [ws A]. exists ws. pose proof (alive_placed _ _ _ A) as F. split; [exact F|]. split; [apply (al_ord _ _ _ A)|].
  split; [intros l _; apply goto_addr_of; exact F|]. intros. apply multi_cpu; assumption.
Qed.
(** Nothing moves when the program grows or is patched: it can be anywhere in its code meanwhile. *)
Lemma marks_base s s' ws u k : base s' = base s -> marks_of s' ws u k = marks_of s ws u k.
Proof. intro B. unfold marks_of, mark. destruct (nth_error ws u); [apply addr_base, B|reflexivity]. Qed.
Lemma marks_app s prog ws vs u k : Forall2 (placed s) prog ws -> (u < length prog)%nat -> marks_of s (ws ++ vs) u k = marks_of s ws u k.
Proof. intros F Hu. unfold marks_of. rewrite nth_error_app1; [reflexivity|]. assert (Hl : length prog = length ws) by (clear -F; induction F; cbn [List.length]; congruence). rewrite <- Hl. exact Hu. Qed.
Lemma proper_app prog more w : proper prog w -> proper (prog ++ more) w.
Proof.
  destruct w as [u k|a]; [|auto]. unfold proper, is_code, stmt. destruct (nth_error prog u) as [b|] eqn:E; [|discriminate].
  rewrite nth_error_app1 by (apply nth_error_Some; congruence). rewrite E. auto.
Qed.
Lemma proper_patched pre b b' post k d w : retargeted b k d b' -> proper (pre ++ b :: post) w -> proper (pre ++ b' :: post) w.
Proof.
  intros Rt. destruct w as [u n|a]; [|auto]. unfold proper, is_code, stmt.
  destruct (nth_error (pre ++ b :: post) u) as [c|] eqn:E; [|discriminate]. destruct (nth_changed pre post b' b u c E) as [[-> ->]|[_ E']]; [|rewrite E'; auto].
  rewrite nth_error_app2, Nat.sub_diag by lia. cbn [nth_error]. destruct (nth_error (source b) n) as [i|] eqn:Ei; [|discriminate]. intro Hi.
  destruct Rt as (y & lenv' & p1 & i0 & j & p2 & Hb & Hk & Hj & _ & _ & ->). destruct (jump_op_to _ _ _ Hj) as (op & Oi & Oj).
  unfold source in *. cbn [b_ev b_env b_body]. rewrite Hb, frozen_split in Ei. rewrite frozen_split.
  destruct (frozen_jump (b_ev b) (scope_after_all (b_ev b) (b_env b) p1) i0 op Oi) as [E1 E2]. destruct (frozen_jump (b_ev b) (scope_after_all (b_ev b) (b_env b) p1) j op Oj) as [E3 E4].
  rewrite E1, E2 in Ei. rewrite E3, E4. destruct (nth_changed _ _ j i0 n i Ei) as [[-> ->]|[_ Ei']]; [|rewrite Ei'; exact Hi].
  rewrite nth_error_app2, Nat.sub_diag by lia. cbn [nth_error]. destruct j; try discriminate Oj; reflexivity.
Qed.
Theorem live_grows s0 s prog ops s' : reached s0 -> lives s0 s prog -> forallb api ops = true -> run (ops ++ [OFinalize]) s = Some s' ->
  bound_once (ops ++ [OFinalize]) s -> complete ops s s' ->
  exists ws vs, Forall2 (placed s) prog ws /\ Forall2 (placed s') (prog ++ blocks ops s) (ws ++ vs) /\
    (forall w, proper prog w -> proper (prog ++ blocks ops s) w /\ where_is (marks_of s' (ws ++ vs)) w = where_is (marks_of s ws) w).
Proof.
  intros R L Ha E B C. destruct (lives_alive _ _ _ R L) as [ws A]. destruct (alive_grow _ _ _ _ _ A Ha E B C) as [vs A']. exists ws, vs.
  split; [apply alive_placed; assumption|]. split; [apply alive_placed; assumption|]. intros w Hw. split; [apply proper_app, Hw|].
  destruct w as [u k|a]; [|reflexivity]. cbn [where_is]. unfold proper, is_code, stmt in Hw. destruct (nth_error prog u) as [b|] eqn:Eu; [|discriminate].
  rewrite (marks_base s s'); [apply (marks_app s prog); [apply alive_placed; exact A|apply nth_error_Some; congruence]|].
  apply (base_run _ _ _ (Inv_reached _ (al_reached _ _ _ A))) with (2 := E). rewrite forallb_app, Ha. reflexivity.
Qed.
Theorem live_patched s0 s pre b post o l d k y s' b' : reached s0 -> lives s0 s (pre ++ b :: post) -> patch_point b l k -> patches s o l d -> step o s = Ok y s' -> retargeted b k d b' ->
  exists ws, Forall2 (placed s) (pre ++ b :: post) ws /\ Forall2 (placed s') (pre ++ b' :: post) ws /\
    (forall w, proper (pre ++ b :: post) w -> proper (pre ++ b' :: post) w /\ where_is (marks_of s' ws) w = where_is (marks_of s ws) w).
Proof.
  intros R L Pp Po E Rt. destruct (lives_alive _ _ _ R L) as [ws A]. pose proof (alive_patch _ _ _ _ _ _ _ _ _ _ _ _ A Pp Po E Rt) as A'. exists ws.
  split; [apply alive_placed; assumption|]. split; [apply alive_placed; assumption|]. intros w Hw. split; [eapply proper_patched; eauto|].
  destruct w as [u n|a]; [|reflexivity]. cbn [where_is]. apply marks_base.
  pose proof (al_held _ _ _ A) as H. apply Forall2_app_inv_l in H. destruct H as (ws1 & ws2' & H1 & H2 & ->). inversion H2 as [|? v ? ws2 Hb H3]; subst.
  destruct (patch_step s o l d y s' b v b' k (al_reached _ _ _ A) Hb Pp Po E Rt) as (a & _ & P & _). apply (po_base _ _ _ _ _ P).
Qed.
(** Wherever the blocks are, the program runs as its source from there. *)
Theorem placed_runs mstate sem s prog ws : (forall x y next st, same_ins x y -> sem x next st = sem y next st) -> Forall2 (placed s) prog ws ->
  forall n w st, proper prog w -> same_prun mstate sem (mrun mstate sem (mem s)) prog (final s) (marks_of s ws) n w st.
Proof. intros Hs F n w st. apply multi_runs; assumption. Qed.
