(** Blocks that stay where they are while the program grows, and blocks that are patched. *)
From Verif Require Import Base ModelMem ModelEnc ModelSyntax ModelMacro SpecX86 SpecAsm SpecTaken SpecState SpecHist
  Trace Emit StateFid EncFacts TakenFacts MemInv MemStep MemFinal MemHist MemRun MemMisc MemFacts MemPlace MemCode ProgOne SpecProg ProgBlock ProgExec BlockTaken SpecMachine SpecCpu MachRun SpecScope ScopeFacts ScopeBlock SpecMulti MultiPlace SpecLive LiveFacts.
Local Notation length := List.length.
Local Open Scope list_scope.
Local Open Scope Z_scope.

(** ** Pending references *)
Lemma cnt_run ops s s' p : Inv s -> forallb api ops = true -> run ops s = Some s' -> cnt s p <= cnt s' p.
Proof.
  intros I Ha E. refine (run_ind (fun t => cnt s p <= cnt t p) _ ops s s' I Ha E _); [|lia].
  intros o t t' It Ho H Et. pose proof (effect_cnt _ _ _ (step_effect _ _ _ It Ho Et) p). lia.
Qed.
Lemma pending_back ops s s' p i : Inv s -> forallb api ops = true -> run ops s = Some s' -> i < cnt s p ->
  forall l u, In u (refs s' l) -> in_field u p i -> In u (refs s l).
Proof.
  intros I Ha E Hi. refine (proj2 (run_ind (fun t => cnt s p <= cnt t p /\ forall l u, In u (refs t l) -> in_field u p i -> In u (refs s l)) _ ops s s' I Ha E _)).
  2: { split; [lia|auto]. }
  intros o t t' It Ho [Hc H] Et. pose proof (step_effect _ _ _ It Ho Et) as F. split; [pose proof (effect_cnt _ _ _ F p); lia|].
  assert (X : forall B t2, ext B t t2 -> forall l u, In u (refs t2 l) -> in_field u p i -> In u (refs s l)).
  { intros B t2 Ex l u Hu [Hp Hf]. apply In_nth_error in Hu. destruct Hu as [k Hk]. destruct (old_or_new _ _ _ _ _ _ Ex Hk) as [Hold|Hnew].
    - apply H; [apply nth_error_In in Hold; exact Hold|split; assumption].
    - destruct (ex_new _ _ _ Ex l k u Hnew Hk) as (Hge & _). rewrite Hp in Hge. lia. }
  destruct F as [_ Ex|t1 _ F]; [exact (X _ _ Ex)|]. intros l u Hu Hf. rewrite (fn_refs _ _ _ F) in Hu.
  destruct (loc_of t1 l); [elim Hu|]. exact (X _ _ (fn_ext _ _ _ F) l u Hu Hf).
Qed.
Lemma fin_no_refs s s' l : Inv s -> after OFinalize s = Some s' -> label_addr s' l <> None -> refs s' l = [].
Proof.
  intros I E H. apply finalize_after in E. destruct (finalize_spec _ _ I E) as [s1 F]. apply addr_bound in H. rewrite (fn_loc _ _ _ F) in H.
  rewrite (fn_refs _ _ _ F). destruct (loc_of s1 l); [reflexivity|congruence].
Qed.
Lemma run_app_fin ops s s' : run (ops ++ [OFinalize]) s = Some s' -> exists s3, run ops s = Some s3 /\ after OFinalize s3 = Some s'.
Proof.
  revert s. induction ops as [|o ops IH]; intros s E; cbn [app run] in *.
  - exists s. split; [reflexivity|]. destruct (after OFinalize s); [exact E|discriminate].
  - destruct (after o s); [apply IH, E|discriminate].
Qed.

(** ** What is kept of a block *)
Record held (s : jit) (b : blk) (w : place_of) : Prop := mkHeld {
  hl_list : listing (meaning b) (fun x => final s (b_lenv b x)) s (fst w) (snd w) (source b);
  hl_labels : forall k x, nth_error (source b) k = Some (ILabel x) -> loc_of s (b_lenv b x) = Some (fst w, nth k (snd w) 0);
  hl_settled : forall i, nth 0 (snd w) 0 <= i < last (snd w) 0 -> settled s (fst w) i;
  hl_bound : forall x, In x (names b) -> label_addr s (b_lenv b x) <> None /\ fixed_label s (b_lenv b x);
  hl_jump : forall k i op, nth_error (source b) k = Some i -> jump_op i = Some op ->
    nth (S k) (snd w) 0 = nth k (snd w) 0 + 5 /\ byte s (fst w) (nth k (snd w) 0) = op;
  hl_end : last (snd w) 0 <= counter (pages s (fst w))
}.
Lemma held_placed s b w : held s b w -> placed s b w.
Proof. intro H. split; [apply H|]. intros k x Hk. unfold label_addr. rewrite (hl_labels _ _ _ H k x Hk). reflexivity. Qed.

Lemma last_nth (l : list Z) n : length l = S n -> last l 0 = nth n l 0.
Proof.
  revert n. induction l as [|x l IH]; intros n H; [discriminate|]. destruct l as [|y l]; [inversion H; reflexivity|]. destruct n as [|n]; [discriminate|].
  change (last (x :: y :: l) 0) with (last (y :: l) 0). change (nth (S n) (x :: y :: l) 0) with (nth n (y :: l) 0). apply IH. injection H as H. cbn [length]. congruence.
Qed.
Section Marks.
Variables (s : jit) (b : blk) (w : place_of).
Hypothesis H : held s b w.
Lemma held_len : length (snd w) = S (length (source b)). Proof. apply (hl_list _ _ _ H). Qed.
Lemma held_last : last (snd w) 0 = nth (length (source b)) (snd w) 0. Proof. apply last_nth, held_len. Qed.
Lemma held_at k i : nth_error (source b) k = Some i -> stmt_at (meaning b) (fun x => final s (b_lenv b x)) s (fst w) i (nth k (snd w) 0) (nth (S k) (snd w) 0).
Proof.
  intro Hk. assert (Hlt : (k < length (source b))%nat) by (apply nth_error_Some; congruence). pose proof held_len as L.
  apply (proj2 (hl_list _ _ _ H) k i); [exact Hk| |]; apply nth_error_nth'; lia.
Qed.
Lemma held_mono d k : (k + d <= length (source b))%nat -> nth k (snd w) 0 <= nth (k + d) (snd w) 0.
Proof.
  apply (marks_mono (meaning b) (fun x => final s (b_lenv b x)) s (fst w) (snd w) (source b) (hl_list _ _ _ H) (linked_branch _)).
  intros j x Hj _. unfold final. rewrite (proj2 (held_placed _ _ _ H) j x Hj). reflexivity.
Qed.
Lemma held_le k k' : (k <= k' <= length (source b))%nat -> nth k (snd w) 0 <= nth k' (snd w) 0.
Proof. intro K. pose proof (held_mono (k' - k) k ltac:(lia)) as M. replace (k + (k' - k))%nat with k' in M by lia. exact M. Qed.
End Marks.

Lemma linked_ext ev r f g i : (forall x, In x (inst_labels i) -> f x = g x) -> as_linked (eval ev r) f i = as_linked (eval ev r) g i.
Proof. intro E. unfold as_linked. apply assembled_ext; [intros e _; reflexivity|]. intros x Hx. rewrite (E x Hx). reflexivity. Qed.
Lemma stmt_moved ev r t1 t2 s s' p i a b : base s' = base s -> (forall z, a <= z < b -> byte s' p z = byte s p z) ->
  (forall x, In x (inst_labels i) -> t2 x = t1 x) -> stmt_at (as_linked (eval ev r)) t1 s p i a b -> stmt_at (as_linked (eval ev r)) t2 s' p i a b.
Proof.
  intros B M T St. assert (Hb : forall n, a + Z.of_nat n <= b -> bytes s' p a n = bytes s p a n).
  { intros n Hn. unfold bytes. rewrite (addr_base s s') by exact B. apply read_ext. intros y Hy. specialize (M (y - contents s p)).
    unfold byte in M. rewrite (addr_base s s') in M by exact B. unfold addr in *. replace (contents s p + (y - contents s p)) with y in M by lia. apply M. lia. }
  assert (G : (a <= b <= a + 15 /\ exists x y, as_linked (eval ev r) (fun l => t1 l - addr s p b) i = Some x /\ same_ins x y /\
           forall rest, decode (bytes s p a (Z.to_nat (b - a)) ++ rest) = Some (y, rest)) ->
         (a <= b <= a + 15 /\ exists x y, as_linked (eval ev r) (fun l => t2 l - addr s' p b) i = Some x /\ same_ins x y /\
           forall rest, decode (bytes s' p a (Z.to_nat (b - a)) ++ rest) = Some (y, rest))).
  { intros (R & x & y & D & S & Hd). split; [exact R|]. exists x, y. split; [|split; [exact S|]].
    - rewrite <- D. apply linked_ext. intros z Hz. rewrite (T z Hz), (addr_base s s') by exact B. reflexivity.
    - intro rest. rewrite Hb by lia. apply Hd. }
  destruct i; try (exact (G St)); cbn [stmt_at] in *; [exact St| |]; (destruct St as [-> St]; split; [reflexivity|]; rewrite Hb by lia; exact St).
Qed.
Lemma labels_in_names b k i x : nth_error (source b) k = Some i -> In x (inst_labels i) -> In x (names b).
Proof.
  intros Hk Hx. unfold names. apply in_or_app. left. rewrite <- (frozen_labels (b_ev b) (b_body b) (b_env b)). unfold body_labels. apply in_flat_map. exists i.
  split; [eapply nth_error_In; exact Hk|exact Hx].
Qed.
Lemma defined_in_names b k x : nth_error (source b) k = Some (ILabel x) -> In x (names b).
Proof. intros Hk. unfold names. apply in_or_app. right. rewrite <- (frozen_defined (b_ev b) (b_body b) (b_env b)). eapply defined_in. exact Hk. Qed.
Lemma final_loc s s' l : base s' = base s -> loc_of s' l = loc_of s l -> label_addr s' l = label_addr s l.
Proof. intros B E. unfold label_addr. rewrite E. destruct (loc_of s l) as [[p x]|]; [|reflexivity]. rewrite (addr_base s s') by exact B. reflexivity. Qed.

(** The block is kept if its bytes and the addresses of its labels are. *)
Lemma held_moved s s' b w : held s b w -> base s' = base s ->
  (forall i, nth 0 (snd w) 0 <= i < last (snd w) 0 -> settled s' (fst w) i /\ byte s' (fst w) i = byte s (fst w) i) ->
  (forall x, In x (names b) -> loc_of s' (b_lenv b x) = loc_of s (b_lenv b x) /\ fixed_label s' (b_lenv b x)) ->
  counter (pages s (fst w)) <= counter (pages s' (fst w)) -> held s' b w.
Proof.
  intros H B M L C. pose proof (held_last _ _ _ H) as La.
  assert (Rg : forall k i, nth_error (source b) k = Some i -> nth 0 (snd w) 0 <= nth k (snd w) 0 /\ nth (S k) (snd w) 0 <= last (snd w) 0).
  { intros k i Hk. assert (Hlt : (k < length (source b))%nat) by (apply nth_error_Some; congruence). rewrite La. split; apply (held_le _ _ _ H); lia. }
  constructor.
  - split; [apply (held_len _ _ _ H)|]. intros k i x y Hk Hx Hy. apply (nth_error_nth _ _ 0) in Hx. apply (nth_error_nth _ _ 0) in Hy. subst x y.
    apply (stmt_moved _ _ (fun x => final s (b_lenv b x)) _ s); [exact B| | |apply (held_at _ _ _ H), Hk].
    + intros z Hz. apply M. specialize (Rg k i Hk). lia.
    + intros z Hz. unfold final. rewrite (final_loc s s') by (try exact B; apply L; eapply labels_in_names; eauto). reflexivity.
  - intros k x Hk. rewrite (proj1 (L x (defined_in_names _ _ _ Hk))). apply (hl_labels _ _ _ H), Hk.
  - intros i Hi. apply M, Hi.
  - intros x Hx. destruct (L x Hx) as [E F]. split; [|exact F]. rewrite (final_loc s s') by assumption. apply (hl_bound _ _ _ H), Hx.
  - intros k i op Hk Ho. destruct (hl_jump _ _ _ H k i op Hk Ho) as [E1 E2]. split; [exact E1|]. rewrite <- E2. apply M.
    specialize (Rg k i Hk). lia.
  - pose proof (hl_end _ _ _ H). lia.
Qed.
(** While the program grows. *)
Lemma held_run ops s s' b w : held s b w -> Inv s -> forallb api ops = true -> run ops s = Some s' -> (forall l, once l ops s) -> held s' b w.
Proof.
  intros H I Ha E On. apply (held_moved s s' b w H).
  - apply (base_run _ _ _ I Ha E).
  - intros i Hi. apply (settled_run ops s s'); auto. apply (hl_settled _ _ _ H), Hi.
  - intros x Hx. destruct (hl_bound _ _ _ H x Hx) as [Hb Hf]. split.
    + apply (loc_run ops s s' _ I Ha E Hf). intros o Ho K. apply (once_not _ ops s s' I Ha E (On _) Hf Hb o Ho). apply binds_agree, K.
    + refine (run_ind (fun t => fixed_label t (b_lenv b x)) _ ops s s' I Ha E Hf). intros o t t' It Ho K Et. eapply fixed_step; eauto.
  - apply (cnt_run ops s s' (fst w) I Ha E).
Qed.
