(** The invariant of reachable states and the effect of finalize on them. *)
From Verif Require Import Base ModelMem ModelEnc ModelSyntax ModelMacro Trace Emit SpecState SpecHist MemInv MemStep MemFinal MemFill.
Local Notation length := List.length.

(** Entries waiting for the next finalize. *)
Definition queue (s : jit) : list label :=
  map snd (constants (pages s P0) ++ constants (pages s P1) ++ data (pages s P0) ++ data (pages s P1)).
Record QInv (s : jit) : Prop := mkQInv {
  qi_cur : cur s <> P2;
  qi_data : constants (pages s P2) = [] /\ data (pages s P2) = [];
  qi_nodup : NoDup (queue s);
  qi_lt : forall l, In l (queue s) -> (l < length (labels s))%nat
}.
(** Code blocks. *)
Fixpoint chain (a : Z) (bs : list (Z * Z * Z)) (e : Z) : Prop :=
  match bs with
  | [] => a = e
  | (x, y, z) :: r => x = a /\ x <= y <= z /\ chain z r e
  end.
Definition last_code_end (bs : list (Z * Z * Z)) : Z := match rev bs with [] => 0 | (_, y, _) :: _ => y end.
Record BInv (s : jit) : Prop := mkBInv {
  bi_top : forall p, 0 <= code_block_top (pages s p) <= cnt s p;
  bi_chain : forall p, chain 0 (code_block (pages s p)) (code_block_top (pages s p));
  bi_len : forall p, code_len (pages s p) = last_code_end (code_block (pages s p))
}.
Record Inv (s : jit) : Prop := mkInv { iv_r : RInv s; iv_q : QInv s; iv_b : BInv s }.

Lemma Inv_new b m : Inv (jit_new b m).
Proof.
  assert (Hr : forall l, refs (jit_new b m) l = []) by (intro l; unfold refs; cbn [labels jit_new]; destruct l; reflexivity).
  constructor.
  - constructor.
    + intro p. unfold cnt, PAGE_SIZE. cbn. lia.
    + intros l k t H. rewrite Hr in H. destruct k; discriminate.
    + intros l k t ? ? ? H. rewrite Hr in H. destruct k; discriminate.
    + intros l p x H. unfold loc_of in H. cbn [labels jit_new] in H. destruct l; discriminate.
  - constructor; cbn; try discriminate; auto. constructor. contradiction.
  - constructor; intro p; unfold cnt; cbn; try reflexivity. lia.
Qed.

Lemma Inv_grow B s s' : Inv s -> grow B s s' -> Inv s'.
Proof.
  intros [R [Q1 Q2 Q3 Q4] [B1 B2 B3]] G. pose proof G as [E C P]. pose proof (ex_cnt _ _ _ E) as HC.
  assert (Hq : queue s' = queue s) by (unfold queue; rewrite !P; reflexivity).
  constructor.
  - eapply RInv_ext; eauto.
  - constructor.
    + rewrite C. exact Q1.
    + rewrite P. exact Q2.
    + rewrite Hq. exact Q3.
    + intros l Hl. rewrite Hq in Hl. specialize (Q4 l Hl). pose proof (ex_len _ _ _ E). lia.
  - constructor; intro p; rewrite P; cbn [code_block_top code_block code_len with_counter]; auto.
    specialize (B1 p). specialize (HC p). lia.
Qed.
Lemma NoDup_app_iff {A} (a b : list A) : NoDup (a ++ b) <-> NoDup a /\ NoDup b /\ (forall x, In x a -> In x b -> False).
Proof.
  induction a as [|x a IH]; cbn [app].
  - split; [intro H; repeat split; auto; constructor|tauto].
  - rewrite !NoDup_cons_iff, IH, in_app_iff. split.
    + intros (H1 & H2 & H3 & H4). split; [split; tauto|]. split; [exact H3|]. intros y [<-|Hy]; [tauto|]. apply H4, Hy.
    + intros ((H1 & H2) & H3 & H4). split; [|split; [exact H2|split; [exact H3|]]].
      * intros [H|H]; [tauto|]. apply (H4 x); auto. left. reflexivity.
      * intros y Hy. apply H4. right. exact Hy.
Qed.
Lemma Inv_created d s : Inv s -> Inv (created d s).
Proof.
  intros [R [Q1 Q2 Q3 Q4] [B1 B2 B3]].
  set (n := length (labels s)).
  assert (Hperm : forall l, In l (queue (created d s)) <-> In l (queue s) \/ l = n).
  { intro l. unfold queue, created. cbn [pages set_page set_labels]. destruct (cur s); [| |congruence];
    cbn [pid_eqb pidx Z.eqb Pos.eqb]; destruct (is_data d); cbn [constants data with_constants with_data];
    rewrite !map_app, !in_app_iff; cbn [map snd In]; fold n; intuition. }
  assert (Hnd : NoDup (queue (created d s))).
  { assert (Hn : ~ In n (queue s)) by (intro Hin; specialize (Q4 _ Hin); unfold n in Q4; lia).
    assert (Hins : forall a b, queue s = a ++ b -> NoDup (a ++ [n] ++ b)).
    { intros a b Hab. rewrite Hab in *. apply NoDup_Add with (a := n) (l := a ++ b); [apply Add_app|]. split; assumption. }
    unfold queue, created. unfold queue in Hins. cbn [pages set_page set_labels]. fold n. destruct (cur s); [| |congruence];
    cbn [pid_eqb pidx Z.eqb Pos.eqb]; destruct (is_data d); cbn [constants data with_constants with_data];
    rewrite !map_app in *; cbn [map snd] in *.
    - specialize (Hins (map snd (constants (pages s P0)) ++ map snd (constants (pages s P1)) ++ map snd (data (pages s P0))) (map snd (data (pages s P1)))).
      rewrite <- !app_assoc in *. apply Hins. reflexivity.
    - specialize (Hins (map snd (constants (pages s P0))) (map snd (constants (pages s P1)) ++ map snd (data (pages s P0)) ++ map snd (data (pages s P1)))).
      rewrite <- !app_assoc in *. apply Hins. reflexivity.
    - specialize (Hins (map snd (constants (pages s P0)) ++ map snd (constants (pages s P1)) ++ map snd (data (pages s P0)) ++ map snd (data (pages s P1))) []).
      rewrite !app_nil_r in Hins. rewrite <- !app_assoc in *. apply Hins. reflexivity.
    - specialize (Hins (map snd (constants (pages s P0)) ++ map snd (constants (pages s P1))) (map snd (data (pages s P0)) ++ map snd (data (pages s P1)))).
      rewrite <- !app_assoc in *. apply Hins. reflexivity. }
  constructor.
  - eapply RInv_ext; [exact R|]. apply (created_ext (fun _ => False)). apply R.
  - constructor.
    + exact Q1.
    + unfold created. cbn [pages set_page]. rewrite pid_eqb_neq by (intro H; apply Q1; symmetry; exact H). exact Q2.
    + exact Hnd.
    + intros l Hl. unfold created. cbn [labels set_page set_labels]. rewrite app_length. cbn [length].
      apply Hperm in Hl. destruct Hl as [Hl| ->]; [specialize (Q4 _ Hl); lia|unfold n; lia].
  - assert (HP : forall p, code_block_top (pages (created d s) p) = code_block_top (pages s p) /\ code_block (pages (created d s) p) = code_block (pages s p)
      /\ code_len (pages (created d s) p) = code_len (pages s p) /\ cnt (created d s) p = cnt s p).
    { intro p. unfold cnt, created. cbn [pages set_page]. destruct (pid_eqb p (cur s)); [|auto]. destruct (is_data d); cbn; auto. }
    constructor; intro p; destruct (HP p) as (-> & -> & -> & ->) || destruct (HP p) as (E1 & E2 & E3 & E4); rewrite ?E1, ?E2, ?E3, ?E4; auto.
Qed.

(** ** finalize *)
Definition finish_page (s s1 : jit) (p : pid) : page :=
  mkPage (cnt s1 p) [] [] (cnt s p) (cnt s1 p)
    (code_block (pages s p) ++ [(code_block_top (pages s p), cnt s p, cnt s1 p)]).
Record finalized (s s1 s' : jit) : Prop := mkFinalized {
  fn_ext : ext (fun l => In l (queue s)) s s1;
  fn_inv : RInv s1;
  fn_laid0 : laid s1 P0 (cnt s P0) (constants (pages s P0));
  fn_laid1 : laid s1 P1 (cnt s P1) (constants (pages s P1));
  fn_laid2 : laid s1 P2 (cnt s P2) (data (pages s P0) ++ data (pages s P1));
  fn_end0 : cnt s1 P0 = laid_end (cnt s P0) (constants (pages s P0));
  fn_end1 : cnt s1 P1 = laid_end (cnt s P1) (constants (pages s P1));
  fn_end2 : cnt s1 P2 = laid_end (cnt s P2) (data (pages s P0) ++ data (pages s P1));
  fn_base : base s' = base s;
  fn_cur : cur s' = cur s;
  fn_pages : forall p, pages s' p = finish_page s s1 p;
  fn_len1 : length (labels s1) = length (labels s);
  fn_len : length (labels s') = length (labels s);
  fn_loc : forall l, loc_of s' l = loc_of s1 l;
  fn_refs : forall l, refs s' l = match loc_of s1 l with Some _ => [] | None => refs s1 l end;
  fn_frame : forall x, (forall l t, loc_of s1 l <> None -> In t (refs s1 l) -> ~ at_field s1 t x) -> mem s' x = mem s1 x;
  fn_value : forall l p x t, loc_of s1 l = Some (p, x) -> In t (refs s1 l) ->
     bytes s' (fpage t) (fpos t) (Z.to_nat (flen t)) = fval s1 (addr s1 p x) t
}.

Lemma forM_app {A} (f : A -> M unit) : forall a b s, forM (a ++ b) f s = (forM a f ;; forM b f) s.
Proof.
  induction a as [|x a IH]; intros b s; [reflexivity|]. cbn [app forM]. unfold bind. destruct (f x s) as [u s1|]; [|reflexivity].
  rewrite IH. reflexivity.
Qed.
Lemma forM_meq {A} (f g : A -> M unit) : (forall x s, f x s = g x s) -> forall l s, forM l f s = forM l g s.
Proof. intros H. induction l as [|x l IH]; intro s; [reflexivity|]. cbn [forM]. unfold bind. rewrite H. destruct (g x s); auto. Qed.
Lemma set_last_end_snoc c bs a b z : set_last_end c (bs ++ [(a, b, z)]) = Some (bs ++ [(a, b, c)]).
Proof.
  induction bs as [|x bs IH]; [reflexivity|]. cbn [app]. destruct x as [[x1 x2] x3]. cbn [set_last_end]. rewrite IH.
  destruct bs as [|y bs]; reflexivity.
Qed.
Lemma grow_len_entries p es s s' : forM es (resolve_constant_entry p) s = Ok tt s' -> length (labels s') = length (labels s).
Proof.
  revert s. induction es as [|[d l] es IH]; intros s E; [inversion E; reflexivity|]. cbn [forM] in E. unfold bind in E.
  destruct (resolve_constant_entry p (d, l) s) as [[] s1|] eqn:E1; [|discriminate]. rewrite (IH s1 E). clear IH E.
  rewrite entry_eq in E1. destruct (l <? length (labels s))%nat eqn:El; [|discriminate].
  assert (Hpre : length (labels (e_pre p (d_align d) l s)) = length (labels s)) by (unfold e_pre; cbn [labels set_labels]; apply upd_nth_length).
  destruct (d_abs d) as [t|] eqn:Hd.
  - destruct d; try discriminate. inversion Hd; subst. destruct (abs_tail _ _ _ _ _ E1) as (_ & A & _).
    rewrite (adv_labels _ _ _ _ A). cbn [labels set_labels]. rewrite upd_nth_length. exact Hpre.
  - pose proof (tail_appends p d Hd (e_pre p (d_align d) l s)) as T. destruct ((_ <=? _) || _) in T.
    + destruct T as (s2 & E2 & A). rewrite E2 in E1. inversion E1; subst. rewrite (adv_labels _ _ _ _ A). exact Hpre.
    + destruct T as (s2 & E2 & _). rewrite E2 in E1. discriminate.
Qed.

(** The state with the blocks of the three pages opened. *)
Definition opened (s : jit) : jit := set_page P2 open_block (set_page P1 open_block (set_page P0 open_block s)).
Lemma opened_pages s p : pages (opened s) p = open_block (pages s p).
Proof. destruct p; reflexivity. Qed.
Lemma opened_ext B s : cnt_ok s -> ext B s (opened s).
Proof. intro K. apply ext_meta; try reflexivity; [exact K|]. intro p. unfold cnt. rewrite opened_pages. reflexivity. Qed.

(** Taking a queue off a page and placing its entries on page [p]. *)
Lemma resolve_step p q f es s s' : RInv s -> NoDup (map snd es) -> (forall g, counter (f g) = counter g) ->
  forM es (resolve_constant_entry p) (set_page q f s) = Ok tt s' ->
  ext (fun l => In l (map snd es)) s s' /\ RInv s' /\ laid s' p (cnt s p) es /\ cnt s' p = laid_end (cnt s p) es /\
  (forall r, r <> p -> cnt s' r = cnt s r) /\ cur s' = cur s /\ length (labels s') = length (labels s) /\
  (forall r, pages s' r = with_counter (cnt s' r) (if pid_eqb r q then f (pages s r) else pages s r)).
Proof.
  intros I Hn Hf E. set (s0 := set_page q f s) in *.
  assert (Hc : forall r, cnt s0 r = cnt s r) by (intro r; unfold cnt, s0; cbn [pages set_page]; destruct (pid_eqb r q); auto).
  assert (X0 : ext (fun l => In l (map snd es)) s s0) by (apply ext_meta; auto; apply I).
  assert (I0 : RInv s0) by (eapply RInv_ext; eauto).
  destruct (entries_spec p es s0 s' I0 Hn E) as (G & L & C & O). rewrite Hc in *.
  assert (X : ext (fun l => In l (map snd es)) s s') by (eapply ext_trans; [exact X0|apply G]).
  split; [exact X|]. split; [eapply RInv_ext; [exact I|exact X]|]. split; [exact L|]. split; [exact C|].
  split; [intros r Hr; rewrite (O r Hr); apply Hc|]. split; [apply (go_cur _ _ _ G)|]. split; [apply (grow_len_entries _ _ _ _ E)|].
  intro r. rewrite (go_pages _ _ _ G r). reflexivity.
Qed.

Lemma top_pages s p : pages (set_page P2 (fun g => with_top (counter g) g) (set_page P1 (fun g => with_top (counter g) g)
   (set_page P0 (fun g => with_top (counter g) g) s))) p = with_top (counter (pages s p)) (pages s p).
Proof. destruct p; reflexivity. Qed.

Lemma laid_end_app : forall a b c, laid_end c (a ++ b) = laid_end (laid_end c a) b.
Proof. induction a as [|e a IH]; intros b c; [reflexivity|]. cbn [app laid_end]. apply IH. Qed.
(** The first half of finalize: placing constants and data. *)
Definition place_all : M unit := resolve_constants ;; resolve_data.
Definition finish : M unit :=
  forM all_pages close_block_on ;; fill_relocs ;; forM all_pages (fun p => modify (set_page p (fun g => with_top (counter g) g))).
Lemma finalize_split s : finalize s = match place_all (opened s) with Ok _ se => finish se | Panic e se => Panic e se end.
Proof.
  unfold finalize, place_all, finish. 
  assert (H : forall (k : M unit), (forM all_pages (fun p => modify (set_page p open_block)) ;; k) s = k (opened s)) by reflexivity.
  rewrite H. clear H. generalize (opened s). intro t. unfold bind.
  destruct (resolve_constants t) as [[] sc|]; [|reflexivity].
  destruct (resolve_data sc) as [[] sd|]; reflexivity.
Qed.
Lemma place_spec_at s se0 : Inv s -> place_all (opened s) = Ok tt se0 ->
  exists s' s1, finish se0 = Ok tt s' /\ (base s1 = base se0 /\ mem s1 = mem se0 /\ labels s1 = labels se0) /\ finalized s s1 s'.
Proof.
  intros [R [Q1 [Q2c Q2d] Q3 Q4] Bv] E0. pose proof (ri_cnt _ R) as K. unfold place_all in E0.
  set (sa := opened s) in *.
  assert (Xa : ext (fun l => In l (queue s)) s sa) by (apply opened_ext, K).
  assert (Ia : RInv sa) by (eapply RInv_ext; eauto).
  assert (Hca : forall p, cnt sa p = cnt s p) by (intro p; unfold cnt, sa; rewrite opened_pages; reflexivity).
  unfold queue in Q3. rewrite !map_app, !NoDup_app_iff in Q3. destruct Q3 as (N1 & (N2 & (N3 & N4 & D34) & D2) & D1).
  (* constants *)
  unfold bind at 1 in E0. destruct (resolve_constants sa) as [[] sc|] eqn:Ec; [|discriminate].
  unfold resolve_constants in Ec. cbn [forM] in Ec. unfold bind at 1 in Ec.
  destruct (resolve_constants_of P0 sa) as [[] sb|] eqn:Eb; [|discriminate]. 
  unfold resolve_constants_of, bind, ModelMem.get, modify in Eb. unfold sa in Eb at 1. rewrite opened_pages in Eb. cbn [constants open_block with_blocks with_code_len] in Eb.
  destruct (resolve_step P0 P0 (with_constants []) _ sa sb Ia N1 ltac:(reflexivity) Eb) as (Xb & Ib & Lb & Cb & Ob & Ub & Nb & Pb).
  unfold bind at 1 in Ec. destruct (resolve_constants_of P1 sb) as [[] sc'|] eqn:Ec1; [|discriminate]. unfold ret in Ec. injection Ec as ->.
  unfold resolve_constants_of, bind, ModelMem.get, modify in Ec1.
  assert (Hcb : constants (pages sb P1) = constants (pages s P1)) by (rewrite Pb; unfold sa; rewrite opened_pages; reflexivity).
  rewrite Hcb in Ec1.
  destruct (resolve_step P1 P1 (with_constants []) _ sb sc Ib N2 ltac:(reflexivity) Ec1) as (Xc & Ic & Lc & Cc & Oc & Uc & Nc & Pc).
  (* data *)
  destruct (resolve_data sc) as [[] se|] eqn:Ee; [|discriminate]. injection E0 as <-.
  unfold resolve_data in Ee. cbn [forM] in Ee. unfold bind at 1 in Ee.
  destruct (resolve_data_of P0 sc) as [[] sd|] eqn:Ed; [|discriminate].
  unfold resolve_data_of, bind, ModelMem.get, modify in Ed. rewrite (forM_meq _ _ data_entry_eq) in Ed.
  assert (Hdc : data (pages sc P0) = data (pages s P0)) by (rewrite Pc, Pb; unfold sa; rewrite opened_pages; reflexivity).
  rewrite Hdc in Ed.
  destruct (resolve_step P2 P0 (with_data []) _ sc sd Ic N3 ltac:(reflexivity) Ed) as (Xd & Id & Ld & Cd & Od & Ud & Nd & Pd).
  unfold bind at 1 in Ee. destruct (resolve_data_of P1 sd) as [[] se'|] eqn:Ee1; [|discriminate]. unfold ret in Ee. injection Ee as ->.
  unfold resolve_data_of, bind, ModelMem.get, modify in Ee1. rewrite (forM_meq _ _ data_entry_eq) in Ee1.
  assert (Hdd : data (pages sd P1) = data (pages s P1)) by (rewrite Pd, Pc, Pb; unfold sa; rewrite opened_pages; reflexivity).
  rewrite Hdd in Ee1.
  destruct (resolve_step P2 P1 (with_data []) _ sd se Id N4 ltac:(reflexivity) Ee1) as (Xe & Ie & Le & Ce & Oe & Ue & Ne & Pe).
  (* queue membership *)
  assert (Hin : forall l, In l (queue s) <-> In l (map snd (constants (pages s P0))) \/ In l (map snd (constants (pages s P1))) \/
     In l (map snd (data (pages s P0))) \/ In l (map snd (data (pages s P1)))) by (intro l; unfold queue; rewrite !map_app, !in_app_iff; reflexivity).
  assert (Xse : ext (fun l => In l (queue s)) s se).
  { eapply ext_trans; [exact Xa|]. eapply ext_trans; [eapply ext_weaken; [|exact Xb]; intros l Hl; apply Hin; auto|].
    eapply ext_trans; [eapply ext_weaken; [|exact Xc]; intros l Hl; apply Hin; auto|].
    eapply ext_trans; [eapply ext_weaken; [|exact Xd]; intros l Hl; apply Hin; auto|].
    eapply ext_weaken; [|exact Xe]; intros l Hl; apply Hin; auto. }
  (* pages after resolution *)
  assert (Hpe : forall p, pages se p = mkPage (cnt se p) [] [] (cnt s p) (code_block_top (pages s p))
      (code_block (pages s p) ++ [(code_block_top (pages s p), cnt s p, 0)])).
  { intro p. rewrite Pe, Pd, Pc, Pb. unfold sa. rewrite opened_pages.
    destruct p; cbn [pid_eqb pidx Z.eqb Pos.eqb with_counter with_constants with_data open_block with_blocks with_code_len
       counter constants data code_len code_block_top code_block]; try reflexivity. unfold with_counter, open_block, with_blocks, with_code_len. cbn [counter constants data code_len code_block_top code_block]. rewrite Q2c, Q2d. reflexivity. }
  (* closing *)
  assert (Hcl : forall p t bs, set_last_end (cnt t p) (code_block (pages t p)) = Some bs -> close_block_on p t = Ok tt (set_page p (with_blocks bs) t)).
  { intros p t bs H. unfold close_block_on. unfold cnt in H. rewrite H. reflexivity. }
  unfold finish. unfold bind at 1. unfold all_pages at 1. cbn [forM]. unfold bind at 1.
  set (blk := fun p => code_block (pages s p) ++ [(code_block_top (pages s p), cnt s p, cnt se p)]).
  rewrite (Hcl P0 se (blk P0)) by (rewrite (Hpe P0); cbn [code_block]; apply set_last_end_snoc).
  set (se0 := set_page P0 (with_blocks (blk P0)) se) in *. unfold bind at 1.
  rewrite (Hcl P1 se0 (blk P1))
    by (change (pages se0 P1) with (pages se P1); change (cnt se0 P1) with (cnt se P1); rewrite (Hpe P1); cbn [code_block]; apply set_last_end_snoc).
  set (se1 := set_page P1 (with_blocks (blk P1)) se0) in *. unfold bind at 1.
  rewrite (Hcl P2 se1 (blk P2))
    by (change (pages se1 P2) with (pages se P2); change (cnt se1 P2) with (cnt se P2); rewrite (Hpe P2); cbn [code_block]; apply set_last_end_snoc).
  change (ret tt ?x) with (Ok tt x). cbv beta iota. set (sf := set_page P2 (with_blocks (blk P2)) se1).
  assert (Ef : set_page P2 (with_blocks (blk P2)) se1 = sf) by reflexivity. clearbody sf.
  assert (Hpf : forall p, pages sf p = with_blocks (blk p) (pages se p)) by (intro p; rewrite <- Ef; destruct p; reflexivity).
  assert (Hcf : forall p, cnt sf p = cnt se p) by (intro p; unfold cnt; rewrite Hpf; reflexivity).
  assert (Xf : ext (fun _ => False) se sf) by (apply ext_meta; [apply Ie|rewrite <- Ef; reflexivity|intro x; rewrite <- Ef; reflexivity|rewrite <- Ef; reflexivity|exact Hcf]).
  assert (If : RInv sf) by (eapply RInv_ext; eauto).
  (* filling *)
  destruct (fill_relocs_ok sf If) as (sg & Eg & Fg). unfold bind at 1. rewrite Eg.
  destruct Fg as [F1 F2 F3 F4 F5 F6 F7 F8].
  assert (Hw : forall p, cnt sb p = cnt s p \/ p = P0) by (intro p; destruct (pid_dec p P0); [right; assumption|left; rewrite Ob by assumption; apply Hca]).
  eexists. exists sf. split; [reflexivity|]. split; [rewrite <- Ef; repeat split|]. constructor.
  - eapply ext_trans; [exact Xse|]. eapply ext_weaken; [|exact Xf]. contradiction.
  - exact If.
  - rewrite Hca in Lb. eapply laid_ext; [exact Xf|tauto|]. eapply laid_ext; [exact Xe|intros e He Hb; apply (D1 (snd e)); [apply in_map; exact He|rewrite !in_app_iff; auto]|].
    eapply laid_ext; [exact Xd|intros e He Hb; apply (D1 (snd e)); [apply in_map; exact He|rewrite !in_app_iff; auto]|].
    eapply laid_ext; [exact Xc|intros e He Hb; apply (D1 (snd e)); [apply in_map; exact He|rewrite !in_app_iff; auto]|]. exact Lb.
  - rewrite Ob, Hca in Lc by discriminate. eapply laid_ext; [exact Xf|tauto|].
    eapply laid_ext; [exact Xe|intros e He Hb; apply (D2 (snd e)); [apply in_map; exact He|rewrite !in_app_iff; auto]|].
    eapply laid_ext; [exact Xd|intros e He Hb; apply (D2 (snd e)); [apply in_map; exact He|rewrite !in_app_iff; auto]|]. exact Lc.
  - rewrite Oc, Ob, Hca in Ld, Cd by discriminate. rewrite Cd in Le.
    assert (Hlapp : forall t p a b c, laid t p c a -> laid t p (laid_end c a) b -> laid t p c (a ++ b)).
    { clear. intros t p. induction a as [|e a IH]; intros b c H1 H2; [exact H2|]. cbn [app laid laid_end] in *. destruct H1. split; auto. }
    apply Hlapp.
    + eapply laid_ext; [exact Xf|tauto|]. eapply laid_ext; [exact Xe|intros e He Hb; apply (D34 (snd e)); [apply in_map; exact He|exact Hb]|]. exact Ld.
    + eapply laid_ext; [exact Xf|tauto|]. exact Le.
  - rewrite Hcf, Oe, Od, Oc, Cb, Hca by discriminate. reflexivity.
  - rewrite Hcf, Oe, Od, Cc, Ob, Hca by discriminate. reflexivity.
  - rewrite Hcf, Ce, Cd, Oc, Ob, Hca by discriminate. symmetry. apply laid_end_app.
  - cbn [base set_page]. rewrite F1. rewrite (ex_base _ _ _ Xf). apply (ex_base _ _ _ Xse).
  - cbn [cur set_page]. rewrite F2, <- Ef. cbn [se1 se0 cur set_page]. rewrite Ue, Ud, Uc, Ub. reflexivity.
  - intro p. rewrite top_pages, F3, Hpf. unfold finish_page. rewrite Hcf, Hpe. reflexivity.
  - rewrite <- Ef. cbn [se1 se0 labels set_page]. rewrite Ne, Nd, Nc, Nb. reflexivity.
  - cbn [labels set_page]. rewrite F4, <- Ef. cbn [se1 se0 labels set_page]. rewrite Ne, Nd, Nc, Nb. reflexivity.
  - exact F5.
  - exact F6.
  - exact F7.
  - exact F8.
Qed.

Lemma place_spec s se0 : Inv s -> place_all (opened s) = Ok tt se0 -> exists s' s1, finish se0 = Ok tt s' /\ finalized s s1 s'.
Proof. intros I E. destruct (place_spec_at _ _ I E) as (s' & s1 & H & _ & F). exists s', s1. split; assumption. Qed.

Lemma finalize_spec s s' : Inv s -> finalize s = Ok tt s' -> exists s1, finalized s s1 s'.
Proof.
  intros I E. rewrite finalize_split in E. destruct (place_all (opened s)) as [[] se|] eqn:Ep; [|discriminate].
  destruct (place_spec _ _ I Ep) as (s2 & s1 & E2 & F). rewrite E in E2. injection E2 as <-. exists s1. exact F.
Qed.
