(** The code of the README's virtual machine does what the machine does. *)
From Verif Require Import Base ModelMem ModelEnc ModelSyntax ModelMacro SpecX86 SpecAsm SpecTaken SpecState SpecHist SpecMulti
  EncDec Emit Trace MemInv SpecProg SpecMachine SpecCpu SpecHost MachLib SpecVm VmCode VmPlace VmItems VmProg.
Local Notation length := List.length.
Local Open Scope list_scope.
Local Open Scope Z_scope.

Lemma word_mod v : word (u64 v). Proof. apply Z.mod_pos_bound. reflexivity. Qed.
Lemma trunc_i64 v : trunc W64 (i64 v) = u64 v.
Proof.
  unfold trunc, i64, signed, u64. change (2 ^ bits W64) with 18446744073709551616. destruct (_ <? _).
  - apply Z.mod_mod. discriminate.
  - rewrite <- (Z_mod_plus_full _ 1), Z.mul_1_l, Z.sub_add. apply Z.mod_mod. discriminate.
Qed.
Lemma x_mov_imm next R X F M d v : x86 (mkIns Mov W64 [OReg W64 d; OImm (i64 v)]) next (mkMach R X F M) = Some (mkMach (upd R d (u64 v)) X F M, Fall).
Proof. cbn [x86 i_mnem i_ops i_width get obind SpecMachine.put regs]. rewrite trunc_i64, put_word by apply word_mod. reflexivity. Qed.
Lemma x_jne_zf next R X F M k z : f_zf F = Some z -> x86 (mkIns (Jcc 5) W64 [ORel k]) next (mkMach R X F M) = Some (mkMach R X F M, if z then Fall else Taken).
Proof.
  intro H. cbn [x86 i_mnem i_ops i_width fl]. replace (SpecMachine.cond 5 F) with (Some (negb z)) by (change (SpecMachine.cond 5 F) with (option_map negb (f_zf F)); rewrite H; reflexivity).
  cbn [obind]. destruct z; reflexivity.
Qed.
Lemma zf_sub a b : f_zf (snd (sub_with W64 a b 0)) = Some (u64 (a - b) =? 0).
Proof. unfold sub_with. cbn [snd]. rewrite Z.sub_0_r. reflexivity. Qed.
Lemma zf_add a b : f_zf (snd (add_with W64 a b 0)) = Some (u64 (a + b) =? 0).
Proof. unfold add_with. cbn [snd]. rewrite Z.add_0_r. reflexivity. Qed.
Lemma zf_cmp a b : word a -> word b -> f_zf (snd (sub_with W64 a b 0)) = Some (a =? b).
Proof.
  intros Wa Wb. rewrite zf_sub. f_equal. unfold word, u64 in *. destruct (a =? b) eqn:E.
  - apply Z.eqb_eq in E. subst. rewrite Z.sub_diag. reflexivity.
  - apply Z.eqb_neq. intro K. apply Z.eqb_neq in E. apply Z.mod_divide in K; [|discriminate]. destruct K as [q K]. lia.
Qed.

(** ** A processor with functions outside *)
Definition obs := list (Z * Z).
Definition hruns (h : host) (out : obs) (pc : Z) (st : mach) (Q : obs -> Z -> mach -> Prop) : Prop :=
  exists k out' pc' st', hosted h k out pc st = Some (out', pc', st') /\ Q out' pc' st'.
Lemma hruns_now h out pc st (Q : obs -> Z -> mach -> Prop) : Q out pc st -> hruns h out pc st Q.
Proof. intro H. exists O, out, pc, st. split; [reflexivity|exact H]. Qed.
Lemma hruns_host h out pc st o1 pc1 st1 Q : host_step h out pc st = Some (o1, pc1, st1) -> hruns h o1 pc1 st1 Q -> hruns h out pc st Q.
Proof. intros E (k & o' & pc' & st' & C & H). exists (S k), o', pc', st'. split; [cbn [hosted]; rewrite E; exact C|exact H]. Qed.
Lemma hruns_step h out pc st pc1 st1 Q : h_at h pc = false -> cpu_step pc st = Some (pc1, st1) -> hruns h out pc1 st1 Q -> hruns h out pc st Q.
Proof. intros N E. apply hruns_host. unfold host_step. rewrite N, E. reflexivity. Qed.
Lemma hosted_plus h : forall a b out pc st o1 pc1 st1, hosted h a out pc st = Some (o1, pc1, st1) -> hosted h (a + b) out pc st = hosted h b o1 pc1 st1.
Proof.
  induction a as [|a IH]; intros b out pc st o1 pc1 st1 H; [inversion H; reflexivity|]. cbn [Nat.add hosted] in *.
  destruct (host_step h out pc st) as [[[o2 pc2] st2]|]; [|discriminate]. eapply IH, H.
Qed.
Lemma hruns_seq h out pc st Q Q' : hruns h out pc st Q -> (forall out' pc' st', Q out' pc' st' -> hruns h out' pc' st' Q') -> hruns h out pc st Q'.
Proof.
  intros (k & o1 & pc1 & st1 & C & H) F. destruct (F _ _ _ H) as (k2 & o2 & pc2 & st2 & C2 & H2).
  exists (k + k2)%nat, o2, pc2, st2. split; [rewrite (hosted_plus _ _ _ _ _ _ _ _ _ C); exact C2|exact H2].
Qed.
Lemma hruns_imp h out pc st (Q Q' : obs -> Z -> mach -> Prop) : hruns h out pc st Q -> (forall o' pc' st', Q o' pc' st' -> Q' o' pc' st') -> hruns h out pc st Q'.
Proof. intros H F. apply (hruns_seq _ _ _ _ _ _ H). intros. apply hruns_now. auto. Qed.
Lemma x_call_reg next R X F M d t a : R 4 - 8 = a -> 0 <= a -> a + 8 <= 2 ^ 64 -> R d = t -> word t ->
  x86 (mkIns Call W64 [OReg W64 d]) next (mkMach R X F M) = Some (mkMach (upd R 4 a) X F (poke M a (le 8 next)), Jump t).
Proof.
  intros Ha H1 H2 <- Wt. cbn [x86 i_mnem i_ops i_width get obind]. unfold push, rsp. cbn [regs]. rewrite (trunc_word _ Wt), Ha, u64_word by (unfold word; lia).
  unfold set_regs. cbn [regs xmms fl mm obind]. unfold store. destruct (_ <=? _) eqn:E; [|lia]. reflexivity.
Qed.
Lemma poke_byte : forall bs M a x, (forall y, 0 <= M y < 256) -> Forall (fun v => 0 <= v < 256) bs -> 0 <= poke M a bs x < 256.
Proof.
  induction bs as [|v bs IH]; intros M a x H F; [apply H|]. cbn [poke]. inversion F; subst. apply IH; [|assumption]. intro y. unfold upd. destruct (y =? a); [assumption|apply H].
Qed.
Lemma le_bytes : forall n v, Forall (fun v => 0 <= v < 256) (le n v).
Proof. induction n as [|n IH]; intro v; cbn [le]; [apply Forall_nil|]. apply Forall_cons; [apply Z.mod_pos_bound; reflexivity|apply IH]. Qed.
Definition bytes_ok (M : Z -> Z) : Prop := forall y, 0 <= M y < 256.
Definition xmms_ok (X : Z -> Z) : Prop := forall n, 0 <= n < 16 -> 0 <= X n < 2 ^ 128.
Lemma bytes_poke M a v : bytes_ok M -> bytes_ok (poke M a (le 8 v)).
Proof. intros H x. apply poke_byte; [exact H|apply le_bytes]. Qed.

Section Run.
Variables (nl : nat) (fs : list vfun) (s4 : jit) (b len : Z) (h : host).
Hypothesis Abi : abi h.
Hypothesis Out : forall p, h_at h p = true -> ~ (b <= p < b + len).
Hypothesis Own : forall y, h_own h y -> ~ (b <= y < b + len).
Hypothesis Ok : vm_ok nl fs.
Hypothesis Hb : base s4 = b.
Hypothesis Bb : 0 <= b /\ b + len < 2 ^ 64.
Hypothesis Bound : forall l, In l (flat_map labels_of fs) -> label_addr s4 l = Some (final s4 l).
Hypothesis Placed : forall f, In f fs -> exists a e, 0 <= a /\ e <= len /\ chain (final s4) s4 (fun_items f) a e.

Lemma addr0 a : addr s4 P0 a = b + a.
Proof. unfold addr, contents. rewrite Hb. cbn [pidx]. lia. Qed.
Definition code (M : Z -> Z) : Prop := forall x, b <= x < b + len -> M x = mem s4 x.
Lemma ins_step a x c R X F M st' t : code M -> 0 <= a -> c <= len -> ins_at s4 a x c -> x86 x (b + c) (mkMach R X F M) = Some (st', t) ->
  cpu_step (b + a) (mkMach R X F M) = after_ins x (b + c) (Some (st', t)).
Proof.
  intros Hc Ha Hl (Hn & Hd) Hx. unfold cpu_step, mstep. cbn [mm].
  replace 15%nat with (Z.to_nat (c - a) + (15 - Z.to_nat (c - a)))%nat by lia. rewrite read_app.
  unfold bytes in Hd. rewrite addr0 in Hd.
  rewrite (read_ext M (mem s4)) by (intros y Hy; apply Hc; lia). rewrite Hd, read_length. cbv zeta.
  replace (b + a + (15 - Z.of_nat (15 - Z.to_nat (c - a)))) with (b + c) by lia. rewrite Hx.
  unfold after_ins. destruct t as [| |y]; reflexivity.
Qed.
Definition good (room sp : Z) (R X M : Z -> Z) (before out : obs) (v : Z) (after : obs) (pc : Z) (st : mach) : Prop :=
  after = before ++ out /\ pc = quad M sp /\ regs st 0 = v /\ regs st 4 = u64 (sp + 8) /\ (forall i, saved i -> regs st i = R i) /\
  (out = [] -> xmms st = X) /\ wf st /\ (forall x, ~ (sp - room <= x < sp) -> ~ h_own h x -> mm st x = M x).
Lemma good_seen room sp R X X' M before xs out v after pc st : (xs = [] -> X' = X) ->
  good room sp R X' M (before ++ xs) out v after pc st -> good room sp R X M before (xs ++ out) v after pc st.
Proof.
  intros Hx (E & G1 & G2 & G3 & G4 & G5 & G6 & G7). split; [rewrite app_assoc; exact E|]. do 4 (split; [assumption|]). split; [|split; assumption].
  intro N. apply app_eq_nil in N. destruct N as [-> ->]. rewrite G5, Hx; reflexivity.
Qed.
Lemma in_code a : 0 <= a < len -> h_at h (b + a) = false.
Proof. intro H. destruct (h_at h (b + a)) eqn:E; [|reflexivity]. elim (Out _ E). lia. Qed.
Lemma ins_pos a x c : ins_at s4 a x c -> a < c.
Proof. intros [H D]. destruct (Z.eq_dec a c) as [-> |]; [|lia]. rewrite Z.sub_diag in D. specialize (D []). discriminate D. Qed.

(** The rest of a function is at [a]. *)
Definition here (f : vfun) (c : list vmi) (a : Z) : Prop := exists e, 0 <= a /\ e <= len /\ chain (final s4) s4 (map vm_item c ++ fun_tail f) a e.
Lemma here_next f i c a : here f (i :: c) a -> exists a', 0 <= a /\ a' <= len /\ seq_at s4 a (vm_ins i (final s4)) a' /\ here f c a'.
Proof.
  intros (e & Ha & He & H). cbn [map app chain vm_item it_code] in H. destruct H as (_ & a' & Sq & H). exists a'. pose proof (seq_le _ _ _ _ Sq). pose proof (chain_le _ _ _ _ _ H).
  repeat split; [lia|lia|exact Sq|]. exists e. repeat split; [lia|lia|exact H].
Qed.
Lemma here_mark f l : forall code a c, here f code a -> find_mark l code = Some c -> exists a', here f c a' /\ label_addr s4 l = Some (b + a').
Proof.
  induction code0 as [|i code0 IH]; intros a c H E; [discriminate|]. destruct (here_next _ _ _ _ H) as (a' & _ & _ & Sq & H').
  destruct i; cbn [find_mark] in E; try (apply (IH a' c H' E)). destruct (Nat.eqb l0 l) eqn:El; [|apply (IH a' c H' E)].
  apply Nat.eqb_eq in El. subst l0. injection E as <-. cbn [vm_ins seq_at] in Sq. subst a'. exists a. split; [exact H'|].
  destruct H as (e & _ & _ & H). cbn [map app chain vm_item it_mark vm_mark] in H. destruct H as (H & _). rewrite (H l eq_refl), addr0. reflexivity.
Qed.
Lemma here_end f : forall code a, here f code a -> exists a', here f [] a' /\ label_addr s4 (v_end f) = Some (b + a').
Proof.
  induction code0 as [|i code0 IH]; intros a H.
  - exists a. split; [exact H|]. destruct H as (e & _ & _ & H). cbn [map app chain fun_tail i_end it_mark] in H. destruct H as (H & _). rewrite (H _ eq_refl), addr0. reflexivity.
  - destruct (here_next _ _ _ _ H) as (a' & _ & _ & Sq & H'). apply (IH a' H').
Qed.

Ltac wd := unfold word in *; lia.
Lemma run_ins a x r e R X F M st' t pc1 out Q : code M -> 0 <= a -> e <= len -> seq_at s4 a (x :: r) e ->
  (forall next, x86 (x next) next (mkMach R X F M) = Some (st', t)) ->
  (forall c, after_ins (x (b + c)) (b + c) (Some (st', t)) = Some (pc1 c, st')) ->
  (forall c, 0 <= c -> seq_at s4 c r e -> hruns h out (pc1 c) st' Q) -> hruns h out (b + a) (mkMach R X F M) Q.
Proof.
  intros Hc Ha He Sq Hx Hp K. cbn [seq_at] in Sq. destruct Sq as (c & I & Sq). pose proof (seq_le _ _ _ _ Sq). destruct I as [Hn Hd] eqn:EI.
  pose proof (ins_pos _ _ _ I).
  eapply hruns_step; [apply in_code; lia|rewrite (ins_step a _ c R X F M st' t Hc Ha ltac:(lia) I); [rewrite addr0; apply Hp|rewrite addr0; apply Hx]|]. apply K; [lia|exact Sq].
Qed.
Lemma run_next a x r e R X F M st' out Q : code M -> 0 <= a -> e <= len -> seq_at s4 a (x :: r) e ->
  (forall next, x86 (x next) next (mkMach R X F M) = Some (st', Fall)) ->
  (forall c, 0 <= c -> seq_at s4 c r e -> hruns h out (b + c) st' Q) -> hruns h out (b + a) (mkMach R X F M) Q.
Proof. intros Hc Ha He Sq Hx K. apply (run_ins a x r e R X F M st' Fall (fun c => b + c) out Q Hc Ha He Sq Hx); [reflexivity|exact K]. Qed.
Lemma run_taken a m l r e R X F M st' out Q : code M -> 0 <= a -> e <= len -> seq_at s4 a ((fun next => mkIns m W64 [ORel (final s4 l - next)]) :: r) e ->
  (forall next, x86 (mkIns m W64 [ORel (final s4 l - next)]) next (mkMach R X F M) = Some (st', Taken)) ->
  hruns h out (final s4 l) st' Q -> hruns h out (b + a) (mkMach R X F M) Q.
Proof.
  intros Hc Ha He Sq Hx K. apply (run_ins a _ r e R X F M st' Taken (fun c => final s4 l) out Q Hc Ha He Sq Hx); [|intros; exact K].
  intro c. cbn [after_ins rel_of i_ops]. f_equal. f_equal. lia.
Qed.

Record rel (f : vfun) (room sp : Z) (R M : Z -> Z) (st : vst) (R1 : Z -> Z) (F1 : flags) (M1 : Z -> Z) : Prop := mkRel {
  r_word : forall i, 0 <= i < 16 -> word (R1 i);
  r_byte : bytes_ok M1;
  r_code : code M1;
  r_rsp : R1 4 = sp - 40 - 8 * locals_of f;
  r_rbp : R1 5 = sp - 8;
  r_rbx : R1 3 = R 3;
  r_reg : forall k v, reg_ok k -> v_reg st k = Some v -> R1 (k + 12) = v;
  r_loc : forall o v, var_ok f o -> v_loc st o = Some v -> quad M1 (sp - 8 - o) = v /\ word v;
  r_res : forall v, v_res st = Some v -> R1 0 = v;
  r_eq : forall z, v_eq st = Some z -> f_zf F1 = Some z;
  r_5 : quad M1 (sp - 8) = R 5;
  r_12 : quad M1 (sp - 16 - 8 * locals_of f) = R 12;
  r_13 : quad M1 (sp - 24 - 8 * locals_of f) = R 13;
  r_14 : quad M1 (sp - 32 - 8 * locals_of f) = R 14;
  r_15 : quad M1 (sp - 40 - 8 * locals_of f) = R 15;
  r_out : forall x, ~ (sp - room <= x < sp) -> ~ h_own h x -> M1 x = M x
}.
Lemma locals_bound f : In f fs -> 0 <= v_locals f <= locals_of f /\ locals_of f < 2 ^ 28.
Proof. intro H. destruct Ok as (_ & _ & K). destruct (K f H) as (Hl & _). unfold locals_of. pose proof (Z.mod_pos_bound (v_locals f) 2 eq_refl). lia. Qed.
Lemma locals_frame f : frame f = 48 + 8 * locals_of f. Proof. reflexivity. Qed.

Ltac up := cbv [upd]; repeat match goal with |- context [?x =? ?y] => destruct (Z.eqb_spec x y); try (exfalso; unfold reg_ok in *; lia) end; try reflexivity; try assumption.
Ltac fin := match goal with |- ?x = ?y => reflexivity end.

Section Function.
Variables (f : vfun) (room sp : Z) (R X M : Z -> Z).
Hypothesis Hf : In f fs.
Hypothesis Hr : frame f <= room <= sp.
Hypothesis Ht : sp + 8 <= 2 ^ 64.
Hypothesis Hd : b + len <= sp - room \/ sp <= b.
Hypothesis HR : forall i, 0 <= i < 16 -> word (R i).
Hypothesis HX : xmms_ok X.
Hypothesis HM : bytes_ok M.
Hypothesis Hs : forall y, h_own h y -> ~ (sp - room <= y < sp + 8).

Lemma code_poke M1 a v : code M1 -> sp - room <= a -> a + 8 <= sp -> code (poke M1 a (le 8 v)).
Proof. clear -Hd. intros H H1 H2 x Hx. rewrite poke_out by (rewrite le_length; lia). apply H, Hx. Qed.

(** ** The end of a function *)
Lemma at_end a st R1 F1 M1 before out v : here f [] a -> rel f room sp R M st R1 F1 M1 -> ended st = Some (out, v) -> hruns h before (b + a) (mkMach R1 X F1 M1) (good room sp R X M before out v).
Proof.
  intros (e & Ha & He & H) Rl Hv0. assert (Hv : v_res st = Some v /\ out = []) by (unfold ended in Hv0; destruct (v_res st); [injection Hv0 as <- <-; split; reflexivity|discriminate]). clear Hv0. destruct Hv as [Hv ->]. destruct Rl. destruct (locals_bound f Hf) as [HL HL']. rewrite locals_frame in Hr.
  cbn [map app chain fun_tail i_end i_epilogue it_code] in H. destruct H as (_ & a1 & S1 & _ & a2 & S2 & <-). pose proof (seq_le _ _ _ _ S1). pose proof (seq_le _ _ _ _ S2).
  set (L := locals_of f) in *.
  assert (W5 := HR 5 ltac:(lia)). assert (W12 := HR 12 ltac:(lia)). assert (W13 := HR 13 ltac:(lia)). assert (W14 := HR 14 ltac:(lia)). assert (W15 := HR 15 ltac:(lia)).
  assert (U : forall z, 0 <= z < 2 ^ 64 -> u64 z = z) by (intros z Hz; apply u64_word; exact Hz).
  eapply (run_next a); [exact r_code0|lia| |exact S1| |]; [lia|intro next; apply (x_pop next R1 X F1 M1 15 (sp - 40 - 8 * L) (sp - 32 - 8 * L) (R 15)); [exact r_rsp0|lia|rewrite U; lia|assumption|exact W15]|].
  intros c Hc S3. eapply (run_next c); [exact r_code0|lia| |exact S3| |]; [lia|intro next; apply (x_pop next _ X F1 M1 14 (sp - 32 - 8 * L) (sp - 24 - 8 * L) (R 14)); [up|lia|rewrite U; lia|assumption|exact W14]|].
  intros c1 Hc1 S4. eapply (run_next c1); [exact r_code0|lia| |exact S4| |]; [lia|intro next; apply (x_pop next _ X F1 M1 13 (sp - 24 - 8 * L) (sp - 16 - 8 * L) (R 13)); [up|lia|rewrite U; lia|assumption|exact W13]|].
  intros c2 Hc2 S5. eapply (run_next c2); [exact r_code0|lia| |exact S5| |]; [lia|intro next; apply (x_pop next _ X F1 M1 12 (sp - 16 - 8 * L) (sp - 8 - 8 * L) (R 12)); [up|lia|rewrite U; lia|assumption|exact W12]|].
  intros c3 Hc3 S6. cbn [seq_at] in S6. subst c3.
  eapply (run_next a1); [exact r_code0|lia| |exact S2| |]; [lia|intro next; apply (x_mov_rr next _ X F1 M1 4 5 (sp - 8)); [up|wd]|].
  intros c4 Hc4 S7. eapply (run_next c4); [exact r_code0|lia| |exact S7| |]; [lia|intro next; apply (x_pop next _ X F1 M1 5 (sp - 8) sp (R 5)); [up|lia|rewrite U; lia|assumption|exact W5]|].
  intros c5 Hc5 S8. assert (Qs : quad M1 sp = quad M sp) by (apply quad_ext; intros x Hx; apply r_out0; [lia|intro O; apply Hs in O; lia]).
  eapply (run_ins c5 _ _ _ _ X F1 M1 _ (Jump (quad M sp)) (fun _ => quad M sp)); [exact r_code0|lia| |exact S8| | |]; [lia|intro next; apply (x_ret next _ X F1 M1 sp (quad M sp)); [up|lia|exact Qs]|reflexivity|].
  intros c6 _ _. apply hruns_now. unfold good. cbn [regs xmms mm]. rewrite app_nil_r. split; [reflexivity|]. split; [reflexivity|]. split; [up; apply r_res0, Hv|]. split; [up|]. split.
  - intros i [-> | [-> | [-> | [-> | [-> | ->]]]]]; up.
  - split; [reflexivity|]. split; [|exact r_out0]. split; [|split; [exact HX|exact r_byte0]]. cbn [regs]. intros i Hi. match goal with |- 0 <= ?x < _ => change (word x) end. unfold upd.
    repeat match goal with |- word (if ?c then _ else _) => destruct c end; try assumption; try (apply r_word0, Hi); try apply word_mod; wd.
Qed.

(** ** One instruction *)
Lemma rel_reg st k v R1 F1 M1 : reg_ok k -> word v -> rel f room sp R M st R1 F1 M1 -> rel f room sp R M (set_reg k v st) (upd R1 (k + 12) v) F1 M1.
Proof.
  clear X Hf Hr Ht Hd HR HX HM Hs.
  intros Hk Wv []. constructor; cbn [set_reg v_reg v_loc v_res v_eq]; try assumption; try (up; fail).
  - intros i Hi. unfold upd. destruct (i =? k + 12); [exact Wv|apply r_word0, Hi].
  - intros k' v' Hk' E. unfold put in E. unfold upd. destruct (Z.eqb_spec k' k) as [-> | N]; [rewrite Z.eqb_refl; congruence|].
    destruct (Z.eqb_spec (k' + 12) (k + 12)); [lia|apply r_reg0; assumption].
Qed.
Lemma rel_res st v R1 F1 M1 : word v -> rel f room sp R M st R1 F1 M1 -> rel f room sp R M (set_res v st) (upd R1 0 v) F1 M1.
Proof.
  clear X Hf Hr Ht Hd HR HX HM Hs.
  intros Wv []. constructor; cbn [set_res v_reg v_loc v_res v_eq]; try assumption; try (up; fail).
  - intros i Hi. unfold upd. destruct (i =? 0); [exact Wv|apply r_word0, Hi].
  - intros k' v' Hk' E. unfold upd. destruct (Z.eqb_spec (k' + 12) 0); [unfold reg_ok in Hk'; lia|apply r_reg0; assumption].
  - intros v' E. injection E as <-. reflexivity.
Qed.
Lemma rel_rdi st v R1 F1 M1 : word v -> rel f room sp R M st R1 F1 M1 -> rel f room sp R M st (upd R1 7 v) F1 M1.
Proof.
  clear X Hf Hr Ht Hd HR HX HM Hs.
  intros Wv []. constructor; try assumption; try (up; fail).
  - intros i Hi. unfold upd. destruct (i =? 7); [exact Wv|apply r_word0, Hi].
  - intros k' v' Hk' E. unfold upd. destruct (Z.eqb_spec (k' + 12) 7); [unfold reg_ok in Hk'; lia|apply r_reg0; assumption].
Qed.
Lemma rel_eq st z R1 F1 F2 M1 : (forall y, z = Some y -> f_zf F2 = Some y) -> rel f room sp R M st R1 F1 M1 -> rel f room sp R M (set_eq z st) R1 F2 M1.
Proof.
  clear X Hf Hr Ht Hd HR HX HM Hs. intros Hz []. constructor; cbn [set_eq v_reg v_loc v_res v_eq]; assumption. Qed.
Lemma var_addr o : var_ok f o -> 8 <= o <= 8 * locals_of f.
Proof.
  clear R X M Hr Ht Hd HR HX HM Hs room sp. intros [H _]. pose proof (locals_bound f Hf). lia. Qed.
Lemma var_apart o o' : var_ok f o -> var_ok f o' -> o <> o' -> o + 8 <= o' \/ o' + 8 <= o.
Proof.
  clear R X M Hr Ht Hd HR HX HM Hs room sp. intros [_ H] [_ H'] N. pose proof (Z.div_mod o 8). pose proof (Z.div_mod o' 8). lia. Qed.
Lemma rel_loc st o v R1 F1 M1 : var_ok f o -> word v -> rel f room sp R M st R1 F1 M1 -> rel f room sp R M (set_loc o v st) R1 F1 (poke M1 (sp - 8 - o) (le 8 v)).
Proof.
  clear X Ht HR HX HM Hs.
  intros Ho Wv []. pose proof (var_addr o Ho). pose proof (locals_bound f Hf) as HL. rewrite locals_frame in Hr.
  constructor; cbn [set_loc v_reg v_loc v_res v_eq]; try assumption; try (rewrite quad_other by lia; assumption).
  - apply bytes_poke. assumption.
  - apply code_poke; [assumption|lia|lia].
  - intros o' v' Ho' E. unfold put in E. destruct (Z.eqb_spec o' o) as [-> | N].
    + injection E as <-. rewrite quad_same. split; [apply Z.mod_small, Wv|exact Wv].
    + pose proof (var_apart o o' Ho Ho' ltac:(congruence)). rewrite quad_other by lia. apply r_loc0; assumption.
  - intros x Hx Hx'. rewrite poke_out by (rewrite le_length; lia). apply r_out0; assumption.
Qed.

(** After a call that returns. *)
Lemma rel_back st R1 F1 M1 R2 F2 M2 : rel f room sp R M (forget st) R1 F1 M1 -> (forall i, 0 <= i < 16 -> word (R2 i)) -> bytes_ok M2 ->
  R2 4 = sp - 40 - 8 * locals_of f -> (forall i, saved i -> R2 i = R1 i) ->
  (forall z, ~ (sp - room <= z < sp - 40 - 8 * locals_of f) -> ~ h_own h z -> M2 z = M1 z) ->
  (forall v, v_res st = Some v -> R2 0 = v) -> (forall z, v_eq st = Some z -> f_zf F2 = Some z) -> rel f room sp R M st R2 F2 M2.
Proof.
  clear X Ht HR HX HM. intros [] W B E4 Es Eo Er Ee. cbn [forget v_reg v_loc v_res v_eq] in *. pose proof (locals_bound f Hf) as HL. rewrite locals_frame in Hr.
  assert (Qout : forall z, sp - 40 - 8 * locals_of f <= z -> z + 8 <= sp -> quad M2 z = quad M1 z).
  { intros z Hz Hz'. apply quad_ext. intros u Hu. apply Eo; [lia|]. intro O. apply Hs in O. lia. }
  constructor; try assumption; try (rewrite Qout by lia; assumption).
  - intros z Hz. rewrite Eo; [apply r_code0, Hz|lia|]. intro O. apply Own in O. lia.
  - rewrite Es by (unfold saved; lia). assumption.
  - rewrite Es by (unfold saved; lia). assumption.
  - intros k v Hk E. rewrite Es by (unfold saved, reg_ok in *; lia). apply r_reg0; assumption.
  - intros o v Ho E. pose proof (var_addr o Ho). rewrite Qout by lia. apply r_loc0; assumption.
  - intros z Hz Hz'. rewrite Eo by (try assumption; lia). apply r_out0; assumption.
Qed.
Lemma align_call g : sp mod 16 = 8 -> (sp - frame g) mod 16 = 8.
Proof.
  clear f room R X M Hf Hr Ht Hd HR HX HM Hs. intro H. unfold frame. pose proof (Z.div_mod (v_locals g) 2 ltac:(discriminate)) as D. pose proof (Z.mod_pos_bound (v_locals g) 2 eq_refl) as B.
  set (q := v_locals g / 2) in *. set (r := v_locals g mod 2) in *. rewrite (Z.div_mod sp 16) by discriminate. rewrite H.
  replace (16 * (sp / 16) + 8 - (48 + 8 * (v_locals g + r))) with (8 + (sp / 16 - 3 - q - r) * 16) by lia. apply Z_mod_plus_full.
Qed.

(** ** The start of a function *)
Lemma at_start F x before Q : code M -> R 4 = sp -> R 7 = x ->
  (forall a R1 F1 M1, here f (v_body f) a -> rel f room sp R M (start f x) R1 F1 M1 -> hruns h before (b + a) (mkMach R1 X F1 M1) Q) ->
  hruns h before (final s4 (v_name f)) (mkMach R X F M) Q.
Proof.
  intros Hc H4 H7 K. destruct (Placed f Hf) as (a & e & Ha & He & C). destruct (locals_bound f Hf) as [HL HL']. rewrite locals_frame in Hr.
  assert (Va : var_ok f (v_arg f)) by (destruct Ok as (_ & _ & Ok'); apply (Ok' f Hf)). pose proof (var_addr _ Va) as Va'.
  unfold fun_items in C. cbn [app chain i_name i_prologue i_save it_mark it_code] in C.
  destruct C as (N & a0 & S0 & _ & a1 & S1 & _ & a2 & S2 & C). cbn [seq_at] in S0. subst a0. specialize (N _ eq_refl). rewrite addr0 in N. unfold final. rewrite N. clear N.
  pose proof (seq_le _ _ _ _ S1). pose proof (seq_le _ _ _ _ S2). pose proof (chain_le _ _ _ _ _ C).
  set (L := locals_of f) in *. assert (Wx : word x) by (rewrite <- H7; apply HR; lia).
  assert (W5 := HR 5 ltac:(lia)). assert (W12 := HR 12 ltac:(lia)). assert (W13 := HR 13 ltac:(lia)). assert (W14 := HR 14 ltac:(lia)). assert (W15 := HR 15 ltac:(lia)).
  eapply (run_next a); [exact Hc|lia| |exact S1| |]; [lia|intro next; apply (x_push next R X F M 5 (sp - 8) (R 5)); [lia|lia|lia|reflexivity]|].
  intros c1 Hc1 T1. assert (C1 : code (poke M (sp - 8) (le 8 (R 5)))) by (apply code_poke; [exact Hc|lia|lia]).
  eapply (run_next c1); [exact C1|lia| |exact T1| |]; [lia|intro next; apply (x_mov_rr next _ X F _ 5 4 (sp - 8)); [reflexivity|wd]|].
  intros c2 Hc2 T2. eapply (run_next c2); [exact C1|lia| |exact T2| |]; [lia|intro next; apply (x_sub_ri next _ X F _ 4 (8 * L) (sp - 8) (sp - 8 - 8 * L)); [reflexivity|wd|wd|apply u64_word; wd]|].
  intros c3 Hc3 T3. cbn [seq_at] in T3. subst c3.
  eapply (run_next a1); [exact C1|lia| |exact S2| |]; [lia|intro next; apply (x_push next _ X _ _ 12 (sp - 16 - 8 * L) (R 12)); [up; lia|lia|lia|reflexivity]|].
  intros c4 Hc4 T4. assert (C2 : code (poke (poke M (sp - 8) (le 8 (R 5))) (sp - 16 - 8 * L) (le 8 (R 12)))) by (apply code_poke; [exact C1|lia|lia]).
  eapply (run_next c4); [exact C2|lia| |exact T4| |]; [lia|intro next; apply (x_push next _ X _ _ 13 (sp - 24 - 8 * L) (R 13)); [up; lia|lia|lia|reflexivity]|].
  intros c5 Hc5 T5. match type of T4 with _ => pose proof (fun v => code_poke _ (sp - 24 - 8 * L) v C2 ltac:(lia) ltac:(lia)) as C3 end. specialize (C3 (R 13)).
  eapply (run_next c5); [exact C3|lia| |exact T5| |]; [lia|intro next; apply (x_push next _ X _ _ 14 (sp - 32 - 8 * L) (R 14)); [up; lia|lia|lia|reflexivity]|].
  intros c6 Hc6 T6. pose proof (code_poke _ (sp - 32 - 8 * L) (R 14) C3 ltac:(lia) ltac:(lia)) as C4.
  eapply (run_next c6); [exact C4|lia| |exact T6| |]; [lia|intro next; apply (x_push next _ X _ _ 15 (sp - 40 - 8 * L) (R 15)); [up; lia|lia|lia|reflexivity]|].
  intros c7 Hc7 T7. pose proof (code_poke _ (sp - 40 - 8 * L) (R 15) C4 ltac:(lia) ltac:(lia)) as C5.
  eapply (run_next c7); [exact C5|lia| |exact T7| |]; [lia|intro next; apply (x_store next _ X _ _ 5 (- v_arg f) 7 (sp - 8 - v_arg f) x); [up; lia|wd|lia|exact H7]|].
  intros c8 Hc8 T8. cbn [seq_at] in T8. subst c8. pose proof (code_poke _ (sp - 8 - v_arg f) x C5 ltac:(lia) ltac:(lia)) as C6.
  apply K; [exists e; repeat split; [lia|exact He|exact C]|]. clear K C S1 S2 T1 T2 T4 T5 T6 T7.
  constructor; cbn [start v_reg v_loc v_res v_eq]; try discriminate; try exact C6; try (repeat apply bytes_poke; exact HM); try (repeat first [rewrite quad_same | rewrite quad_other by lia]; apply Z.mod_small; assumption); try (up; fail).
  - intros i Hi. unfold upd. repeat match goal with |- word (if ?c then _ else _) => destruct c end; try (apply HR, Hi); wd.
  - intros o v' Ho E. unfold put in E. destruct (Z.eqb_spec o (v_arg f)) as [-> | _]; [|discriminate]. injection E as <-. split; [|exact Wx]. rewrite quad_same. apply Z.mod_small, Wx.
  - intros y Hy _. rewrite !poke_out by (rewrite le_length; lia). reflexivity.
Qed.
End Function.

Lemma found g k : find_fun fs k = Some g -> In g fs /\ v_name g = k.
Proof. intro H. apply find_some in H. destruct H as [H E]. apply Nat.eqb_eq in E. auto. Qed.
Definition simulated (n : nat) : Prop := forall f room sp R X M c st a R1 F1 M1 before out v,
  In f fs -> frame f <= room <= sp -> sp + 8 <= 2 ^ 64 -> b + len <= sp - room \/ sp <= b -> (forall i, 0 <= i < 16 -> word (R i)) ->
  xmms_ok X -> (forall y, h_own h y -> ~ (sp - room <= y < sp + 8)) -> (forall p, h_at h p = true -> sp mod 16 = 8) ->
  (forall i, In i c -> vmi_ok fs f i) -> here f c a -> rel f room sp R M st R1 F1 M1 ->
  vrun fs (h_at h) (h_need h) n room f c st = Some (out, v) -> hruns h before (b + a) (mkMach R1 X F1 M1) (good room sp R X M before out v).
Lemma sim_goto n f room sp R X M st R1 F1 M1 before out v l a0 : simulated n ->
  In f fs -> frame f <= room <= sp -> sp + 8 <= 2 ^ 64 -> b + len <= sp - room \/ sp <= b -> (forall i, 0 <= i < 16 -> word (R i)) ->
  xmms_ok X -> (forall y, h_own h y -> ~ (sp - room <= y < sp + 8)) -> (forall p, h_at h p = true -> sp mod 16 = 8) ->
  here f (v_body f) a0 -> rel f room sp R M st R1 F1 M1 ->
  (if Nat.eqb l (v_end f) then ended st else match find_mark l (v_body f) with Some c => vrun fs (h_at h) (h_need h) n room f c st | None => None end) = Some (out, v) ->
  hruns h before (final s4 l) (mkMach R1 X F1 M1) (good room sp R X M before out v).
Proof.
  intros IH Hf Hr Ht Hd HR HX Hs Al H0 Rl E. destruct (Nat.eqb l (v_end f)) eqn:El.
  - apply Nat.eqb_eq in El. subst l. destruct (here_end f _ _ H0) as (a' & H' & La). unfold final. rewrite La. eapply at_end; eauto.
  - destruct (find_mark l (v_body f)) as [c|] eqn:Ec; [|discriminate]. destruct (here_mark f l _ _ _ H0 Ec) as (a' & H' & La). unfold final. rewrite La.
    eapply IH; eauto. destruct Ok as (_ & _ & K). destruct (K f Hf) as (_ & _ & Kb). intros i Hi. apply Kb. clear -Ec Hi.
    revert Ec. induction (v_body f) as [|x body IH]; [discriminate|]. intro Ec. right. destruct x; cbn [find_mark] in Ec; auto. destruct (Nat.eqb l0 l); [injection Ec as <-; exact Hi|auto].
Qed.
Lemma body_here f : In f fs -> exists a0, here f (v_body f) a0.
Proof.
  intro Hf. destruct (Placed f Hf) as (a & e & Ha & He & C). unfold fun_items in C. apply chain_app in C. destruct C as (a0 & C1 & C2). apply chain_le in C1. exists a0, e. repeat split; [lia|exact He|exact C2].
Qed.
Theorem simulation : forall n, simulated n.
Proof.
  induction n as [|n IH]; intros f room sp R X M c st a R1 F1 M1 before out v Hf Hr Ht Hd HR HX Hs Al Hk H Rl E; [discriminate|]. cbn [vrun] in E.
  destruct (body_here f Hf) as (a0 & H0). destruct (locals_bound f Hf) as [HL HL']. pose proof Hr as Hr'. rewrite locals_frame in Hr'.
  destruct c as [|i c]; [eapply at_end; eauto|]. pose proof (Hk i (or_introl eq_refl)) as Ki. assert (Hk' : forall i, In i c -> vmi_ok fs f i) by (intros; apply Hk; right; assumption).
  destruct (here_next _ _ _ _ H) as (a' & Ha & Ha' & Sq & H'). pose proof (r_code _ _ _ _ _ _ _ _ _ Rl) as Hc.
  assert (Next : forall st1 R2 F2 M2, rel f room sp R M st1 R2 F2 M2 -> vrun fs (h_at h) (h_need h) n room f c st1 = Some (out, v) -> forall k, seq_at s4 k [] a' -> hruns h before (b + k) (mkMach R2 X F2 M2) (good room sp R X M before out v))
    by (intros st1 R2 F2 M2 Rl' E' k Hq; cbn [seq_at] in Hq; subst k; eapply IH; eauto).
  assert (RW : forall k y, reg_ok k -> v_reg st k = Some y -> R1 (k + 12) = y /\ word y).
  { intros k y Hk1 Ey. pose proof (r_reg _ _ _ _ _ _ _ _ _ Rl k y Hk1 Ey) as <-. split; [reflexivity|]. apply (r_word _ _ _ _ _ _ _ _ _ Rl). unfold reg_ok in Hk1. lia. }
  destruct i as [k w|k o|k o|d s|d s|d s|l|l|l|g ar rr|w|k|k p]; cbn [vm_ins vmi_ok] in Sq, Ki.
  - (* VInt *) eapply run_next; [exact Hc|exact Ha| |exact Sq|intro; apply x_mov_imm|]; [exact Ha'|]. intros k' _ Hq. eapply Next; [|exact E|exact Hq].
    rewrite (u64_word (u64 w) (word_mod _)). apply rel_reg; [exact Ki|apply word_mod|exact Rl].
  - (* VGet *) destruct Ki as [Ko Kv]. destruct (v_loc st o) as [x|] eqn:Ex; [|discriminate]. destruct (r_loc _ _ _ _ _ _ _ _ _ Rl o x Kv Ex) as [Qx Wx]. pose proof (var_addr f Hf o Kv).
    eapply run_next; [exact Hc|exact Ha| |exact Sq|intro; apply (x_load _ _ _ _ _ _ _ _ (sp - 8 - o) x); [rewrite (r_rbp _ _ _ _ _ _ _ _ _ Rl); lia|wd|lia|exact Qx|exact Wx]|]; [exact Ha'|].
    intros k' _ Hq. eapply Next; [|exact E|exact Hq]. apply rel_reg; assumption.
  - (* VSet *) destruct Ki as [Ko Kv]. destruct (v_reg st k) as [x|] eqn:Ex; [|discriminate]. destruct (RW _ _ Ko Ex) as [Rx Wx]. pose proof (var_addr f Hf o Kv).
    eapply run_next; [exact Hc|exact Ha| |exact Sq|intro; apply (x_store _ _ _ _ _ _ _ _ (sp - 8 - o) x); [rewrite (r_rbp _ _ _ _ _ _ _ _ _ Rl); lia|wd|lia|exact Rx]|]; [exact Ha'|].
    intros k' _ Hq. eapply Next; [|exact E|exact Hq]. apply rel_loc; assumption.
  - (* VSub *) destruct Ki as [Kd Ks]. destruct (v_reg st d) as [x|] eqn:Ex; [|discriminate]. destruct (v_reg st s) as [y|] eqn:Ey; [|discriminate]. destruct (RW _ _ Kd Ex) as [Rx Wx]. destruct (RW _ _ Ks Ey) as [Ry Wy].
    eapply run_next; [exact Hc|exact Ha| |exact Sq|intro; apply (x_sub_rr _ _ _ _ _ _ _ x y (u64 (x - y))); [exact Rx|exact Ry|exact Wx|exact Wy|reflexivity]|]; [exact Ha'|].
    intros k' _ Hq. eapply Next; [|exact E|exact Hq]. eapply rel_eq; [intros z Hz; rewrite zf_sub; exact Hz|]. apply rel_reg; [exact Kd|apply word_mod|exact Rl].
  - (* VAdd *) destruct Ki as [Kd Ks]. destruct (v_reg st d) as [x|] eqn:Ex; [|discriminate]. destruct (v_reg st s) as [y|] eqn:Ey; [|discriminate]. destruct (RW _ _ Kd Ex) as [Rx Wx]. destruct (RW _ _ Ks Ey) as [Ry Wy].
    eapply run_next; [exact Hc|exact Ha| |exact Sq|intro; apply (x_add_rr _ _ _ _ _ _ _ x y (u64 (x + y))); [exact Rx|exact Ry|exact Wx|exact Wy|reflexivity]|]; [exact Ha'|].
    intros k' _ Hq. eapply Next; [|exact E|exact Hq]. eapply rel_eq; [intros z Hz; rewrite zf_add; exact Hz|]. apply rel_reg; [exact Kd|apply word_mod|exact Rl].
  - (* VCmp *) destruct Ki as [Kd Ks]. destruct (v_reg st d) as [x|] eqn:Ex; [|discriminate]. destruct (v_reg st s) as [y|] eqn:Ey; [|discriminate]. destruct (RW _ _ Kd Ex) as [Rx Wx]. destruct (RW _ _ Ks Ey) as [Ry Wy].
    eapply run_next; [exact Hc|exact Ha| |exact Sq|intro; apply (x_cmp_rr _ _ _ _ _ _ _ x y); [exact Rx|exact Ry|exact Wx|exact Wy]|]; [exact Ha'|].
    intros k' _ Hq. eapply Next; [|exact E|exact Hq]. eapply rel_eq; [|exact Rl]. intros z Hz. rewrite zf_cmp by assumption. exact Hz.
  - (* VJne *) destruct (v_eq st) as [z|] eqn:Ez; [|discriminate]. pose proof (r_eq _ _ _ _ _ _ _ _ _ Rl z Ez) as Zf. destruct z.
    + eapply run_next; [exact Hc|exact Ha| |exact Sq|intro; apply (x_jne_zf _ _ _ _ _ _ true Zf)|]; [exact Ha'|]. intros k' _ Hq. eapply Next; [exact Rl|exact E|exact Hq].
    + eapply run_taken; [exact Hc|exact Ha| |exact Sq|intro; apply (x_jne_zf _ _ _ _ _ _ false Zf)|]; [exact Ha'|]. eapply sim_goto; eauto.
  - (* VJmp *) eapply run_taken; [exact Hc|exact Ha| |exact Sq|intro; apply x_jmp|]; [exact Ha'|]. eapply sim_goto; eauto.
  - (* VMark *) cbn [seq_at] in Sq. subst a'. eapply IH; eauto.
  - (* VCall *) destruct Ki as (_ & Ka & Kr). destruct (find_fun fs g) as [q|] eqn:Eh; [|discriminate]. destruct (v_reg st ar) as [x|] eqn:Ex; [|discriminate].
    destruct (frame q <=? room - frame f) eqn:Efr; [|discriminate]. destruct (vrun fs (h_at h) (h_need h) n (room - frame f) q (v_body q) (start q x)) as [[o1 y]|] eqn:Ey; [|discriminate].
    destruct (vrun fs (h_at h) (h_need h) n room f c (set_eq None (set_res y (set_reg rr y st)))) as [[o2 v2]|] eqn:E2; [|discriminate E]. cbn [seen] in E. injection E as <- <-.
    apply Z.leb_le in Efr. destruct (found _ _ Eh) as [Hh <-]. destruct (RW _ _ Ka Ex) as [Rx Wx]. clear RW Next.
    eapply run_next; [exact Hc|exact Ha| |exact Sq|intro; apply (x_mov_rr _ _ _ _ _ _ _ x); [exact Rx|exact Wx]|]; [exact Ha'|].
    intros c1 Hc1 S1. pose proof (rel_rdi _ _ _ _ _ _ _ _ _ _ Wx Rl) as Rl1. destruct S1 as (c2 & I2 & S2). cbv beta in I2. rewrite addr0 in I2. pose proof (seq_le _ _ _ _ S2) as L2.
    pose proof (locals_bound q Hh) as HLh. pose proof Efr as Efr'. rewrite (locals_frame q) in Efr'. pose proof (locals_frame f) as Lf.
    pose proof (ins_pos _ _ _ I2) as L1.
    set (sp' := sp - frame f). set (M2 := poke M1 sp' (le 8 (b + c2))).
    assert (Hc2 : code M2) by (unfold M2; apply (code_poke room sp Hd); [exact Hc|unfold sp'; lia|unfold sp'; lia]).
    assert (B2 : bytes_ok M2) by (apply bytes_poke, (r_byte _ _ _ _ _ _ _ _ _ Rl)).
    eapply hruns_step; [apply in_code; lia| |].
    { rewrite (ins_step c1 _ c2 (upd R1 7 x) X F1 M1 (mkMach (upd (upd R1 7 x) 4 sp') X F1 M2) Taken Hc Hc1 ltac:(lia) I2).
      - cbn [after_ins rel_of i_ops]. rewrite Zplus_minus. reflexivity.
      - apply (x_call (b + c2) _ X F1 M1 _ sp'); [rewrite (r_rsp _ _ _ _ _ _ _ _ _ Rl1); unfold sp'; lia|unfold sp'; lia|unfold sp'; lia]. }
    fold M2. set (R2 := upd (upd R1 7 x) 4 sp').
    assert (HR2 : forall i, 0 <= i < 16 -> word (R2 i)).
    { intros i Hi. unfold R2. unfold upd at 1. destruct (i =? 4); [unfold word, sp'; lia|apply (r_word _ _ _ _ _ _ _ _ _ Rl1 i Hi)]. }
    assert (Hs2 : forall z, h_own h z -> ~ (sp' - (room - frame f) <= z < sp' + 8)) by (intros z Hz; apply Hs in Hz; unfold sp'; lia).
    assert (Al2 : forall z, h_at h z = true -> sp' mod 16 = 8) by (intros z Hz; unfold sp'; apply align_call, (Al z Hz)).
    eapply hruns_seq; [eapply (at_start q (room - frame f) sp' R2 X M2 Hh); [unfold sp'; lia|unfold sp'; lia|unfold sp'; lia|exact HR2|exact B2|exact Hs2|exact Hc2|reflexivity|reflexivity|]|].
    { intros ah Rh Fh Mh Hah Rlh. eapply (IH q (room - frame f) sp' R2 X M2 (v_body q) (start q x)); [exact Hh|unfold sp'; lia|unfold sp'; lia|unfold sp'; lia|exact HR2|exact HX|exact Hs2|exact Al2| |exact Hah|exact Rlh|exact Ey].
      destruct Ok as (_ & _ & K). apply (K q Hh). }
    intros out' pc' [Ra Xa Fa Ma] (-> & Pa & V0 & V4 & Vs & Vx & (Vw & Vxw & Vb) & Vm). cbn [regs xmms mm] in *.
    assert (Pa' : pc' = b + c2) by (rewrite Pa; unfold M2; rewrite quad_same; apply Z.mod_small; lia). clear Pa. subst pc'.
    assert (V4' : Ra 4 = sp - 40 - 8 * locals_of f) by (rewrite V4; unfold sp'; rewrite u64_word by (unfold word; lia); lia).
    assert (Mout : forall z, ~ (sp - room <= z < sp - 40 - 8 * locals_of f) -> ~ h_own h z -> Ma z = M1 z).
    { intros z Hz Hz'. rewrite Vm by (try exact Hz'; unfold sp'; lia). unfold M2. apply poke_out. rewrite le_length. unfold sp'. lia. }
    assert (RlA : rel f room sp R M (set_eq None (set_res y st)) Ra Fa Ma).
    { apply (rel_back f room sp R M Hf Hr Hd Hs (set_eq None (set_res y st)) R1 F1 M1 Ra Fa Ma); try assumption.
      - destruct Rl. constructor; cbn [set_eq set_res v_reg v_loc v_res v_eq forget]; try assumption; discriminate.
      - intros i Hi. rewrite Vs by exact Hi. unfold R2, upd. destruct (Z.eqb_spec i 4); [unfold saved in Hi; lia|]. destruct (Z.eqb_spec i 7); [unfold saved in Hi; lia|]. reflexivity.
      - cbn. congruence.
      - discriminate. }
    assert (Wy : word y) by (rewrite <- V0; apply Vw; lia).
    eapply (run_next c2); [exact (r_code _ _ _ _ _ _ _ _ _ RlA)|lia| |exact S2|intro; apply (x_mov_rr _ _ _ _ _ _ _ y); [exact V0|exact Wy]|]; [exact Ha'|].
    intros k' _ Hk1. cbn [seq_at] in Hk1. subst k'. eapply hruns_imp; [eapply (IH f room sp R Xa M c); eauto|].
    + apply (rel_reg f room sp R M (set_eq None (set_res y st)) rr y Ra Fa Ma Kr Wy RlA).
    + intros o' pc' st' G. eapply good_seen; [exact Vx|exact G].
  - (* VConst *) eapply run_next; [exact Hc|exact Ha| |exact Sq|intro; apply x_mov_imm|]; [exact Ha'|]. intros k' _ Hq. eapply Next; [|exact E|exact Hq].
    apply rel_res; [apply word_mod|exact Rl].
  - (* VResult *) destruct (v_reg st k) as [x|] eqn:Ex; [|discriminate]. destruct (RW _ _ Ki Ex) as [Rx Wx].
    eapply run_next; [exact Hc|exact Ha| |exact Sq|intro; apply (x_mov_rr _ _ _ _ _ _ _ x); [exact Rx|exact Wx]|]; [exact Ha'|]. intros k' _ Hq. eapply Next; [|exact E|exact Hq].
    apply rel_res; assumption.
  - (* VPuts *) destruct (v_reg st k) as [x|] eqn:Ex; [|discriminate]. destruct (h_at h (u64 p)) eqn:Ep; [|discriminate]. cbn [andb] in E. destruct (h_need h <=? room - frame f) eqn:Efr; [|discriminate].
    destruct (vrun fs (h_at h) (h_need h) n room f c (forget st)) as [[o2 v2]|] eqn:E2; [|discriminate E]. cbn [seen] in E. injection E as <- <-.
    apply Z.leb_le in Efr. destruct (RW _ _ Ki Ex) as [Rx Wx]. clear RW Next. pose proof (locals_frame f) as Lf.
    eapply run_next; [exact Hc|exact Ha| |exact Sq|intro; apply (x_mov_rr _ _ _ _ _ _ _ x); [exact Rx|exact Wx]|]; [exact Ha'|].
    intros c1 Hc1 S1. pose proof (rel_rdi _ _ _ _ _ _ _ _ _ _ Wx Rl) as Rl1.
    eapply run_next; [exact Hc|exact Hc1| |exact S1|intro; apply x_mov_imm|]; [exact Ha'|].
    rewrite (u64_word (u64 p) (word_mod _)). intros c2 Hc2 S2. pose proof (rel_res _ _ _ _ _ _ _ _ _ _ (word_mod p) Rl1) as Rl2.
    destruct S2 as (c3 & I3 & S3). cbv beta in I3. cbn [seq_at] in S3. subst c3. unfold op1 in I3. pose proof (ins_pos _ _ _ I3) as L1.
    set (sp' := sp - frame f). set (M2 := poke M1 sp' (le 8 (b + a'))). set (R2 := upd (upd (upd R1 7 x) 0 (u64 p)) 4 sp').
    assert (B2 : bytes_ok M2) by (apply bytes_poke, (r_byte _ _ _ _ _ _ _ _ _ Rl)).
    assert (A4 : (upd (upd R1 7 x) 0 (u64 p)) 4 - 8 = sp') by (rewrite (r_rsp _ _ _ _ _ _ _ _ _ Rl2); unfold sp'; lia).
    eapply (hruns_step h before (b + c2) _ (u64 p) (mkMach R2 X F1 M2)); [apply in_code; lia| |].
    { rewrite (ins_step c2 _ a' _ X F1 M1 (mkMach R2 X F1 M2) (Jump (u64 p)) Hc Hc2 Ha' I3); [reflexivity|].
      apply (x_call_reg (b + a') _ X F1 M1 0 (u64 p) sp' A4); [unfold sp'; lia|unfold sp'; lia|reflexivity|apply word_mod]. }
    assert (W2 : wf (mkMach R2 X F1 M2)).
    { split; [|split; [exact HX|exact B2]]. cbn [regs]. intros i Hi. match goal with |- 0 <= ?u < _ => change (word u) end. unfold R2. unfold upd at 1. destruct (i =? 4); [unfold word, sp'; lia|apply (r_word _ _ _ _ _ _ _ _ _ Rl2 i Hi)]. }
    destruct (Abi before (u64 p) (mkMach R2 X F1 M2) Ep W2) as ([Ra Xa Fa Ma] & Es & (Vw & Vxw & Vb) & V4 & Vs & Vm).
    { cbn [regs]. change (R2 4) with sp'. unfold sp'. apply align_call, (Al _ Ep). }
    { cbn [regs]. change (R2 4) with sp'. unfold sp'. lia. }
    { cbn [regs]. change (R2 4) with sp'. unfold sp'. lia. }
    cbn [regs xmms mm] in *. change (R2 4) with sp' in *.
    eapply (hruns_host h before (u64 p) _ (before ++ [(u64 p, x)]) (b + a')).
    { unfold host_step. rewrite Ep, Es. cbn [regs mm]. change (R2 4) with sp'. change (R2 7) with x. unfold M2. rewrite quad_same.
      rewrite (Z.mod_small (b + a')) by lia. reflexivity. }
    assert (V4' : Ra 4 = sp - 40 - 8 * locals_of f) by (rewrite V4; unfold sp'; rewrite u64_word by (unfold word; lia); lia).
    assert (Mout : forall z, ~ (sp - room <= z < sp - 40 - 8 * locals_of f) -> ~ h_own h z -> Ma z = M1 z).
    { intros z Hz Hz'. rewrite Vm by (try exact Hz'; unfold sp'; lia). unfold M2. apply poke_out. rewrite le_length. unfold sp'. lia. }
    assert (RlA : rel f room sp R M (forget st) Ra Fa Ma).
    { apply (rel_back f room sp R M Hf Hr Hd Hs (forget st) R1 F1 M1 Ra Fa Ma); try assumption.
      - destruct Rl. constructor; cbn [forget v_reg v_loc v_res v_eq]; try assumption; discriminate.
      - intros i Hi. rewrite Vs by exact Hi. unfold R2, upd. unfold saved in Hi.
        repeat match goal with |- context [?u =? ?w] => destruct (Z.eqb_spec u w); [exfalso; lia|] end. reflexivity.
      - discriminate.
      - discriminate. }
    eapply hruns_imp; [eapply (IH f room sp R Xa M c); eauto|]. intros o' pc' st' G. change ((u64 p, x) :: o2) with ([(u64 p, x)] ++ o2).
    eapply good_seen; [discriminate|exact G].
Qed.
End Run.
